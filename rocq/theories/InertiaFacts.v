(** Lemmas about the Wilson A vectors and the inertia tensor. *)
From Coq Require Import Reals Lra Lia List ZArith Arith Bool.
From Verif Require Import Num Loops Index Modes Anharm VibRot.
From Verif Require Import ListFacts ModesFacts ResFacts AnharmFacts EnergyFacts VibRotFacts.
Import ListNotations.
Open Scope R_scope.

(** component [a] of a position *)
Definition comp (p : R * R * R) (a : nat) : R :=
  match a with O => fst (fst p) | S O => snd (fst p) | _ => snd p end.
Definition kron (a b : nat) : R := if (a =? b)%nat then 1 else 0.
(** element (a, b) of the inertia tensor of [natom] point masses [m] at [p] *)
Definition inertia (natom : nat) (m : nat -> R) (p : nat -> R * R * R) (a b : nat) : R :=
  Rsum (seq 0 natom) (fun i =>
    m i * (kron a b * (comp (p i) 0 ^ 2 + comp (p i) 1 ^ 2 + comp (p i) 2 ^ 2)
           - comp (p i) a * comp (p i) b)).
(** the Cartesian displacement along the mass-weighted normal coordinate [k] *)
Definition along (geom : nat -> R * R * R) (m : nat -> R) (lxm : nat -> nat -> R) (k : nat) (q : R)
  (i : nat) : R * R * R :=
  (comp (geom i) 0 + q * lxm (3 * i)%nat k / sqrt (m i),
   comp (geom i) 1 + q * lxm (3 * i + 1)%nat k / sqrt (m i),
   comp (geom i) 2 + q * lxm (3 * i + 2)%nat k / sqrt (m i)).
(** the mode carries no angular momentum: the rotational Eckart (Sayvetz) condition *)
Definition eckart (natom : nat) (geom : nat -> R * R * R) (m : nat -> R) (lxm : nat -> nat -> R) (k : nat)
  : Prop :=
  forall a b, (a < 3)%nat -> (b < 3)%nat ->
  Rsum (seq 0 natom) (fun i => sqrt (m i) *
    (comp (geom i) a * lxm (3 * i + b)%nat k - comp (geom i) b * lxm (3 * i + a)%nat k)) = 0.
(** the part of the inertia tensor that is quadratic in the normal coordinate *)
Definition quadratic (natom : nat) (lxm : nat -> nat -> R) (k a b : nat) : R :=
  Rsum (seq 0 natom) (fun i =>
    kron a b * (lxm (3 * i)%nat k ^ 2 + lxm (3 * i + 1)%nat k ^ 2 + lxm (3 * i + 2)%nat k ^ 2)
    - lxm (3 * i + a)%nat k * lxm (3 * i + b)%nat k).

Lemma inertia_lemma natom geom m lxm k a b q :
  (forall i, (i < natom)%nat -> 0 < m i) -> eckart natom geom m lxm k ->
  (a < 3)%nat -> (b < 3)%nat ->
  inertia natom m (along geom m lxm k q) a b =
  inertia natom m geom a b + q * wila natom geom m lxm k (acol a b) + q ^ 2 * quadratic natom lxm k a b.
Proof.
  intros Hm E Ha Hb.
  assert (P : forall i, In i (seq 0 natom) -> exists s, sqrt (m i) = s /\ s <> 0 /\ m i = s * s).
  { intros i Hi. apply in_seq in Hi. assert (0 < m i) as L by (apply Hm; lia).
    exists (sqrt (m i)). split; [reflexivity|].
    split; [apply Rgt_not_eq, sqrt_lt_R0, L|]. symmetry. apply sqrt_sqrt. lra. }
  assert (W : wila natom geom m lxm k (acol a b) =
    Rsum (seq 0 natom) (fun i => 2 * (sqrt (m i) *
      (kron a b * (comp (geom i) 0 * lxm (3 * i)%nat k + comp (geom i) 1 * lxm (3 * i + 1)%nat k
                   + comp (geom i) 2 * lxm (3 * i + 2)%nat k)
       - comp (geom i) (Nat.min a b) * lxm (3 * i + Nat.max a b)%nat k)))).
  { rewrite Rsum_scal. unfold wila. cbv zeta.
    destruct a as [|[|[|]]]; try lia; destruct b as [|[|[|]]]; try lia; cbn [acol];
      rewrite ?nsum_R, ?acc_sub_R, range_0; cbn [nmul nadd nsqrt Rnum]; rewrite !nz_R;
      f_equal; rewrite ?Rminus_0_l, <- ?Rsum_opp; apply Rsum_ext; intros i _;
      unfold kron, cx, cy, cz, comp; cbn [Nat.eqb Nat.min Nat.max]; rewrite ?Nat.add_0_r; ring. }
  rewrite W. clear W.
  assert (A : Rsum (seq 0 natom) (fun i => sqrt (m i) *
    (comp (geom i) (Nat.min a b) * lxm (3 * i + Nat.max a b)%nat k
     - comp (geom i) (Nat.max a b) * lxm (3 * i + Nat.min a b)%nat k)) = 0) by (apply E; lia).
  unfold inertia, quadratic. rewrite <- !Rsum_scal, <- !Rsum_plus.
  transitivity (Rsum (seq 0 natom) (fun i =>
    m i * (kron a b * (comp (along geom m lxm k q i) 0 ^ 2 + comp (along geom m lxm k q i) 1 ^ 2
         + comp (along geom m lxm k q i) 2 ^ 2)
       - comp (along geom m lxm k q i) a * comp (along geom m lxm k q i) b))
    + (- q) * Rsum (seq 0 natom) (fun i => sqrt (m i) *
    (comp (geom i) (Nat.min a b) * lxm (3 * i + Nat.max a b)%nat k
     - comp (geom i) (Nat.max a b) * lxm (3 * i + Nat.min a b)%nat k))).
  { rewrite A. ring. }
  rewrite <- Rsum_scal, <- Rsum_plus. apply Rsum_ext. intros i Hi.
  destruct (P i Hi) as (s & Es & Ns & Em). unfold along. rewrite Es, Em. clear - Ns Ha Hb.
  destruct a as [|[|[|]]]; try lia; destruct b as [|[|[|]]]; try lia;
    unfold kron, comp; cbn [Nat.eqb Nat.min Nat.max fst snd]; rewrite ?Nat.add_0_r; field; exact Ns.
Qed.
