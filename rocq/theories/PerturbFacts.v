(** Rayleigh-Schroedinger perturbation theory for coupled oscillators, and lemmas relating
    it to the anharmonic constants and E0. *)
From Coq Require Import Reals Lra List ZArith Arith Permutation Lia Bool FunctionalExtensionality.
From Verif Require Import Num Loops Index Modes ListFacts ModesFacts StatesFacts ResFacts
  Anharm AnharmFacts EnergyFacts.
Import ListNotations.
Open Scope nat_scope.
Local Open Scope R_scope.

(** ** the specification: harmonic oscillators in the number basis *)

(** a basis state gives the number of quanta in each mode *)
Definition occ := nat -> nat.
Definition up (l : nat) (u : occ) : occ := fun i => if (i =? l)%nat then S (u i) else u i.
Definition down (l : nat) (u : occ) : occ := fun i => if (i =? l)%nat then pred (u i) else u i.

(** the same state as far as the first [n] modes are concerned *)
Definition same (n : nat) (u v : occ) : bool := forallb (fun i => u i =? v i)%nat (seq 0 n).

(** a wave function [psi] is given by its amplitudes [psi u] on the basis states *)
Definition ket (n : nat) (v : occ) : occ -> R := fun u => if same n u v then 1 else 0.

(** the dimensionless coordinate q_l, and the dimensionless momentum p_l divided by the
    imaginary unit *)
Definition pos (l : nat) (psi : occ -> R) : occ -> R := fun u =>
  sqrt (INR (u l) / 2) * psi (down l u) + sqrt (INR (u l + 1) / 2) * psi (up l u).
Definition mom (l : nat) (psi : occ -> R) : occ -> R := fun u =>
  sqrt (INR (u l) / 2) * psi (down l u) - sqrt (INR (u l + 1) / 2) * psi (up l u).

Section Spec.
  Variable n : nat.
  Variables (w : nat -> R) (f3 : nat -> nat -> nat -> R) (f4 : nat -> nat -> nat -> nat -> R)
    (zeta : nat -> nat -> nat -> R) (B : nat -> R) (res : nat -> nat -> nat -> bool).
  Let S (f : nat -> R) : R := Rsum (seq 0 n) f.

  (** the harmonic energy *)
  Definition harm_energy (v : occ) : R := S (fun i => w i * (INR (v i) + / 2)).

  (** the cubic and quartic parts of the potential energy *)
  Definition cubic (psi : occ -> R) : occ -> R := fun u =>
    S (fun i => S (fun j => S (fun k => f3 i j k / 6 * pos i (pos j (pos k psi)) u))).
  Definition quartic (psi : occ -> R) : occ -> R := fun u =>
    S (fun i => S (fun j => S (fun k => S (fun l =>
      f4 i j k l / 24 * pos i (pos j (pos k (pos l psi))) u)))).

  (** a component of the vibrational angular momentum, divided by the imaginary unit *)
  Definition angular (a : nat) (psi : occ -> R) : occ -> R := fun u =>
    S (fun k => S (fun l => zeta k l a * sqrt (w l / w k) * pos k (mom l psi) u)).

  (** the transition from [v] to [u] takes one quantum of mode k to one quantum each of i
      and j, or back, where w_i + w_j ~ w_k is a resonance *)
  Definition near (v u : occ) : bool :=
    existsb (fun i => existsb (fun j => existsb (fun k =>
      res i j k &&
      (same n (up k u) (up i (up j v)) || same n (up k v) (up i (up j u))))
      (seq 0 n)) (seq 0 n)) (seq 0 n).

  (** the energy of the state [v] to second order: the cubic terms in second order, without
      the resonant transitions; the quartic terms and the rotational energy of the
      vibrational angular momentum in first order.  [us] is the list of the other states. *)
  Definition perturbed (v : occ) (us : list occ) : R :=
    harm_energy v
    + quartic (ket n v) v
    + Rsum us (fun u => if near v u then 0 else
        cubic (ket n v) u * cubic (ket n v) u / (harm_energy v - harm_energy u))
    - (B 0%nat * angular 0 (angular 0 (ket n v)) v
       + B 1%nat * angular 1 (angular 1 (ket n v)) v
       + B 2%nat * angular 2 (angular 2 (ket n v)) v).

  (** [us] lists different states and contains all that the cubic terms couple to [v] *)
  Definition intermediate (v : occ) (us : list occ) : Prop :=
    ForallOrdPairs (fun u u' => same n u u' = false) us /\
    (forall u, cubic (ket n v) u <> 0 -> exists u', In u' us /\ same n u u' = true).

  (** the part of the rotational energy of the vibrational angular momentum that is the
      same for all states *)
  Definition angular_shift : R :=
    S (fun k => Rsum (seq 0 k) (fun l =>
      (B 0%nat * (zeta k l 0%nat * zeta k l 0%nat) + B 1%nat * (zeta k l 1%nat * zeta k l 1%nat)
       + B 2%nat * (zeta k l 2%nat * zeta k l 2%nat)) / 2)).
End Spec.

(** ** sums and products *)
Lemma Rsum_flat_map {A C} (f : C -> R) (g : A -> list C) l :
  Rsum (flat_map g l) f = Rsum l (fun a => Rsum (g a) f).
Proof. induction l as [|a l IH]; [reflexivity|]. cbn [flat_map]. now rewrite Rsum_app, Rsum_cons, IH. Qed.

Lemma Rsum_lt n k (f : nat -> R) : (k <= n)%nat ->
  Rsum (seq 0 k) f = Rsum (seq 0 n) (fun l => if (l <? k)%nat then f l else 0).
Proof.
  intros Hk. rewrite <- (filter_lt_seq k n Hk).
  induction (seq 0 n) as [|a l IH]; [reflexivity|]. cbn [filter]. rewrite Rsum_cons, <- IH.
  destruct (a <? k)%nat; [now rewrite Rsum_cons|lra].
Qed.

Lemma Rsum_pick n (f : nat -> R) k : (k < n)%nat ->
  Rsum (seq 0 n) (fun l => if (l =? k)%nat then f l else 0) = f k.
Proof. intros Hk. apply Rsum_single; [apply seq_NoDup|apply in_seq; lia]. Qed.

Fixpoint Rprod {A} (l : list A) (f : A -> R) : R :=
  match l with [] => 1 | a :: r => f a * Rprod r f end.
Lemma Rprod_ext {A} (f g : A -> R) l : (forall a, In a l -> f a = g a) -> Rprod l f = Rprod l g.
Proof.
  induction l as [|a l IH]; intros E; [reflexivity|]. cbn [Rprod].
  rewrite E by (cbn; auto). rewrite IH; [reflexivity|]. intros; apply E; cbn; auto.
Qed.
Lemma Rprod_at n (f : nat -> R) k : (k < n)%nat ->
  Rprod (seq 0 n) f = f k * Rprod (seq 0 n) (fun i => if (i =? k)%nat then 1 else f i).
Proof.
  intros Hk. assert (H : In k (seq 0 n)) by (apply in_seq; lia).
  pose proof (seq_NoDup n 0) as Nd. revert H Nd. generalize (seq 0 n) as l.
  induction l as [|a l IH]; intros Hi Nd; [contradiction|].
  inversion Nd as [|? ? Na Nl]; subst. cbn [Rprod].
  destruct (Nat.eqb_spec a k) as [->|Ne].
  - rewrite (Rprod_ext (fun i => if (i =? k)%nat then 1 else f i) f); [lra|].
    intros b Hb. destruct (Nat.eqb_spec b k); [subst; contradiction|reflexivity].
  - destruct Hi as [->|Hi]; [congruence|]. rewrite IH by assumption. lra.
Qed.
Lemma Rprod_same n u v :
  Rprod (seq 0 n) (fun i => if (u i =? v i)%nat then 1 else 0) = if same n u v then 1 else 0.
Proof.
  unfold same. induction (seq 0 n) as [|a l IH]; [reflexivity|]. cbn [Rprod forallb].
  rewrite IH. destruct (u a =? v a)%nat, (forallb _ l); cbn [andb]; lra.
Qed.

(** ** words of ladder operators, mode by mode *)
Definition lad (s : R) (l : nat) (psi : occ -> R) : occ -> R := fun u =>
  sqrt (INR (u l) / 2) * psi (down l u) + s * sqrt (INR (u l + 1) / 2) * psi (up l u).
Lemma pos_lad l : pos l = lad 1 l.
Proof. extensionality psi. extensionality u. unfold pos, lad. lra. Qed.
Lemma mom_lad l : mom l = lad (-1) l.
Proof. extensionality psi. extensionality u. unfold mom, lad. lra. Qed.

Lemma lad_sum {A} s l (L : list A) (c : A -> R) (psi : A -> occ -> R) u :
  lad s l (fun u => Rsum L (fun x => c x * psi x u)) u = Rsum L (fun x => c x * lad s l (psi x) u).
Proof.
  unfold lad. rewrite <- !Rsum_scal, <- Rsum_plus. apply Rsum_ext. intros. lra.
Qed.

(** the matrix elements of a word for one mode *)
Fixpoint elt (ws : list R) (a b : nat) : R :=
  match ws with
  | [] => if (a =? b)%nat then 1 else 0
  | s :: r => sqrt (INR a / 2) * elt r (pred a) b + s * sqrt (INR (a + 1) / 2) * elt r (S a) b
  end.
Definition word := list (nat * R).
Definition act (wd : word) (psi : occ -> R) : occ -> R :=
  fold_right (fun '(l, s) phi => lad s l phi) psi wd.
Definition on (i : nat) (wd : word) : list R :=
  map snd (filter (fun '(l, _) => (l =? i)%nat) wd).

Lemma act_product n wd v : (forall l s, In (l, s) wd -> (l < n)%nat) ->
  forall u, act wd (ket n v) u = Rprod (seq 0 n) (fun i => elt (on i wd) (u i) (v i)).
Proof.
  induction wd as [|[l s] wd IH]; intros Hl u.
  - cbn [act fold_right on filter map elt]. unfold ket. now rewrite Rprod_same.
  - cbn [act fold_right]. fold (act wd (ket n v)). unfold lad.
    rewrite !IH by (intros; eapply Hl; right; eassumption).
    assert (Hn : (l < n)%nat) by (eapply Hl; left; reflexivity).
    assert (R1 : forall x, Rprod (seq 0 n) (fun i =>
        elt (on i wd) (if (i =? l)%nat then x else u i) (v i))
      = elt (on l wd) x (v l)
        * Rprod (seq 0 n) (fun i => if (i =? l)%nat then 1 else elt (on i ((l, s) :: wd)) (u i) (v i))).
    { intros x. rewrite (Rprod_at n _ l Hn), Nat.eqb_refl. f_equal. apply Rprod_ext. intros i _.
      destruct (Nat.eqb_spec i l) as [E|E]; [reflexivity|].
      unfold on. cbn [filter]. destruct (Nat.eqb_spec l i); [congruence|reflexivity]. }
    rewrite (Rprod_ext _ (fun i => elt (on i wd) (if (i =? l)%nat then pred (u l) else u i) (v i))).
    2:{ intros i _. unfold down. destruct (Nat.eqb_spec i l); subst; reflexivity. }
    rewrite R1.
    rewrite (Rprod_ext (fun i => elt (on i wd) (up l u i) (v i))
      (fun i => elt (on i wd) (if (i =? l)%nat then S (u l) else u i) (v i))).
    2:{ intros i _. unfold up. destruct (Nat.eqb_spec i l); subst; reflexivity. }
    rewrite R1. rewrite (Rprod_at n (fun i => elt (on i ((l, s) :: wd)) (u i) (v i)) l Hn).
    set (P := Rprod _ _). unfold on at 3. cbn [filter]. rewrite Nat.eqb_refl.
    cbn [map elt snd]. fold (on l wd). ring.
Qed.

(** ** one-mode matrix elements *)
Definition a1 (s : bool) (x : nat) : R := sqrt (INR (if s then x + 1 else x) / 2).
Definition a2 (s : bool) (x : nat) : R :=
  a1 s x * a1 s (if s then x + 1 else x - 1).
Definition a3 (s : bool) (x : nat) : R :=
  a2 s x * a1 s (if s then x + 2 else x - 2).
Definition at_z (z : Z) (a b : nat) : R := if (Z.of_nat a =? Z.of_nat b + z)%Z then 1 else 0.

Lemma half_pos x : 0 <= INR x / 2.
Proof. pose proof (pos_INR x). lra. Qed.
Lemma sq_half x : sqrt (INR x / 2) * sqrt (INR x / 2) = INR x / 2.
Proof. apply sqrt_sqrt, half_pos. Qed.

Lemma sq0 : sqrt (INR 0 / 2) = 0.
Proof. change (INR 0) with 0. unfold Rdiv. rewrite Rmult_0_l. apply sqrt_0. Qed.

Lemma elt1 s a b : elt [s] a b = a1 true b * at_z 1 a b + s * a1 false b * at_z (-1) a b.
Proof.
  cbn [elt]. unfold at_z, a1. cbv iota.
  destruct (Nat.eqb_spec (pred a) b), (Nat.eqb_spec (S a) b),
    (Z.eqb_spec (Z.of_nat a) (Z.of_nat b + 1)), (Z.eqb_spec (Z.of_nat a) (Z.of_nat b + -1)); try lia.
  - subst b. replace (pred a + 1)%nat with a by lia. ring.
  - assert (a = 0)%nat by lia. subst a. rewrite sq0. ring.
  - subst b. replace (a + 1)%nat with (S a) by lia. ring.
  - ring.
Qed.

Ltac zcases :=
  repeat (match goal with |- context [Z.eqb ?p ?q] => destruct (Z.eqb_spec p q) end;
          try (exfalso; lia)).

Lemma elt2 s t a b : elt [s; t] a b =
  a2 true b * at_z 2 a b + s * t * a2 false b * at_z (-2) a b
  + (t * INR b / 2 + s * INR (b + 1) / 2) * at_z 0 a b.
Proof.
  change (elt [s; t] a b)
    with (sqrt (INR a / 2) * elt [t] (pred a) b + s * sqrt (INR (a + 1) / 2) * elt [t] (S a) b).
  rewrite !elt1. unfold at_z, a2, a1. cbv iota.
  destruct a as [|a].
  - rewrite sq0.
    destruct b as [|[|[|b]]]; zcases; try ring; cbn [Nat.add Nat.sub].
    + pose proof (f_equal (Rmult s) (sq_half 1)) as Q.
      change (INR 0) with 0. rewrite Rmult_assoc in *. lra.
    + ring.
  - cbn [pred]. zcases.
    + assert (a = b + 1)%nat as -> by lia. replace (S (b + 1)) with (b + 1 + 1)%nat by lia. ring.
    + assert (b = S a)%nat as -> by lia. replace (a + 1)%nat with (S a) by lia.
      pose proof (f_equal (Rmult t) (sq_half (S a))).
      pose proof (f_equal (Rmult s) (sq_half (S a + 1))). lra.
    + assert (b = S (S (S a)))%nat as -> by lia.
      replace (S (S (S a)) - 1)%nat with (S a + 1)%nat by lia. 
      replace (S (S a)) with (S a + 1)%nat by lia. ring.
    + ring.
Qed.

Lemma elt3 a b : elt [1; 1; 1] a b =
  a3 true b * at_z 3 a b + a3 false b * at_z (-3) a b
  + 3 * INR (b + 1) / 2 * a1 true b * at_z 1 a b + 3 * INR b / 2 * a1 false b * at_z (-1) a b.
Proof.
  change (elt [1; 1; 1] a b)
    with (sqrt (INR a / 2) * elt [1; 1] (pred a) b + 1 * sqrt (INR (a + 1) / 2) * elt [1; 1] (S a) b).
  rewrite !elt2. unfold at_z, a3, a2, a1. cbv iota.
  destruct a as [|a].
  - rewrite sq0. destruct b as [|[|[|[|b]]]]; zcases; try ring; cbn [Nat.add Nat.sub].
    + change (INR 2) with (1 + 1). change (INR 1) with 1. lra.
    + ring.
  - cbn [pred]. zcases.
    + assert (a = b + 2)%nat as -> by lia. replace (S (b + 2)) with (b + 2 + 1)%nat by lia. ring.
    + assert (b = S (S a))%nat as -> by lia.
      replace (S (S a) - 1)%nat with (S a) by lia. replace (S a + 1)%nat with (S (S a)) by lia.
      pose proof (f_equal (Rmult (sqrt (INR (S (S a)) / 2))) (sq_half (S a))) as Q.
      replace (S (S a) + 1)%nat with (S (S (S a))) by lia. rewrite !S_INR in *. lra.
    + assert (a = b)%nat as -> by lia. replace (S b) with (b + 1)%nat by lia.
      pose proof (f_equal (Rmult (sqrt (INR (b + 1) / 2))) (sq_half (b + 1 + 1))) as Q.
      rewrite !plus_INR in *. change (INR 1) with 1 in *. lra.
    + assert (b = S (S (S (S a))))%nat as -> by lia.
      replace (S (S (S (S a))) - 1)%nat with (S (S (S a))) by lia.
      replace (S (S (S (S a))) - 2)%nat with (S a + 1)%nat by lia. ring.
    + ring.
Qed.

Lemma elt4 a : elt [1; 1; 1; 1] a a = 3 / 2 * ((INR a + / 2) * (INR a + / 2)) + 3 / 8.
Proof.
  change (elt [1; 1; 1; 1] a a)
    with (sqrt (INR a / 2) * elt [1; 1; 1] (pred a) a + 1 * sqrt (INR (a + 1) / 2) * elt [1; 1; 1] (S a) a).
  rewrite !elt3. unfold at_z, a1. cbv iota.
  destruct a as [|a].
  - rewrite sq0. zcases. change (0 + 1)%nat with 1%nat. pose proof (sq_half 1) as Q.
    change (INR 1) with 1 in *. change (INR 0) with 0. lra.
  - cbn [pred]. zcases.
    pose proof (f_equal (Rmult (INR (S a))) (sq_half (S a))) as Q.
    pose proof (f_equal (Rmult (INR (S a + 1))) (sq_half (S a + 1))) as Q'.
    rewrite !plus_INR in *. change (INR 1) with 1 in *. set (x := INR (S a)) in *.
    lra.
Qed.

Lemma elt_odd1 s a : elt [s] a a = 0.
Proof. rewrite elt1. unfold at_z. zcases. ring. Qed.
Lemma elt_odd3 s t r a : elt [s; t; r] a a = 0.
Proof.
  change (elt [s; t; r] a a)
    with (sqrt (INR a / 2) * elt [t; r] (pred a) a + s * sqrt (INR (a + 1) / 2) * elt [t; r] (S a) a).
  rewrite !elt2. unfold at_z. destruct a as [|a].
  - rewrite sq0. zcases; ring.
  - cbn [pred]. zcases. ring.
Qed.
Lemma elt_diag2 s t a : elt [s; t] a a = t * INR a / 2 + s * (INR a + 1) / 2.
Proof. rewrite elt2. unfold at_z. zcases. rewrite plus_INR. change (INR 1) with 1. ring. Qed.
Lemma elt_diag0 a : elt [] a a = 1.
Proof. cbn [elt]. now rewrite Nat.eqb_refl. Qed.

(** ** splitting sums by equal indices *)
Section Split.
  Variable n : nat.
  Let Sm (f : nat -> R) : R := Rsum (seq 0 n) f.

  Lemma Sm_ext f g : (forall i, (i < n)%nat -> f i = g i) -> Sm f = Sm g.
  Proof. intros E. apply Rsum_ext. intros i Hi. apply in_seq in Hi. apply E. lia. Qed.
  Lemma Sm_pick2 f i : (i < n)%nat -> Sm (fun j => if (i =? j)%nat then f j else 0) = f i.
  Proof.
    intros Hi. rewrite <- (Rsum_pick n f i Hi). apply Rsum_ext. intros j _.
    now rewrite Nat.eqb_sym.
  Qed.

  (** exchanging the summation variables *)
  Lemma Sm3_swap12 (g : nat -> nat -> nat -> R) :
    Sm (fun i => Sm (fun j => Sm (fun k => g i j k))) = Sm (fun i => Sm (fun j => Sm (fun k => g j i k))).
  Proof. unfold Sm. now rewrite (Rsum_swap (fun i j => Rsum (seq 0 n) (fun k => g i j k))). Qed.
  Lemma Sm3_swap23 (g : nat -> nat -> nat -> R) :
    Sm (fun i => Sm (fun j => Sm (fun k => g i j k))) = Sm (fun i => Sm (fun j => Sm (fun k => g i k j))).
  Proof. unfold Sm. apply Rsum_ext. intros i _. now rewrite (Rsum_swap (fun j k => g i j k)). Qed.

  Definition ordered (i j k : nat) : bool := (j <? i)%nat && (k <? j)%nat.

  Lemma split3 (g : nat -> nat -> nat -> R) :
    (forall i j k, (i < n)%nat -> (j < n)%nat -> (k < n)%nat -> g i j k = g j i k) ->
    (forall i j k, (i < n)%nat -> (j < n)%nat -> (k < n)%nat -> g i j k = g i k j) ->
    Sm (fun i => Sm (fun j => Sm (fun k => g i j k))) =
    Sm (fun i => g i i i)
    + 3 * Sm (fun i => Sm (fun k => if (k =? i)%nat then 0 else g i i k))
    + 6 * Sm (fun i => Sm (fun j => Sm (fun k => if ordered i j k then g i j k else 0))).
  Proof.
    intros G1 G2.
    set (p := fun i j k => if (j =? i)%nat then if (k =? i)%nat then g i i i else 0 else 0).
    set (q := fun i j k => if (j =? i)%nat then if (k =? i)%nat then 0 else g i i k else 0).
    set (r := fun i j k => if ordered i j k then g i j k else 0).
    assert (E : forall i j k, (i < n)%nat -> (j < n)%nat -> (k < n)%nat -> g i j k =
      p i j k + (q i j k + q i k j + q j k i)
      + (r i j k + r i k j + r j i k + r j k i + r k i j + r k j i)).
    { intros i j k Hi Hj Hk. unfold p, q, r, ordered.
      destruct (Nat.lt_total i j) as [A|[A|A]], (Nat.lt_total j k) as [C|[C|C]],
        (Nat.lt_total i k) as [D|[D|D]]; try lia;
      repeat (match goal with
        | |- context [Nat.eqb ?a ?b] => destruct (Nat.eqb_spec a b); try lia
        | |- context [Nat.ltb ?a ?b] => destruct (Nat.ltb_spec a b); try lia end);
      cbn [andb]; pose proof (G2 i j k Hi Hj Hk); pose proof (G1 i j k Hi Hj Hk);
      pose proof (G1 i k j Hi Hk Hj); pose proof (G2 j i k Hj Hi Hk); pose proof (G1 j k i Hj Hk Hi);
      subst; lra. }
    rewrite (Sm_ext _ (fun i => Sm (fun j => Sm (fun k => p i j k))
      + (Sm (fun j => Sm (fun k => q i j k)) + Sm (fun j => Sm (fun k => q i k j))
         + Sm (fun j => Sm (fun k => q j k i)))
      + (Sm (fun j => Sm (fun k => r i j k)) + Sm (fun j => Sm (fun k => r i k j))
         + Sm (fun j => Sm (fun k => r j i k)) + Sm (fun j => Sm (fun k => r j k i))
         + Sm (fun j => Sm (fun k => r k i j)) + Sm (fun j => Sm (fun k => r k j i))))).
    2:{ intros i Hi. unfold Sm. rewrite <- !Rsum_plus. apply Rsum_ext. intros j Hj.
        rewrite <- !Rsum_plus. apply Rsum_ext. intros k Hk. apply in_seq in Hj, Hk.
        apply E; lia. }
    assert (Q : Sm (fun i => Sm (fun j => Sm (fun k => q i j k)))
              = Sm (fun i => Sm (fun k => if (k =? i)%nat then 0 else g i i k))).
    { apply Sm_ext. intros i Hi. unfold q, Sm.
      rewrite (Rsum_ext _ (fun j => if (j =? i)%nat
         then Rsum (seq 0 n) (fun k => if (k =? i)%nat then 0 else g i i k) else 0)).
      - apply (Rsum_pick n (fun _ => Rsum (seq 0 n) (fun k => if (k =? i)%nat then 0 else g i i k)) i Hi).
      - intros j _. destruct (j =? i)%nat; [reflexivity|]. now apply Rsum_0. }
    assert (P : Sm (fun i => Sm (fun j => Sm (fun k => p i j k))) = Sm (fun i => g i i i)).
    { apply Sm_ext. intros i Hi. unfold p, Sm.
      rewrite (Rsum_ext _ (fun j => if (j =? i)%nat then g i i i else 0)).
      - apply (Rsum_pick n (fun _ => g i i i) i Hi).
      - intros j _. destruct (j =? i)%nat; [|now apply Rsum_0].
        apply (Rsum_pick n (fun _ => g i i i) i Hi). }
    unfold Sm in *. rewrite !Rsum_plus.
    change (fun i => Rsum (seq 0 n) (fun j => Rsum (seq 0 n) (fun k => q i k j)))
      with (fun i => Sm (fun j => Sm (fun k => q i k j))).
    assert (q1 : Rsum (seq 0 n) (fun i => Rsum (seq 0 n) (fun j => Rsum (seq 0 n) (fun k => q i k j)))
      = Sm (fun i => Sm (fun j => Sm (fun k => q i j k)))) by (symmetry; apply (Sm3_swap23 q)).
    assert (q2 : Rsum (seq 0 n) (fun i => Rsum (seq 0 n) (fun j => Rsum (seq 0 n) (fun k => q j k i)))
      = Sm (fun i => Sm (fun j => Sm (fun k => q i j k)))).
    { symmetry. rewrite (Sm3_swap23 q). rewrite (Sm3_swap12 (fun i j k => q i k j)). reflexivity. }
    assert (r1 : Rsum (seq 0 n) (fun i => Rsum (seq 0 n) (fun j => Rsum (seq 0 n) (fun k => r i k j)))
      = Sm (fun i => Sm (fun j => Sm (fun k => r i j k)))) by (symmetry; apply (Sm3_swap23 r)).
    assert (r2 : Rsum (seq 0 n) (fun i => Rsum (seq 0 n) (fun j => Rsum (seq 0 n) (fun k => r j i k)))
      = Sm (fun i => Sm (fun j => Sm (fun k => r i j k)))) by (symmetry; apply (Sm3_swap12 r)).
    assert (r3 : Rsum (seq 0 n) (fun i => Rsum (seq 0 n) (fun j => Rsum (seq 0 n) (fun k => r j k i)))
      = Sm (fun i => Sm (fun j => Sm (fun k => r i j k)))).
    { symmetry. rewrite (Sm3_swap23 r). rewrite (Sm3_swap12 (fun i j k => r i k j)). reflexivity. }
    assert (r4 : Rsum (seq 0 n) (fun i => Rsum (seq 0 n) (fun j => Rsum (seq 0 n) (fun k => r k i j)))
      = Sm (fun i => Sm (fun j => Sm (fun k => r i j k)))).
    { symmetry. rewrite (Sm3_swap12 r). rewrite (Sm3_swap23 (fun i j k => r j i k)). reflexivity. }
    assert (r5 : Rsum (seq 0 n) (fun i => Rsum (seq 0 n) (fun j => Rsum (seq 0 n) (fun k => r k j i)))
      = Sm (fun i => Sm (fun j => Sm (fun k => r i j k)))).
    { symmetry. rewrite (Sm3_swap12 r). rewrite (Sm3_swap23 (fun i j k => r j i k)).
      rewrite (Sm3_swap12 (fun i j k => r k i j)). reflexivity. }
    unfold Sm in *. rewrite q1, q2, r1, r2, r3, r4, r5, P, Q. unfold r. lra.
  Qed.

  (** the square of a sum *)
  Lemma Sm_square (a : nat -> R) :
    Sm a * Sm a = Sm (fun i => a i * a i)
      + 2 * Sm (fun i => Sm (fun j => if (j <? i)%nat then a i * a j else 0)).
  Proof.
    transitivity (Sm (fun i => Sm (fun j => a i * a j))).
    { unfold Sm. rewrite <- Rsum_scal_r. apply Rsum_ext. intros i _. now rewrite Rsum_scal. }
    set (q := fun i j => if (j <? i)%nat then a i * a j else 0).
    rewrite (Sm_ext _ (fun i => Sm (fun j => if (j =? i)%nat then a i * a j else 0)
      + Sm (fun j => q i j) + Sm (fun j => q j i))).
    2:{ intros i _. unfold Sm. rewrite <- !Rsum_plus. apply Rsum_ext. intros j _. unfold q.
        destruct (Nat.eqb_spec j i), (Nat.ltb_spec j i), (Nat.ltb_spec i j); subst; try lia; lra. }
    unfold Sm. rewrite !Rsum_plus.
    rewrite (Rsum_swap (fun i j => q j i)).
    rewrite (Rsum_ext (fun i => Rsum (seq 0 n) (fun j => if (j =? i)%nat then a i * a j else 0))
      (fun i => a i * a i)).
    - unfold q. lra.
    - intros i Hi. apply in_seq in Hi. apply (Rsum_pick n (fun j => a i * a j) i). lia.
  Qed.
End Split.

(** ** the transitions of the cubic terms *)
Lemma Rprod_over n (f : nat -> R) ls : NoDup ls -> (forall l, In l ls -> (l < n)%nat) ->
  Rprod (seq 0 n) f
  = Rprod ls f * Rprod (seq 0 n) (fun i => if existsb (Nat.eqb i) ls then 1 else f i).
Proof.
  induction ls as [|l ls IH]; intros Nd Hl; cbn [Rprod existsb].
  - rewrite Rmult_1_l. reflexivity.
  - inversion Nd as [|? ? Na Nl]; subst. rewrite IH by (try assumption; intros; apply Hl; cbn; auto).
    rewrite (Rprod_at n _ l) by (apply Hl; cbn; auto).
    assert (N : existsb (Nat.eqb l) ls = false).
    { apply not_true_iff_false. rewrite existsb_exists. intros (x & Hx & E).
      apply Nat.eqb_eq in E. subst. contradiction. }
    rewrite N. rewrite <- !Rmult_assoc. f_equal; [lra|].
    apply Rprod_ext. intros i _. destruct (i =? l)%nat, (existsb (Nat.eqb i) ls); reflexivity.
Qed.

Inductive trans : Type :=
| T1 (s : bool) (l : nat)
| T3 (s : bool) (l : nat)
| T21 (s t : bool) (l k : nat)
| T111 (s t r : bool) (l m k : nat).

Definition sg (s : bool) : Z := if s then 1%Z else (-1)%Z.
Definition dl (l i : nat) : Z := if (i =? l)%nat then 1%Z else 0%Z.
Definition delta_of (t : trans) (i : nat) : Z :=
  match t with
  | T1 s l => sg s * dl l i
  | T3 s l => 3 * sg s * dl l i
  | T21 s t l k => 2 * sg s * dl l i + sg t * dl k i
  | T111 s t r l m k => sg s * dl l i + sg t * dl m i + sg r * dl k i
  end%Z.

Ltac zconst :=
  repeat match goal with |- context [at_z ?z _ _] =>
    let z' := eval vm_compute in z in progress change z with z' end.

Section Cubic.
  Variables (n : nat) (f3 : nat -> nat -> nat -> R) (v : occ).
  Hypothesis f3a : forall i j k, f3 i j k = f3 j i k.
  Hypothesis f3b : forall i j k, f3 i j k = f3 i k j.
  Let Sm (f : nat -> R) : R := Rsum (seq 0 n) f.
  Let h (i : nat) : R := INR (v i) + / 2.

  Definition one_coef (s : bool) (l : nat) : R :=
    f3 l l l * INR (if s then v l + 1 else v l) / 4
    + Sm (fun i => if (i =? l)%nat then 0 else f3 i i l / 2 * h i).
  Definition amp (t : trans) : R :=
    match t with
    | T1 s l => one_coef s l * a1 s (v l)
    | T3 s l => f3 l l l / 6 * a3 s (v l)
    | T21 s t l k => f3 l l k / 2 * (a2 s (v l) * a1 t (v k))
    | T111 s t r l m k => f3 l m k * (a1 s (v l) * a1 t (v m) * a1 r (v k))
    end.
  Definition bools2 : list (bool * bool) := [(true, true); (true, false); (false, true); (false, false)].
  Definition transitions : list trans :=
    flat_map (fun l => [T1 true l; T1 false l; T3 true l; T3 false l]) (seq 0 n)
    ++ flat_map (fun l => flat_map (fun k => if (k =? l)%nat then [] else
         [T21 true true l k; T21 true false l k; T21 false true l k; T21 false false l k])
         (seq 0 n)) (seq 0 n)
    ++ flat_map (fun l => flat_map (fun m => flat_map (fun k => if ordered l m k then
         [T111 true true true l m k; T111 true true false l m k;
          T111 true false true l m k; T111 true false false l m k;
          T111 false true true l m k; T111 false true false l m k;
          T111 false false true l m k; T111 false false false l m k] else [])
         (seq 0 n)) (seq 0 n)) (seq 0 n).

  Section To.
    Variable u : occ.
    Definition ind (d : nat -> Z) : R := Rprod (seq 0 n) (fun i => at_z (d i) (u i) (v i)).
    Let el ws i : R := elt ws (u i) (v i).
    Let rest ls : R := Rprod (seq 0 n) (fun i => if existsb (Nat.eqb i) ls then 1 else el [] i).

    Lemma el0 i : el [] i = at_z 0 (u i) (v i).
    Proof.
      unfold el, at_z. cbn [elt].
      destruct (Nat.eqb_spec (u i) (v i)), (Z.eqb_spec (Z.of_nat (u i)) (Z.of_nat (v i) + 0)); try lia;
        reflexivity.
    Qed.
    Lemma ind_over d ls : NoDup ls -> (forall l, In l ls -> (l < n)%nat) ->
      (forall i, existsb (Nat.eqb i) ls = false -> d i = 0%Z) ->
      ind d = Rprod ls (fun i => at_z (d i) (u i) (v i)) * rest ls.
    Proof.
      intros Nd Hl Hd. unfold ind. rewrite (Rprod_over n _ ls Nd Hl). f_equal.
      apply Rprod_ext. intros i _. destruct (existsb (Nat.eqb i) ls) eqn:E; [reflexivity|].
      now rewrite el0, Hd.
    Qed.
    Lemma act_over wd ls : (forall l s, In (l, s) wd -> (l < n)%nat) ->
      NoDup ls -> (forall l, In l ls -> (l < n)%nat) ->
      (forall i, existsb (Nat.eqb i) ls = false -> on i wd = []) ->
      act wd (ket n v) u = Rprod ls (fun i => el (on i wd) i) * rest ls.
    Proof.
      intros Hw Nd Hl Hd. rewrite act_product by exact Hw.
      rewrite (Rprod_over n _ ls Nd Hl). f_equal.
      apply Rprod_ext. intros i _. destruct (existsb (Nat.eqb i) ls) eqn:E; [reflexivity|].
      now rewrite Hd.
    Qed.

    Definition w3 (i j k : nat) : word := [(i, 1); (j, 1); (k, 1)].
    Lemma w3_pos i j k : pos i (pos j (pos k (ket n v))) u = act (w3 i j k) (ket n v) u.
    Proof. now rewrite !pos_lad. Qed.
    Lemma w3_swap12 i j k : (i < n)%nat -> (j < n)%nat -> (k < n)%nat ->
      act (w3 i j k) (ket n v) u = act (w3 j i k) (ket n v) u.
    Proof.
      intros Hi Hj Hk. rewrite !act_product.
      - apply Rprod_ext. intros x _. unfold on, w3. cbn [filter].
        destruct (i =? x)%nat, (j =? x)%nat, (k =? x)%nat; reflexivity.
      - intros l s [E|[E|[E|[]]]]; injection E as <- <-; assumption.
      - intros l s [E|[E|[E|[]]]]; injection E as <- <-; assumption.
    Qed.
    Lemma w3_swap23 i j k : (i < n)%nat -> (j < n)%nat -> (k < n)%nat ->
      act (w3 i j k) (ket n v) u = act (w3 i k j) (ket n v) u.
    Proof.
      intros Hi Hj Hk. rewrite !act_product.
      - apply Rprod_ext. intros x _. unfold on, w3. cbn [filter].
        destruct (i =? x)%nat, (j =? x)%nat, (k =? x)%nat; reflexivity.
      - intros l s [E|[E|[E|[]]]]; injection E as <- <-; assumption.
      - intros l s [E|[E|[E|[]]]]; injection E as <- <-; assumption.
    Qed.

    Lemma on_ls1 l : forall i, existsb (Nat.eqb i) [l] = false -> on i (w3 l l l) = [].
    Proof.
      intros i E. cbn [existsb] in E. unfold on, w3. cbn [filter].
      destruct (Nat.eqb_spec i l); [discriminate|]. now destruct (Nat.eqb_spec l i); [congruence|].
    Qed.

    Lemma elt_lll l : (l < n)%nat ->
      act (w3 l l l) (ket n v) u =
      a3 true (v l) * ind (delta_of (T3 true l)) + a3 false (v l) * ind (delta_of (T3 false l))
      + 3 * INR (v l + 1) / 2 * a1 true (v l) * ind (delta_of (T1 true l))
      + 3 * INR (v l) / 2 * a1 false (v l) * ind (delta_of (T1 false l)).
    Proof.
      intros Hl.
      assert (Nd : NoDup [l]) by (repeat constructor; auto).
      assert (Hs : forall x, In x [l] -> (x < n)%nat) by (intros x [<-|[]]; exact Hl).
      rewrite (act_over (w3 l l l) [l]); [|intros x s [E|[E|[E|[]]]]; injection E as <- <-; exact Hl
        |exact Nd|exact Hs|apply on_ls1].
      assert (Hd : forall z i, existsb (Nat.eqb i) [l] = false -> (z * dl l i)%Z = 0%Z).
      { intros z i E. cbn [existsb] in E. unfold dl. destruct (i =? l)%nat; [discriminate|lia]. }
      rewrite !(ind_over _ [l] Nd Hs) by (intros i E; cbn [delta_of]; now apply Hd).
      cbn [Rprod delta_of]. unfold dl. rewrite Nat.eqb_refl.
      unfold on, w3. cbn [filter]. rewrite Nat.eqb_refl. cbn [map snd]. unfold el. rewrite elt3.
      cbn [sg]. zconst. ring.
    Qed.

    Lemma elt_llk l k : (l < n)%nat -> (k < n)%nat -> k <> l ->
      act (w3 l l k) (ket n v) u =
      a2 true (v l) * a1 true (v k) * ind (delta_of (T21 true true l k))
      + a2 true (v l) * a1 false (v k) * ind (delta_of (T21 true false l k))
      + a2 false (v l) * a1 true (v k) * ind (delta_of (T21 false true l k))
      + a2 false (v l) * a1 false (v k) * ind (delta_of (T21 false false l k))
      + h l * a1 true (v k) * ind (delta_of (T1 true k))
      + h l * a1 false (v k) * ind (delta_of (T1 false k)).
    Proof.
      intros Hl Hk Ne.
      assert (Nd : NoDup [l; k]) by (repeat constructor; cbn; intuition).
      assert (Hs : forall x, In x [l; k] -> (x < n)%nat) by (intros x [<-|[<-|[]]]; assumption).
      rewrite (act_over (w3 l l k) [l; k]);
        [|intros x s [E|[E|[E|[]]]]; injection E as <- <-; assumption|exact Nd|exact Hs|].
      2:{ intros i E. cbn [existsb] in E. unfold on, w3. cbn [filter].
          destruct (Nat.eqb_spec i l), (Nat.eqb_spec i k); try discriminate.
          destruct (Nat.eqb_spec l i), (Nat.eqb_spec k i); try congruence; reflexivity. }
      rewrite !(ind_over _ [l; k] Nd Hs).
      2-7: intros i E; cbn [existsb] in E; cbn [delta_of]; unfold dl;
        destruct (Nat.eqb_spec i l), (Nat.eqb_spec i k); try discriminate; lia.
      cbn [Rprod delta_of]. unfold dl. rewrite !Nat.eqb_refl.
      unfold on, w3. cbn [filter]. rewrite !Nat.eqb_refl.
      destruct (Nat.eqb_spec l k), (Nat.eqb_spec k l); try congruence.
      cbn [map snd]. unfold el. rewrite elt2, elt1. unfold h.
      cbn [sg]. zconst. rewrite plus_INR. change (INR 1) with 1. lra.
    Qed.

    Lemma elt_lmk l m k : (l < n)%nat -> (m < n)%nat -> (k < n)%nat -> l <> m -> l <> k -> m <> k ->
      act (w3 l m k) (ket n v) u =
      a1 true (v l) * a1 true (v m) * a1 true (v k) * ind (delta_of (T111 true true true l m k))
      + a1 true (v l) * a1 true (v m) * a1 false (v k) * ind (delta_of (T111 true true false l m k))
      + a1 true (v l) * a1 false (v m) * a1 true (v k) * ind (delta_of (T111 true false true l m k))
      + a1 true (v l) * a1 false (v m) * a1 false (v k) * ind (delta_of (T111 true false false l m k))
      + a1 false (v l) * a1 true (v m) * a1 true (v k) * ind (delta_of (T111 false true true l m k))
      + a1 false (v l) * a1 true (v m) * a1 false (v k) * ind (delta_of (T111 false true false l m k))
      + a1 false (v l) * a1 false (v m) * a1 true (v k) * ind (delta_of (T111 false false true l m k))
      + a1 false (v l) * a1 false (v m) * a1 false (v k) * ind (delta_of (T111 false false false l m k)).
    Proof.
      intros Hl Hm Hk N1 N2 N3.
      assert (Nd : NoDup [l; m; k]) by (repeat constructor; cbn; intuition).
      assert (Hs : forall x, In x [l; m; k] -> (x < n)%nat) by (intros x [<-|[<-|[<-|[]]]]; assumption).
      rewrite (act_over (w3 l m k) [l; m; k]);
        [|intros x s [E|[E|[E|[]]]]; injection E as <- <-; assumption|exact Nd|exact Hs|].
      2:{ intros i E. cbn [existsb] in E. unfold on, w3. cbn [filter].
          destruct (Nat.eqb_spec i l), (Nat.eqb_spec i m), (Nat.eqb_spec i k); try discriminate.
          destruct (Nat.eqb_spec l i), (Nat.eqb_spec m i), (Nat.eqb_spec k i); try congruence; reflexivity. }
      rewrite !(ind_over _ [l; m; k] Nd Hs).
      2-9: intros i E; cbn [existsb] in E; cbn [delta_of]; unfold dl;
        destruct (Nat.eqb_spec i l), (Nat.eqb_spec i m), (Nat.eqb_spec i k); try discriminate; lia.
      cbn [Rprod delta_of]. unfold dl. rewrite !Nat.eqb_refl.
      unfold on, w3. cbn [filter]. rewrite !Nat.eqb_refl.
      destruct (Nat.eqb_spec l k), (Nat.eqb_spec k l), (Nat.eqb_spec l m), (Nat.eqb_spec m l),
        (Nat.eqb_spec m k), (Nat.eqb_spec k m); try congruence.
      cbn [map snd]. unfold el. rewrite !elt1.
      cbn [sg]. zconst. ring.
    Qed.

    Lemma cubic_transitions :
      cubic n f3 (ket n v) u = Rsum transitions (fun t => amp t * ind (delta_of t)).
    Proof.
      unfold cubic.
      rewrite (Sm_ext n _ (fun i => Sm (fun j => Sm (fun k =>
        f3 i j k / 6 * act (w3 i j k) (ket n v) u)))).
      2:{ intros i _. apply Sm_ext. intros j _. apply Sm_ext. intros k _. now rewrite w3_pos. }
      rewrite split3.
      2:{ intros i j k Hi Hj Hk. now rewrite f3a, w3_swap12. }
      2:{ intros i j k Hi Hj Hk. now rewrite f3b, w3_swap23. }
      unfold transitions. rewrite !Rsum_app, !Rsum_flat_map.
      set (X := Rsum (seq 0 n) (fun l => Rsum (seq 0 n) (fun k => if (k =? l)%nat then 0 else
        f3 l l k / 2 * (h l * a1 true (v k) * ind (delta_of (T1 true k))
           + h l * a1 false (v k) * ind (delta_of (T1 false k)))))).
      assert (H1 : Rsum (seq 0 n) (fun i => f3 i i i / 6 * act (w3 i i i) (ket n v) u) + X
        = Rsum (seq 0 n) (fun a => Rsum [T1 true a; T1 false a; T3 true a; T3 false a]
            (fun t => amp t * ind (delta_of t)))).
      { unfold X. rewrite (Rsum_swap (fun l k => if (k =? l)%nat then 0 else _)).
        rewrite <- Rsum_plus. apply Sm_ext. intros l Hl. rewrite elt_lll by exact Hl.
        rewrite !Rsum_cons. change (Rsum [] _) with 0. cbn [amp]. unfold one_coef.
        rewrite (Rsum_ext _ (fun i => (if (i =? l)%nat then 0 else f3 i i l / 2 * h i)
          * (a1 true (v l) * ind (delta_of (T1 true l)) + a1 false (v l) * ind (delta_of (T1 false l))))).
        2:{ intros i _. rewrite (Nat.eqb_sym l i). destruct (i =? l)%nat; ring. }
        rewrite Rsum_scal_r. fold (Sm (fun i => if (i =? l)%nat then 0 else f3 i i l / 2 * h i)).
        lra. }
      assert (H2 : 3 * Rsum (seq 0 n) (fun i => Rsum (seq 0 n) (fun k => if (k =? i)%nat then 0 else
          f3 i i k / 6 * act (w3 i i k) (ket n v) u))
        = X + Rsum (seq 0 n) (fun l => Rsum (flat_map (fun k => if (k =? l)%nat then [] else
         [T21 true true l k; T21 true false l k; T21 false true l k; T21 false false l k])
         (seq 0 n)) (fun t => amp t * ind (delta_of t)))).
      { unfold X. rewrite <- Rsum_scal, <- Rsum_plus. apply Sm_ext. intros l Hl.
        rewrite Rsum_flat_map, <- Rsum_scal, <- Rsum_plus. apply Sm_ext. intros k Hk.
        destruct (Nat.eqb_spec k l) as [E|E]; [change (Rsum [] _) with 0; lra|].
        rewrite elt_llk by assumption. rewrite !Rsum_cons. change (Rsum [] _) with 0. cbn [amp]. lra. }
      assert (H3 : 6 * Rsum (seq 0 n) (fun i => Rsum (seq 0 n) (fun j => Rsum (seq 0 n) (fun k =>
          if ordered i j k then f3 i j k / 6 * act (w3 i j k) (ket n v) u else 0)))
        = Rsum (seq 0 n) (fun l => Rsum (flat_map (fun m => flat_map (fun k => if ordered l m k then
         [T111 true true true l m k; T111 true true false l m k;
          T111 true false true l m k; T111 true false false l m k;
          T111 false true true l m k; T111 false true false l m k;
          T111 false false true l m k; T111 false false false l m k] else [])
         (seq 0 n)) (seq 0 n)) (fun t => amp t * ind (delta_of t)))).
      { rewrite <- Rsum_scal. apply Sm_ext. intros l Hl.
        rewrite Rsum_flat_map, <- Rsum_scal. apply Sm_ext. intros m Hm.
        rewrite Rsum_flat_map, <- Rsum_scal. apply Sm_ext. intros k Hk.
        destruct (ordered l m k) eqn:E; [|change (Rsum [] _) with 0; lra].
        unfold ordered in E. apply andb_prop in E. destruct E as [E1 E2].
        apply Nat.ltb_lt in E1, E2.
        rewrite elt_lmk by lia. rewrite !Rsum_cons. change (Rsum [] _) with 0. cbn [amp]. lra. }
      lra.
    Qed.
  End To.
End Cubic.
