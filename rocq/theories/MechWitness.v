(** A bent molecule that meets the hypotheses of the theorems about rotating atoms. *)
From Coq Require Import Reals Lra List ZArith NArith Arith Lia Bool.
From Verif Require Import Num Loops ListFacts Modes ModesFacts ResFacts AnharmFacts VibRot VibRotFacts TransformFacts RotFacts
  NormalFacts ModeFacts ZeroFacts InertiaFacts EckartFacts DistortFacts SexticFacts FormFacts RunSecond RunRot RotFiles TriangleWitness SumRule RotorMech.
Import ListNotations.
Open Scope R_scope.

(** the molecule of C117 in its principal axes *)
Definition bent_geom (q : nat) : R * R * R := nth q [(-4, 0, 0); (2, -3, 0); (2, 3, 0)] (0, 0, 0).
Definition bent_I (x : nat) : R := nth x [18; 24; 42] 0.
Definition bent_V (q : nat -> R) : R :=
  / 2 * (q 0%nat ^ 2 + q 1%nat ^ 2 + q 2%nat ^ 2) + / 6 * (q 0%nat + q 1%nat + q 2%nat) ^ 3 + q 0%nat ^ 4.

Lemma bent_free : free_modes 3 3 (fun _ => 1) bent_geom bent_I tri_V.
Proof.
  split; [|split; [|split; [|split]]].
  - intros x Hx. rewrite sum_3. destruct x as [|[|[|x]]]; [| | |lia]; cbn; ring.
  - intros x y Hx Hy. unfold inertia. rewrite !sum_3.
    destruct x as [|[|[|x]]]; [| | |lia]; (destruct y as [|[|[|y]]]; [| | |lia]); cbn; ring.
  - intros i j Hi Hj. destruct tri_orth as [_ O]. specialize (O i j ltac:(lia) ltac:(lia)). unfold delta in O. rewrite <- O.
    apply (sum_g 9). intros a _. ring.
  - intros k x Hk Hx. rewrite !sum_3. unfold tri_V.
    destruct k as [|[|[|k]]]; [| | |lia]; (destruct x as [|[|[|x]]]; [| | |lia]);
      match goal with |- context [IZR (tri_vec' ?a ?i)] => idtac end;
      repeat match goal with |- context [IZR (tri_vec' ?a ?i)] => let z := eval vm_compute in (tri_vec' a i) in change (IZR (tri_vec' a i)) with (IZR z) end;
      unfold Rdiv; ring.
  - intros k x y Hk Hx Hy. rewrite !sum_3. unfold tri_V.
    destruct k as [|[|[|k]]]; [| | |lia]; (destruct x as [|[|[|x]]]; [| | |lia]); (destruct y as [|[|[|y]]]; [| | |lia]);
      repeat match goal with |- context [IZR (tri_vec' ?a ?i)] => let z := eval vm_compute in (tri_vec' a i) in change (IZR (tri_vec' a i)) with (IZR z) end;
      cbn [bent_geom nth comp fst snd]; unfold Rdiv; ring.
Qed.

Lemma bent_slope : exists a, inertia_slope 3 3 (fun _ => 1) bent_geom tri_V a /\ a 0%nat 1%nat 1%nat <> 0.
Proof.
  destruct (slope_exists 3 3 (fun _ => 1) bent_geom tri_V) as (a & Ha). exists a. split; [exact Ha|].
  rewrite (slope_eq 3 3 (fun _ => 1) bent_geom bent_I tri_V) by
    (first [exact Ha | reflexivity | (intros; lra) | lia | (intros x Hx; destruct x as [|[|[|x]]]; cbn; lra || lia)]).
  rewrite sum_3. unfold tri_V.
  repeat match goal with |- context [IZR (tri_vec' ?a ?i)] => let z := eval vm_compute in (tri_vec' a i) in change (IZR (tri_vec' a i)) with (IZR z) end.
  cbn [bent_geom nth comp fst snd kron Nat.eqb]. pose proof (tri_norm_pos 0) as P. set (r := sqrt _) in *.
  unfold kron. cbn [Nat.eqb].
  assert (D : 24 / r <> 0) by (apply Rgt_not_eq, Rdiv_lt_0_compat; lra). unfold Rdiv in *. lra.
Qed.

Lemma bent_near : cubic_near 3 (fun _ => 1) (fun _ _ _ => 1) bent_V.
Proof.
  intros q. exists (q 0%nat ^ 4), 1. split; [lra|]. intros t _. unfold bent_V. rewrite !sum_3.
  match goal with |- Rabs ?x <= _ => replace x with (q 0%nat ^ 4 * t ^ 4) by field end.
  rewrite Rabs_pos_eq; [lra|]. replace (q 0%nat ^ 4 * t ^ 4) with ((q 0%nat ^ 2 * t ^ 2) ^ 2) by ring. apply pow2_ge_0.
Qed.

Lemma bent_meets : exists a,
  (3 * 3 = 3 + 6)%nat /\ (forall x, (x < 3)%nat -> 0 < bent_I x) /\
  free_modes 3 3 (fun _ => 1) bent_geom bent_I tri_V /\ inertia_slope 3 3 (fun _ => 1) bent_geom tri_V a /\
  a 0%nat 1%nat 1%nat <> 0 /\ 2 * (1 / 2) * 1 ^ 2 = 1 /\ cubic_near 3 (fun _ => 1) (fun _ _ _ => 1) bent_V.
Proof.
  destruct bent_slope as (a & H1 & H2). exists a. split; [reflexivity|].
  split; [intros x Hx; destruct x as [|[|[|x]]]; [| | |lia]; cbn; lra|].
  split; [exact bent_free|]. split; [exact H1|]. split; [exact H2|]. split; [field|exact bent_near].
Qed.
