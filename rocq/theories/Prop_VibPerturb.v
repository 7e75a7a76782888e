(** Property C97: the rotational constants of asymmetric tops in every vibrational state are
    those of second order perturbation theory for a vibrating rotor. *)
From Coq Require Import List Arith ZArith Bool Reals Lra Lia.
From Verif Require Import Num Loops Index AnharmFacts Modes ModesFacts VibRot VibRotFacts.
From Verif Require Import PerturbFacts PerturbSum PerturbLevels VanVleck VibPerturb.
Import ListNotations.
Open Scope R_scope.

(** The coefficients [mu1], [mu2] used in [tilt] and [bend] are those of the reciprocal
    inertia tensor (I' I0^-1 I')^-1, I' = I0 + 1/2 Sum_k a_k Q_k, to second order in Q. *)
Theorem reciprocal_inertia_expansion :
  forall n (a : nat -> nat -> nat -> R) I (Q : nat -> R) M0 M1 M2 x, (x < 3)%nat ->
  (forall y, (y < 3)%nat -> I y <> 0) -> (forall k y z, a k y z = a k z y) ->
  reciprocal I (fun y z => / 2 * Rsum (seq 0 n) (fun k => a k y z * Q k)) M0 M1 M2 ->
  M0 x x = / I x /\
  M1 x x = Rsum (seq 0 n) (fun k => mu1 a I x k * Q k) /\
  M2 x x = Rsum (seq 0 n) (fun k => Rsum (seq 0 n) (fun l => mu2 a I x k l * (Q k * Q l))).
Proof. exact mu_lemma. Qed.
(** the hypotheses can be met with a derivative that is not diagonal: one coordinate, all
    the moments 1, E = 1/2 in the cells (0, 0), (0, 1) and (1, 0) *)
Example reciprocal_inertia_expansion_ex :
  let a := fun k y z : nat => if (y + z <? 2)%nat then 1 else 0 in
  let E := fun y z : nat => if (y + z <? 2)%nat then / 2 else 0 in
  let M2 := fun y z : nat => match y, z with
    | O, O => 3 / 2 | O, S O | S O, O | S O, S O => 3 / 4 | _, _ => 0 end in
  (forall k y z, a k y z = a k z y) /\
  (forall y z, / 2 * Rsum (seq 0 1) (fun k => a k y z * 1) = E y z) /\
  reciprocal (fun _ => 1) E (fun y z => if (y =? z)%nat then 1 else 0) (fun y z => - 2 * E y z) M2 /\
  mu2 a (fun _ => 1) 0 0 0 = 3 / 2 /\ mu1 a (fun _ => 1) 0 0 = - 1.
Proof.
  cbv zeta. split; [intros k y z; now rewrite Nat.add_comm|].
  split; [intros y z; change (seq 0 1) with [0%nat]; rewrite Rsum_cons; change (Rsum [] _) with 0;
    destruct (y + z <? 2)%nat; lra|].
  split; [|split; [unfold mu2; cbn; lra|unfold mu1; cbn; lra]].
  intros y z Hy Hz. destruct y as [|[|[|]]]; try lia; destruct z as [|[|[|]]]; try lia; cbn; repeat split; lra.
Qed.
Print Assumptions reciprocal_inertia_expansion.

(** The row that the model's [alphaa] gives a state is [rot_const], the coefficient of the
    square of each component of the angular momentum, plus what the rounding of the
    constant 0.086112 of the code (for [lam] / 2) adds. *)
Theorem rot_constants_second_order :
  forall n (B I w : nat -> R) (wl : nat -> nat -> R) (zeta f3 : nat -> nat -> nat -> R)
    (cor : list (nat * nat * nat)) (K lam : R) x (rep : nat -> nat -> bool),
  (x < 3)%nat ->
  (forall i, (i < n)%nat -> 0 < w i) ->
  (forall y, (y < 3)%nat -> 0 < I y) ->
  (forall y, (y < 3)%nat -> B y = K / I y) ->
  2 * K * lam ^ 2 = 1 ->
  (forall i j k, f3 i j k = f3 j i k) -> (forall i j k, f3 i j k = f3 i k j) ->
  (forall i j a, zeta i j a = - zeta j i a) ->
  (forall i j, (i < n)%nat -> (j < n)%nat -> one_axis cor i j) ->
  (forall i j, rep i j = true <-> listed cor i j x) ->
  (forall i j, (i < n)%nat -> (j < n)%nat -> i <> j -> rep i j = false -> w i <> w j) ->
  forall vs m v,
  (forall u, In u vs -> length u = n) -> (n + 1 <= length vs)%nat ->
  (m < n + 1)%nat -> nth_error vs m = Some v ->
  exists rows row, alphaa n B I w wl zeta f3 (singles n) (map I1st vs) cor = Some rows /\
    nth_error rows m = Some row /\
    nth x [fst (fst row); snd (fst row); snd row] 0
    = rot_const n w f3 zeta (fun k y z => wl k (acol y z)) I K lam rep x (fun i => nth i v 0%nat)
      + (2 * (86112 / 1000000) - lam) * B x ^ 2 * Rsum (seq 0 n) (fun i => Rsum (seq 0 n) (fun k =>
          wl k (acol x x) * f3 i i k / (w k * sqrt (w k)) * (INR (nth i v 0%nat) + / 2))).
Proof. exact rot_second_order. Qed.
(** the hypotheses can be met with a resonance about another axis and nothing zero *)
Example rot_constants_second_order_ex :
  let w := fun i : nat => match i with O => 1 | _ => 4 end in
  let cor := [(1, 0, 1)%nat] in
  let zeta := fun i j a : nat => if (i =? j)%nat then 0 else if (i <? j)%nat then / 2 else - / 2 in
  (0 < 3)%nat /\ (forall i, (i < 2)%nat -> 0 < w i) /\
  (forall y, (y < 3)%nat -> / (2 * 3) = (/ 2) / 3) /\ 2 * (/ 2) * 1 ^ 2 = 1 /\
  (forall i j a, zeta i j a = - zeta j i a) /\
  (forall i j, (i < 2)%nat -> (j < 2)%nat -> one_axis cor i j) /\
  (forall i j, false = true <-> listed cor i j 0) /\
  (forall i j, (i < 2)%nat -> (j < 2)%nat -> i <> j -> false = false -> w i <> w j) /\
  (forall u, In u [[0; 0]; [1; 0]; [0; 1]]%nat -> length u = 2%nat) /\
  (2 + 1 <= length [[0; 0]; [1; 0]; [0; 1]]%nat)%nat /\
  nth_error [[0; 0]; [1; 0]; [0; 1]]%nat 1 = Some [1; 0]%nat /\
  listed cor 0 1 1 /\
  alpha 2 (fun _ => / 6) (fun _ => 3) w (fun _ _ => 1) zeta (fun _ _ _ => 0) cor 0 0
  = 2 * (/ 6) ^ 2 * (3 / 4 + / 4 * (19 / (- 15))).
Proof.
  cbv zeta.
  assert (O : forall i j, one_axis [(1, 0, 1)%nat] i j).
  { intros i j x y [[E|[]]|[E|[]]] [[E'|[]]|[E'|[]]]; congruence. }
  assert (W : forall i, (i < 2)%nat -> 0 < match i with O => 1 | _ => 4 end).
  { intros [|[|i]] Hi; try lia; lra. }
  split; [lia|]. split; [exact W|]. split; [intros; lra|]. split; [lra|].
  split.
  { intros i j a. destruct (Nat.eqb_spec i j), (Nat.eqb_spec j i); try lia; [lra|].
    destruct (Nat.ltb_spec i j), (Nat.ltb_spec j i); try lia; lra. }
  split; [intros; apply O|].
  split.
  { intros i j. split; [discriminate|]. intros [[E|[]]|[E|[]]]; congruence. }
  split.
  { intros [|[|i]] [|[|j]] Hi Hj N _; try lia; lra. }
  split; [intros u [<-|[<-|[<-|[]]]]; reflexivity|].
  split; [cbn; lia|]. split; [reflexivity|]. split; [right; left; reflexivity|].
  destruct (alpha_exact_lemma 2 (fun _ => / 6) (fun _ => 3) (fun i : nat => match i with O => 1 | _ => 4 end)
     (fun _ _ => 1) (fun i j a : nat => if (i =? j)%nat then 0 else if (i <? j)%nat then / 2 else - / 2)
     (fun _ _ _ => 0) [(1, 0, 1)%nat] 0 0) as (t & -> & T); [lia|lia|exact W|intros; apply O|].
  destruct (T 1%nat) as (T1 & _); [lia|lia|].
  cbn in T1. specialize (T1 ltac:(intros [[E|[]]|[E|[]]]; congruence) ltac:(lra)).
  change (others 0 2) with [1%nat]. change (seq 0 2) with [0%nat; 1%nat]. rewrite !Rsum_cons, T1.
  change (Rsum [] _) with 0. field.
  rewrite sqrt_1, (sqrt_lem_1 4 2) by lra. lra.
Qed.
Print Assumptions rot_constants_second_order.
