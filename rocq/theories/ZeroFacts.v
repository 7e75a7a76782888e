(** Lemmas about zero frequencies, reported frequencies and the choice of axes. *)
From Coq Require Import Reals Lra List ZArith Arith Lia Bool Permutation Sorted.
From Verif Require Import Num Loops Index ListFacts IndexFacts ResFacts Anharm AnharmFacts DistortFacts
  VibRotFacts Transform TransformFacts RotFacts NormalFacts HarmFacts ModeFacts.
Import ListNotations.
Open Scope nat_scope.
Local Open Scope R_scope.

(** ** null vectors *)
Definition null (n : nat) (A : nat -> nat -> R) (t : nat -> R) : Prop :=
  forall a, (a < n)%nat -> Sum n (fun b => A a b * t b) = 0.

Lemma null_overlap n S h u t i x : sym2 n S -> eigen_system n S h u -> null n S t ->
  nth_error h i = Some x -> x <> 0 -> Sum n (fun a => t a * u a i) = 0.
Proof.
  intros Sy (_ & _ & He) Ht Ex Nx. apply (Rmult_eq_reg_l x); [|exact Nx]. rewrite Rmult_0_r, <- Rsum_scal.
  transitivity (Sum n (fun a => Sum n (fun b => t a * S a b * u b i))).
  { apply sum_g. intros a Ha. transitivity (t a * (x * u a i)); [ring|].
    rewrite <- (He a i x Ha Ex), <- Rsum_scal. apply sum_g. intros. ring. }
  rewrite Rsum_swap. apply Rsum_0. intros b Hb. apply in_seq in Hb.
  transitivity (u b i * Sum n (fun a => S b a * t a)).
  - rewrite <- Rsum_scal. apply sum_g. intros a Ha. rewrite (Sy a b) by lia. ring.
  - rewrite Ht by lia. ring.
Qed.

(** squares of the overlaps with all columns add up to the squared length *)
Lemma parseval n V t : orth n V ->
  Sum n (fun i => (Sum n (fun a => t a * V a i)) * (Sum n (fun a => t a * V a i))) = Sum n (fun a => t a * t a).
Proof.
  intros [H _].
  transitivity (Sum n (fun i => Sum n (fun a => Sum n (fun b => t a * t b * (V a i * V b i))))).
  { apply sum_g. intros i _. rewrite <- Rsum_scal_r. apply sum_g. intros a _. rewrite <- Rsum_scal.
    apply sum_g. intros. ring. }
  rewrite Rsum_swap. apply sum_g. intros a Ha. rewrite Rsum_swap.
  transitivity (Sum n (fun b => delta a b * (t a * t b))).
  - apply sum_g. intros b Hb. rewrite Rsum_scal, (H a b Ha Hb). ring.
  - apply (sum_delta n (fun b => t a * t b) a Ha).
Qed.

Lemma bessel n k (t : nat -> nat -> R) v :
  (forall x y, (x < k)%nat -> (y < k)%nat -> Sum n (fun a => t x a * t y a) = delta x y) ->
  Sum k (fun x => (Sum n (fun a => t x a * v a)) * (Sum n (fun a => t x a * v a))) <= Sum n (fun a => v a * v a).
Proof.
  intros H. set (c := fun x => Sum n (fun a => t x a * v a)).
  assert (E : Sum n (fun a => (v a - Sum k (fun x => c x * t x a)) * (v a - Sum k (fun x => c x * t x a)))
            = Sum n (fun a => v a * v a) - Sum k (fun x => c x * c x)).
  { transitivity (Sum n (fun a => v a * v a) - 2 * Sum n (fun a => v a * Sum k (fun x => c x * t x a))
                  + Sum n (fun a => Sum k (fun x => c x * t x a) * Sum k (fun x => c x * t x a))).
    { rewrite <- Rsum_scal, <- Rsum_minus, <- Rsum_plus. apply sum_g. intros. ring. }
    assert (E1 : Sum n (fun a => v a * Sum k (fun x => c x * t x a)) = Sum k (fun x => c x * c x)).
    { transitivity (Sum n (fun a => Sum k (fun x => c x * (t x a * v a)))).
      - apply sum_g. intros a _. rewrite <- Rsum_scal. apply sum_g. intros. ring.
      - rewrite Rsum_swap. apply sum_g. intros x _. now rewrite Rsum_scal. }
    assert (E2 : Sum n (fun a => Sum k (fun x => c x * t x a) * Sum k (fun x => c x * t x a)) = Sum k (fun x => c x * c x)).
    { transitivity (Sum n (fun a => Sum k (fun x => Sum k (fun y => c x * c y * (t x a * t y a))))).
      - apply sum_g. intros a _. rewrite <- Rsum_scal_r. apply sum_g. intros x _. rewrite <- Rsum_scal.
        apply sum_g. intros. ring.
      - rewrite Rsum_swap. apply sum_g. intros x Hx. rewrite Rsum_swap.
        transitivity (Sum k (fun y => delta x y * (c x * c y))).
        + apply sum_g. intros y Hy. rewrite Rsum_scal, (H x y Hx Hy). ring.
        + apply (sum_delta k (fun y => c x * c y) x Hx). }
    rewrite E1, E2. ring. }
  assert (P : 0 <= Sum n (fun a => (v a - Sum k (fun x => c x * t x a)) * (v a - Sum k (fun x => c x * t x a)))).
  { apply Rsum_nonneg. intros a _. apply Rle_0_sqr. }
  unfold c in E, P. lra.
Qed.

Lemma sum_const n : Sum n (fun _ => 1) = INR n.
Proof.
  induction n as [|n IH]; [reflexivity|]. rewrite seq_S, Rsum_app, IH, S_INR. cbn. ring.
Qed.

Lemma null_count n S h u k t : sym2 n S -> eigen_system n S h u ->
  (forall x, (x < k)%nat -> null n S (t x)) ->
  (forall x y, (x < k)%nat -> (y < k)%nat -> Sum n (fun a => t x a * t y a) = delta x y) ->
  (k <= count_occ Req_EM_T h 0%R)%nat.
Proof.
  intros Sy E Hn Ho. apply INR_le. rewrite count_sum_nth. pose proof E as (Hl & HO & _). rewrite Hl.
  apply Rle_trans with (Sum k (fun x => Sum n (fun i => Sum n (fun a => t x a * u a i) * Sum n (fun a => t x a * u a i)))).
  - apply Req_le. rewrite <- sum_const. apply sum_g. intros x Hx. rewrite parseval by exact HO.
    rewrite Ho by assumption. unfold delta. now rewrite Nat.eqb_refl.
  - rewrite Rsum_swap. apply Rsum_le. intros i Hi. apply in_seq in Hi.
    destruct (nth_error h i) as [y|] eqn:Ey; [|apply nth_error_None in Ey; lia].
    rewrite (nth_error_nth h i 0 Ey). unfold hits. destruct (Req_EM_T y 0) as [->|Ny].
    + eapply Rle_trans; [apply (bessel n k t (fun a => u a i) Ho)|]. apply Req_le.
      rewrite (proj2 HO i i) by lia. unfold delta. now rewrite Nat.eqb_refl.
    + apply Req_le. apply Rsum_0. intros x Hx. apply in_seq in Hx.
      rewrite (null_overlap n S h u (t x) i y Sy E); auto; [ring|apply Hn; lia].
Qed.

Lemma sum_pos N (w : nat -> R) : (0 < N)%nat -> (forall q, (q < N)%nat -> 0 < w q) -> 0 < Sum N w.
Proof.
  intros HN Hw. destruct N as [|N']; [lia|]. rewrite seq_S, Rsum_app. cbn [Rsum fold_right plus].
  assert (0 <= Sum N' w). { apply Rsum_nonneg. intros q Hq. apply in_seq in Hq. apply Rlt_le, Hw. lia. }
  pose proof (Hw N' ltac:(lia)). lra.
Qed.

(** ** displacements that cost no energy *)
Section Free.
  Variables (N : nat) (axes f : nat -> nat -> R) (w : nat -> R)
            (eig : (nat -> nat -> R) -> list R * (nat -> nat -> R)).
  Let n := (3 * N)%nat.
  Hypothesis Sy : sym2 n f.
  Hypothesis Hw : forall q, (q < N)%nat -> 0 < w q.
  Hypothesis HO : orth 3 axes.
  Hypothesis HS : solves n eig (secular N axes f w).
  Let Sp : forall x, (x < n)%nat -> 0 < sqrt (w (x / 3)%nat).
  Proof. intros x Hx. apply sqrt_lt_R0, Hw. now apply block_lt. Qed.
  Let Wp : forall x, (x < n)%nat -> 0 <= w (x / 3)%nat.
  Proof. intros x Hx. apply Rlt_le, Hw. now apply block_lt. Qed.

  Lemma free_run : exists h lxm, harmonic N axes f w eig = Some (map to_wavenumber h, lxm) /\
    eigen_system n (weighted w f) h (mprod n (every_atom axes) lxm) /\ StronglySorted Rge h.
  Proof.
    destruct (harmonic_run _ _ _ _ _ HS) as (h & V & E & He & Hs). exists h, V. split; [exact E|].
    split; [|exact Hs]. eapply eigen_turn; [apply every_atom_orth, HO|].
    eapply eigen_system_ext; [|exact He]. intros a b Ha Hb. rewrite secular_R by assumption.
    now apply weighted_turn.
  Qed.

  Lemma weighted_null d : null n f d -> null n (weighted w f) (fun a => sqrt (w (a / 3)%nat) * d a).
  Proof.
    intros Hd a Ha. transitivity (FACT2 / sqrt (w (a / 3)%nat) * Sum n (fun b => f a b * d b)).
    - rewrite <- Rsum_scal. apply sum_g. intros b Hb. unfold weighted. pose proof (Sp a Ha). pose proof (Sp b Hb).
      field. lra.
    - rewrite Hd by exact Ha. ring.
  Qed.

  Lemma wavenumber_0 x : to_wavenumber x = 0 <-> x = 0.
  Proof.
    split.
    - intros E. pose proof (proj1 (proj2 (wavenumber_lemma x 0))) as H. rewrite E in H.
      pose proof WAVE_pos. destruct (Req_dec x 0) as [|Nx]; [assumption|].
      assert (0 < Rabs x) by now apply Rabs_pos_lt.
      assert (0 < @WAVE R Rnum ^ 2 * Rabs x) by (apply Rmult_lt_0_compat; [apply pow_lt; assumption|assumption]).
      lra.
    - intros ->. pose proof (proj1 (wavenumber_lemma 0 0)) as H. rewrite Ropp_0 in H. lra.
  Qed.

  Lemma free_mode_lemma d : null n f d ->
    exists freq lxm, harmonic N axes f w eig = Some (freq, lxm) /\
      forall i y, nth_error freq i = Some y -> y <> 0 ->
        Sum n (fun a => w (a / 3)%nat * con1 n (every_atom axes) d a * make_lx n (make_sqm w) lxm a i) = 0.
  Proof.
    intros Hd. destruct free_run as (h & V & E & He & _). exists (map to_wavenumber h), V. split; [exact E|].
    intros i y Ey Ny. rewrite nth_error_map in Ey. destruct (nth_error h i) as [x|] eqn:Ex; [|discriminate].
    injection Ey as <-. assert (Nx : x <> 0) by (intros ->; apply Ny; now apply wavenumber_0).
    assert (Hi : (i < n)%nat).
    { destruct He as (Hl & _). rewrite <- Hl. apply nth_error_Some. congruence. }
    rewrite <- (null_overlap n (weighted w f) h _ _ i x (weighted_sym N w f Sy) He (weighted_null d Hd) Ex Nx).
    transitivity (Sum n (fun a => Sum n (fun r => every_atom axes r a * d r * sqrt (w (r / 3)%nat) * V a i))).
    - apply sum_g. intros a Ha. rewrite make_lx_eq by assumption. unfold make_sqm. rewrite nz_R.
      cbn [nmul ndiv nsqrt Rnum]. pose proof (Sp a Ha) as P.
      transitivity (sqrt (w (a / 3)%nat) * V a i * con1 n (every_atom axes) d a).
      + rewrite <- (sqrt_sqrt (w (a / 3)%nat) (Wp a Ha)) at 1. field. lra.
      + unfold con1. rewrite <- Rsum_scal. apply sum_g. intros r Hr. unfold every_atom.
        destruct (Nat.eqb_spec (r / 3) (a / 3)) as [->|]; ring.
    - rewrite Rsum_swap. apply sum_g. intros r Hr. unfold mprod. rewrite <- Rsum_scal. apply sum_g. intros. ring.
  Qed.

  Lemma free_count_lemma k d :
    (forall x, (x < k)%nat -> null n f (d x)) ->
    (forall x y, (x < k)%nat -> (y < k)%nat -> Sum n (fun a => w (a / 3)%nat * d x a * d y a) = delta x y) ->
    exists freq lxm, harmonic N axes f w eig = Some (freq, lxm) /\ (k <= count_occ Req_EM_T freq 0%R)%nat.
  Proof.
    intros Hd Ho. destruct free_run as (h & V & E & He & _). exists (map to_wavenumber h), V. split; [exact E|].
    assert (C : count_occ Req_EM_T (map to_wavenumber h) 0 = count_occ Req_EM_T h 0).
    { clear. induction h as [|x h IH]; [reflexivity|]. cbn [map count_occ]. rewrite IH.
      destruct (Req_EM_T (to_wavenumber x) 0) as [A|A], (Req_EM_T x 0) as [B|B]; try reflexivity.
      - exfalso. apply B. now apply wavenumber_0.
      - exfalso. apply A. now apply wavenumber_0. }
    rewrite C.
    apply (null_count n (weighted w f) h _ k (fun x a => sqrt (w (a / 3)%nat) * d x a) (weighted_sym N w f Sy) He).
    - intros x Hx. apply weighted_null. now apply Hd.
    - intros x y Hx Hy. rewrite <- (Ho x y Hx Hy). apply sum_g. intros a Ha.
      rewrite <- (sqrt_sqrt (w (a / 3)%nat) (Wp a Ha)) at 3. ring.
  Qed.

  (** the energy does not change when the molecule is moved as a whole *)
  Definition translation_free : Prop :=
    forall a m, (a < n)%nat -> (m < 3)%nat -> Sum N (fun q => f a (3 * q + m)%nat) = 0.

  Lemma sum_3 (g : nat -> R) : Sum 3 g = g 0%nat + g 1%nat + g 2%nat.
  Proof. cbn. ring. Qed.

  Lemma translation_null (v : nat -> R) : translation_free -> null n f (fun a => v (a mod 3)%nat).
  Proof.
    intros Ht a Ha. unfold n. rewrite sum_blocks.
    transitivity (Sum N (fun q => Sum 3 (fun m => v m * f a (3 * q + m)%nat))).
    - apply sum_g. intros q _. apply sum_g. intros m Hm. rewrite mod_block by exact Hm. ring.
    - rewrite Rsum_swap. apply Rsum_0. intros m Hm. apply in_seq in Hm. rewrite Rsum_scal, Ht by (assumption || lia). ring.
  Qed.

  Lemma centre_of_mass_lemma : translation_free ->
    exists freq lxm, harmonic N axes f w eig = Some (freq, lxm) /\
      forall i y x, nth_error freq i = Some y -> y <> 0 -> (x < 3)%nat ->
        Sum N (fun q => w q * make_lx n (make_sqm w) lxm (3 * q + x)%nat i) = 0.
  Proof.
    intros Ht.
    assert (P : forall x, (x < 3)%nat -> exists freq lxm, harmonic N axes f w eig = Some (freq, lxm) /\
      forall i y, nth_error freq i = Some y -> y <> 0 ->
        Sum N (fun q => w q * make_lx n (make_sqm w) lxm (3 * q + x)%nat i) = 0).
    { intros x Hx. destruct (free_mode_lemma (fun a => axes (a mod 3)%nat x)) as (fr & V & E & H).
      { now apply (translation_null (fun m => axes m x)). }
      exists fr, V. split; [exact E|]. intros i y Ey Ny. rewrite <- (H i y Ey Ny).
      unfold n at 2. rewrite sum_blocks. apply sum_g. intros q Hq. symmetry. rewrite (Rsum_only _ 3 x Hx).
      - rewrite div_block by exact Hx. unfold n at 1. rewrite con1_block by (unfold n; lia).
        rewrite div_block, mod_block by exact Hx.
        rewrite (sum_g 3 _ (fun m => axes m x * axes m x)).
        + rewrite (proj2 HO x x Hx Hx). unfold delta. rewrite Nat.eqb_refl. ring.
        + intros m Hm. now rewrite mod_block by exact Hm.
      - intros m Hm Nm. unfold n at 1. rewrite con1_block by (unfold n; lia). rewrite mod_block by exact Hm.
        rewrite (sum_g 3 _ (fun m' => axes m' m * axes m' x)).
        + rewrite (proj2 HO m x Hm Hx). unfold delta. destruct (Nat.eqb_spec m x); [contradiction|ring].
        + intros m' Hm'. now rewrite mod_block by exact Hm'. }
    destruct (P 0%nat ltac:(lia)) as (fr & V & E & _). exists fr, V. split; [exact E|].
    intros i y x Ey Ny Hx. destruct (P x Hx) as (fr' & V' & E' & H). rewrite E in E'. injection E' as <- <-.
    now apply (H i y).
  Qed.

  Lemma three_zero_lemma : (0 < N)%nat -> translation_free ->
    exists freq lxm, harmonic N axes f w eig = Some (freq, lxm) /\ (3 <= count_occ Req_EM_T freq 0%R)%nat.
  Proof.
    intros HN Ht. set (M := Sum N w).
    assert (MP : 0 < M).
    { apply sum_pos; assumption. }
    pose proof (sqrt_lt_R0 M MP) as SM.
    apply (free_count_lemma 3 (fun x a => delta (a mod 3) x / sqrt M)).
    - intros x Hx. now apply (translation_null (fun m => delta m x / sqrt M)).
    - intros x y Hx Hy. unfold n. rewrite sum_blocks.
      transitivity (Sum N (fun q => delta x y / M * w q)).
      + apply sum_g. intros q Hq. rewrite (Rsum_only _ 3 x Hx).
        * rewrite div_block, mod_block by exact Hx. unfold delta at 1. rewrite Nat.eqb_refl.
          rewrite <- (sqrt_sqrt M) at 3 by lra. field. lra.
        * intros m Hm Nm. rewrite mod_block by exact Hm. unfold delta at 1.
          destruct (Nat.eqb_spec m x); [contradiction|]. field. lra.
      + rewrite Rsum_scal. fold M. field. lra.
  Qed.
End Free.
