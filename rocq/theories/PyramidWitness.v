(** A pyramid: one atom above three equal ones, a molecule with a threefold axis that is not flat. *)
From Coq Require Import Reals Lra List ZArith Arith Lia Bool Sorted FunctionalExtensionality.
From Verif Require Import Num Loops ListFacts AnharmFacts Modes ModesFacts ResFacts Transform TransformFacts RotFacts NormalFacts HarmFacts ModeFacts DistortFacts EckartFacts InertiaFacts ReportFacts GeomFacts ZeroFacts
  VibRot VibRotFacts SymAnharm SymE0 PerturbFacts PerturbLevels VibPerturb Report Distort Geom AlignExact Finish RunSecond RunRot Threefold ThreeForm ThreeModes ThreeRun ThreeRot ThreeConst ThreeWitness.
Import ListNotations.
Open Scope nat_scope.
Local Open Scope R_scope.

(** the three atoms lie at 0, 120 and 240 degrees *)
Definition pyr_sg (i : nat) : nat := match i with 0%nat => 1%nat | 1%nat => 2%nat | 2%nat => 0%nat | _ => 3%nat end.
Definition pyr_mu (i : nat) : nat := match i with 1%nat => 2%nat | 2%nat => 1%nat | 0%nat => 0%nat | _ => 3%nat end.
Definition pyr_geom (i : nat) : R * R * R :=
  match i with
  | 0%nat => (10, 0, 1) | 1%nat => (- 5, 10 * s3, 1) | 2%nat => (- 5, - (10 * s3), 1)
  | _ => (0, 0, - 3) end.
(** displacements: 0 and 3 keep the symmetry; 1, 2 and 4, 5 are two pairs;
    then the translations and rotations.  The vibrations mix the two pairs. *)
Definition pyr_U (a i : nat) : R :=
  let col := match i with
    | 0%nat => [2 / 3 * s3; 0; 0; - (1 / 3) * s3; 1 / 2; 0; - (1 / 3) * s3; - (1 / 2); 0; 0; 0; 0]
    | 1%nat => [2 / 3 * s3; 0; 0; - (1 / 3) * s3; - (1 / 2); 0; - (1 / 3) * s3; 1 / 2; 0; 0; 0; 0]
    | 2%nat => [0; 2 / 3 * s3; 0; 1 / 2; - (1 / 3) * s3; 0; - (1 / 2); - (1 / 3) * s3; 0; 0; 0; 0]
    | 3%nat => [0; 0; - (1 / 3) * s3; 0; 0; - (1 / 3) * s3; 0; 0; - (1 / 3) * s3; 0; 0; s3]
    | 4%nat => [5 / 18; 0; 4 / 18; 5 / 18; 0; - (2 / 18); 5 / 18; 0; - (2 / 18); - (15 / 18); 0; 0]
    | 5%nat => [0; 5 / 18; 0; 0; 5 / 18; 4 / 18 * s3; 0; 5 / 18; - (4 / 18) * s3; 0; - (15 / 18); 0]
    | 6%nat => [1 / 2; 0; 0; 1 / 2; 0; 0; 1 / 2; 0; 0; 1 / 2; 0; 0]
    | 7%nat => [0; 1 / 2; 0; 0; 1 / 2; 0; 0; 1 / 2; 0; 0; 1 / 2; 0]
    | 8%nat => [0; 0; 1 / 2; 0; 0; 1 / 2; 0; 0; 1 / 2; 0; 0; 1 / 2]
    | 9%nat => [0; 2 / 3 * s3; 0; - (1 / 2); - (1 / 3) * s3; 0; 1 / 2; - (1 / 3) * s3; 0; 0; 0; 0]
    | 10%nat => [1 / 18; - (1 / 18); - (10 / 18); 1 / 18; - (1 / 18); 5 / 18 + 10 / 18 * s3; 1 / 18; - (1 / 18); 5 / 18 - 10 / 18 * s3; - (3 / 18); 3 / 18; 0]
    | _ => [1 / 18; 1 / 18; - (10 / 18); 1 / 18; 1 / 18; 5 / 18 - 10 / 18 * s3; 1 / 18; 1 / 18; 5 / 18 + 10 / 18 * s3; - (3 / 18); - (3 / 18); 0]
    end in nth a col 0.
Definition pyr_V (a i : nat) : R :=
  match i with
  | 1%nat => 3 / 5 * pyr_U a 1 + 4 / 5 * pyr_U a 4 | 2%nat => - (3 / 5) * pyr_U a 2 + 4 / 5 * pyr_U a 5
  | 4%nat => 4 / 5 * pyr_U a 1 - 3 / 5 * pyr_U a 4 | 5%nat => - (4 / 5) * pyr_U a 2 - 3 / 5 * pyr_U a 5
  | _ => pyr_U a i
  end.
Definition pyr_vals : list R := [tri_val 3500; tri_val 2500; tri_val 2500; tri_val 1900; tri_val 1300; tri_val 1300; 0; 0; 0; 0; 0; 0].
Definition pyr_eig : (nat -> nat -> R) -> list R * (nat -> nat -> R) := fun _ => (pyr_vals, pyr_V).
Definition pyr_f2 (a b : nat) : R :=
  / @FACT2 R Rnum * (tri_val 3500 * (pyr_V a 0 * pyr_V b 0) + tri_val 2500 * (pyr_V a 1 * pyr_V b 1 + pyr_V a 2 * pyr_V b 2)
    + (tri_val 1900 * (pyr_V a 3 * pyr_V b 3) + tri_val 1300 * (pyr_V a 4 * pyr_V b 4 + pyr_V a 5 * pyr_V b 5))).
Definition pyr_f3 (a b c : nat) : R := pyr_V a 0 * pyr_V b 0 * pyr_V c 0.
Definition pyr_f4 (a b c d : nat) : R := pyr_V a 0 * pyr_V b 0 * pyr_V c 0 * pyr_V d 0.
Definition pyr_lam : R := 2 * (86112 / 1000000).
Definition pyr_K : R := / (2 * pyr_lam ^ 2).
Definition pyr_J (i : nat) : R := match i with 2%nat => 300 | _ => 162 end.
Definition pyr_mol : molecule R :=
  mk_mol OblateSymmTop [1; 1; 1; 1; 1; 1; 1; 4]%Z 4 6 pyr_geom (fun _ => 1) (fun i => pyr_K / pyr_J i) pyr_J.
Definition pyr_freq : list R := [3500; 2500; 2500; 1900; 1300; 1300; 0; 0; 0; 0; 0; 0].

Ltac twelve i := cases i 12%nat.
Ltac below6 i := cases i 6%nat.
Ltac below4 i := cases i 4%nat.

Lemma pyr_c3v : c3v 4 (fun _ => 1) s3 pyr_sg pyr_mu.
Proof.
  constructor; try reflexivity; [exact s3_sq| | | | |]; intros i Hi; below4 i; cbn; lia || reflexivity.
Qed.
Lemma pyr_placed : placed 4 s3 pyr_sg pyr_mu pyr_geom.
Proof.
  constructor; intros i Hi; below4 i; cbn; pose proof s3_sq;
    rewrite !pair_equal_spec; repeat split; lra.
Qed.
(** the moments of inertia of the molecule are those of the geometry *)
Lemma pyr_inertia y z : (y < 3)%nat -> (z < 3)%nat -> inertia 4 (fun _ => 1) pyr_geom y z = if (y =? z)%nat then pyr_J y else 0.
Proof. intros Hy Hz. below3 y; below3 z; unfold inertia; cbn; unfold kron; cbn; pose proof s3_sq; lra. Qed.

Lemma pyr_cols i j : (i < 12)%nat -> (j < 12)%nat -> Sum 12 (fun a => pyr_V a i * pyr_V a j) = delta i j.
Proof. intros Hi Hj. twelve i; twelve j; num. Qed.
Lemma pyr_rows i j : (i < 12)%nat -> (j < 12)%nat -> Sum 12 (fun a => pyr_V i a * pyr_V j a) = delta i j.
Proof. intros Hi Hj. twelve i; twelve j; num. Qed.
Lemma pyr_orth : orth 12 pyr_V.
Proof. split; [exact pyr_rows|exact pyr_cols]. Qed.

(** ** the symmetry of the force constants *)
Lemma pturn k a : (a < 12)%nat -> con1 12 (op pyr_sg (third s3)) (fun r => pyr_V r k) a =
  match k with
  | 0%nat => pyr_V a 0 | 1%nat => - (1 / 2) * pyr_V a 1 + - s3 * pyr_V a 2 | 2%nat => s3 * pyr_V a 1 + - (1 / 2) * pyr_V a 2
  | 3%nat => pyr_V a 3 | 4%nat => - (1 / 2) * pyr_V a 4 + - s3 * pyr_V a 5 | 5%nat => s3 * pyr_V a 4 + - (1 / 2) * pyr_V a 5
  | _ => con1 12 (op pyr_sg (third s3)) (fun r => pyr_V r k) a
  end.
Proof. intros Ha. do 6 (destruct k as [|k]; [twelve a; num|]). reflexivity. Qed.
Lemma pmirror k a : (a < 12)%nat -> con1 12 (op pyr_mu flip) (fun r => pyr_V r k) a =
  match k with
  | 0%nat => pyr_V a 0 | 1%nat => pyr_V a 1 | 2%nat => - pyr_V a 2
  | 3%nat => pyr_V a 3 | 4%nat => pyr_V a 4 | 5%nat => - pyr_V a 5
  | _ => con1 12 (op pyr_mu flip) (fun r => pyr_V r k) a
  end.
Proof. intros Ha. do 6 (destruct k as [|k]; [twelve a; num|]). reflexivity. Qed.

Lemma pyr_con2 U a b : con2 12 U pyr_f2 a b =
  let c k x := con1 12 U (fun r => pyr_V r k) x in
  / @FACT2 R Rnum * (tri_val 3500 * (c 0%nat a * c 0%nat b) + tri_val 2500 * (c 1%nat a * c 1%nat b + c 2%nat a * c 2%nat b)
    + (tri_val 1900 * (c 3%nat a * c 3%nat b) + tri_val 1300 * (c 4%nat a * c 4%nat b + c 5%nat a * c 5%nat b))).
Proof.
  cbv beta zeta. unfold pyr_f2. rewrite con2_scale, !con2_add, !con2_scale, !con2_add. now rewrite !con2_prod.
Qed.
Lemma paxes u a : (a < 12)%nat -> con1 12 (every_atom delta) u a = u a.
Proof.
  intros Ha. unfold con1. transitivity (Sum 12 (fun r => delta a r * u r)).
  - apply sum_g. intros r _. rewrite every_atom_delta. unfold delta. now rewrite Nat.eqb_sym.
  - now apply sum_delta.
Qed.
Lemma pyr_g2 a b : (a < 12)%nat -> (b < 12)%nat -> con2 12 (every_atom delta) pyr_f2 a b = pyr_f2 a b.
Proof. intros Ha Hb. rewrite pyr_con2. cbv beta zeta. rewrite !paxes by assumption. reflexivity. Qed.
Lemma pyr_g3 a b c : (a < 12)%nat -> (b < 12)%nat -> (c < 12)%nat -> con3 12 (every_atom delta) pyr_f3 a b c = pyr_f3 a b c.
Proof. intros Ha Hb Hc. unfold pyr_f3 at 1. rewrite (con3_prod 12 _ (fun r => pyr_V r 0) (fun r => pyr_V r 0) (fun r => pyr_V r 0)), !paxes by assumption. reflexivity. Qed.
Lemma pyr_g4 a b c d : (a < 12)%nat -> (b < 12)%nat -> (c < 12)%nat -> (d < 12)%nat -> con4 12 (every_atom delta) pyr_f4 a b c d = pyr_f4 a b c d.
Proof.
  intros Ha Hb Hc Hd. unfold pyr_f4 at 1.
  rewrite (con4_prod 12 _ (fun r => pyr_V r 0) (fun r => pyr_V r 0) (fun r => pyr_V r 0) (fun r => pyr_V r 0)), !paxes by assumption. reflexivity.
Qed.
Lemma pyr_turn2 : same2 12 (op pyr_sg (third s3)) (con2 12 (every_atom delta) pyr_f2).
Proof.
  intros a b Ha Hb. rewrite (con2_g 12 _ _ pyr_f2) by (intros; now apply pyr_g2). rewrite pyr_g2, pyr_con2 by assumption.
  cbv beta zeta. rewrite !pturn by assumption. unfold pyr_f2. f_equal. f_equal; f_equal; f_equal.
  - pose proof (s_pow s3 (pyr_V a 1 * pyr_V b 1) s3_sq). pose proof (s_pow s3 (pyr_V a 2 * pyr_V b 2) s3_sq). lra.
  - pose proof (s_pow s3 (pyr_V a 4 * pyr_V b 4) s3_sq). pose proof (s_pow s3 (pyr_V a 5 * pyr_V b 5) s3_sq). lra.
Qed.
Lemma pyr_mirror2 : same2 12 (op pyr_mu flip) (con2 12 (every_atom delta) pyr_f2).
Proof.
  intros a b Ha Hb. rewrite (con2_g 12 _ _ pyr_f2) by (intros; now apply pyr_g2). rewrite pyr_g2, pyr_con2 by assumption.
  cbv beta zeta. rewrite !pmirror by assumption. unfold pyr_f2. f_equal. f_equal; f_equal; f_equal; ring.
Qed.
Lemma pyr_same3 P : (forall a, (a < 12)%nat -> con1 12 P (fun r => pyr_V r 0) a = pyr_V a 0) -> same3 12 P (con3 12 (every_atom delta) pyr_f3).
Proof.
  intros E a b c Ha Hb Hc. rewrite (con3_g 12 _ _ pyr_f3) by (intros; now apply pyr_g3). rewrite pyr_g3 by assumption. unfold pyr_f3 at 1.
  rewrite (con3_prod 12 _ (fun r => pyr_V r 0) (fun r => pyr_V r 0) (fun r => pyr_V r 0)), !E by assumption. reflexivity.
Qed.
Lemma pyr_same4 P : (forall a, (a < 12)%nat -> con1 12 P (fun r => pyr_V r 0) a = pyr_V a 0) -> same4 12 P (con4 12 (every_atom delta) pyr_f4).
Proof.
  intros E a b c d Ha Hb Hc Hd. rewrite (con4_g 12 _ _ pyr_f4) by (intros; now apply pyr_g4). rewrite pyr_g4 by assumption. unfold pyr_f4 at 1.
  rewrite (con4_prod 12 _ (fun r => pyr_V r 0) (fun r => pyr_V r 0) (fun r => pyr_V r 0) (fun r => pyr_V r 0)), !E by assumption. reflexivity.
Qed.
Lemma pyr_sym2 : sym2 12 pyr_f2.
Proof. intros a b _ _. unfold pyr_f2. ring. Qed.
Lemma pyr_sym3 : tsym3 12 pyr_f3.
Proof. intros a b c _ _ _. unfold pyr_f3. split; ring. Qed.
Lemma pyr_sym4 : tsym4 12 pyr_f4.
Proof. intros a b c d _ _ _ _. unfold pyr_f4. repeat split; ring. Qed.
(** turning the molecule costs no energy *)
Lemma pyr_free : rotation_free 4 pyr_f2 (input_position delta pyr_geom).
Proof.
  intros W HW a Ha. change (3 * 4)%nat with 12%nat in *.
  set (t := fun b : nat => Sum 3 (fun k => W (b mod 3)%nat k * input_position delta pyr_geom (b / 3)%nat k)).
  assert (Z : forall k, (k < 6)%nat -> Sum 12 (fun b => pyr_V b k * t b) = 0).
  { assert (D : W 0%nat 0%nat = 0 /\ W 1%nat 1%nat = 0 /\ W 2%nat 2%nat = 0).
    { pose proof (HW 0 0)%nat. pose proof (HW 1 1)%nat. pose proof (HW 2 2)%nat. lra. }
    destruct D as (D0 & D1 & D2).
    pose proof (HW 1 0)%nat as E0. pose proof (HW 2 0)%nat as E1. pose proof (HW 2 1)%nat as E2.
    pose proof (s_pow s3 (W 0%nat 1%nat) s3_sq). pose proof (s_pow s3 (W 0%nat 2%nat) s3_sq). pose proof (s_pow s3 (W 1%nat 2%nat) s3_sq).
    intros k Hk. below6 k; unfold t, input_position; cbn; unfold delta; cbn; rewrite ?D0, ?D1, ?D2, ?E0, ?E1, ?E2; lra. }
  transitivity (Sum 12 (fun b => / @FACT2 R Rnum * (tri_val 3500 * pyr_V a 0) * (pyr_V b 0 * t b)
    + / @FACT2 R Rnum * (tri_val 2500 * pyr_V a 1) * (pyr_V b 1 * t b) + / @FACT2 R Rnum * (tri_val 2500 * pyr_V a 2) * (pyr_V b 2 * t b)
    + / @FACT2 R Rnum * (tri_val 1900 * pyr_V a 3) * (pyr_V b 3 * t b)
    + / @FACT2 R Rnum * (tri_val 1300 * pyr_V a 4) * (pyr_V b 4 * t b) + / @FACT2 R Rnum * (tri_val 1300 * pyr_V a 5) * (pyr_V b 5 * t b))).
  - apply sum_g. intros b Hb. fold (t b). unfold pyr_f2. ring.
  - rewrite !Rsum_plus, !Rsum_scal, !Z by lia. ring.
Qed.

(** ** the normal modes *)
Lemma pyr_eigen : eigen_system 12 (secular 4 delta pyr_f2 (fun _ => 1)) pyr_vals pyr_V.
Proof.
  split; [reflexivity|]. split; [exact pyr_orth|]. intros a i x Ha Ex.
  assert (Hi : (i < 12)%nat) by (change 12%nat with (length pyr_vals); apply nth_error_Some; congruence).
  transitivity (Sum 12 (fun b => (tri_val 3500 * pyr_V a 0) * (pyr_V b 0 * pyr_V b i) + ((tri_val 2500 * pyr_V a 1) * (pyr_V b 1 * pyr_V b i) + (tri_val 2500 * pyr_V a 2) * (pyr_V b 2 * pyr_V b i))
    + ((tri_val 1900 * pyr_V a 3) * (pyr_V b 3 * pyr_V b i) + ((tri_val 1300 * pyr_V a 4) * (pyr_V b 4 * pyr_V b i) + (tri_val 1300 * pyr_V a 5) * (pyr_V b 5 * pyr_V b i))))).
  - apply sum_g. intros b Hb. rewrite (secular_R 4) by (assumption || exact pyr_sym2 || (intros; lra)).
    change (3 * 4)%nat with 12%nat. unfold weighted. rewrite pyr_g2 by assumption. rewrite sqrt_1. unfold pyr_f2.
    pose proof FACT2_pos. field. lra.
  - rewrite !Rsum_plus, !Rsum_scal. rewrite !pyr_cols by lia.
    twelve i; cbn in Ex; injection Ex as <-; unfold delta; cbn [Nat.eqb]; ring.
Qed.
Lemma pyr_solves : solves 12 pyr_eig (secular 4 delta pyr_f2 (fun _ => 1)).
Proof. exact pyr_eigen. Qed.
Lemma tri_val_lt x y : 0 <= x < y -> tri_val x < tri_val y.
Proof.
  intros [H0 H1]. unfold tri_val. pose proof WAVE_pos.
  assert (0 <= x / @WAVE R Rnum) by (apply Rmult_le_pos; [lra|apply Rlt_le; now apply Rinv_0_lt_compat]).
  assert (x / @WAVE R Rnum < y / @WAVE R Rnum) by (apply Rmult_lt_compat_r; [now apply Rinv_0_lt_compat|lra]).
  unfold Rsqr. nra.
Qed.
Lemma pyr_vals_lt : 0 < tri_val 1300 /\ tri_val 1300 < tri_val 1900 /\ tri_val 1900 < tri_val 2500 /\ tri_val 2500 < tri_val 3500.
Proof.
  assert (E : tri_val 0 = 0) by (unfold tri_val, Rdiv; rewrite Rmult_0_l; apply Rsqr_0).
  rewrite <- E at 1. repeat split; apply tri_val_lt; lra.
Qed.
Lemma pyr_harmonic : exists l0, harmonic 4 delta pyr_f2 (fun _ => 1) pyr_eig = Some (pyr_freq, l0) /\
  forall a i, (i < 12)%nat -> l0 a i = pyr_V a i.
Proof.
  unfold harmonic, pyr_eig, sort_eigen. change (length pyr_vals) with 12%nat. change (3 * 4)%nat with 12%nat.
  assert (Ep : sort_pairs true (combine (range 0 12) pyr_vals) = combine (range 0 12) pyr_vals).
  { pose proof pyr_vals_lt. unfold pyr_vals. cbn [range Nat.sub seq combine sort_pairs fold_right].
    change (insert_pair true (11%nat, 0) []) with [(11%nat, 0)].
    repeat (rewrite insert_front by (cbn [snd]; lra)). reflexivity. }
  assert (Em : map to_wavenumber (map snd (combine (range 0 12) pyr_vals)) = pyr_freq).
  { cbn [range Nat.sub seq combine pyr_vals map snd]. rewrite !tri_wave by lra.
    replace (to_wavenumber 0) with 0 by (rewrite wavenumber_R; destruct (Rlt_dec 0 0); [lra|]; rewrite sqrt_0; ring). reflexivity. }
  rewrite Ep, <- Em. cbn [range Nat.sub seq combine pyr_vals ofold nth_error obind fst].
  eexists. split; [reflexivity|].
  intros a i Hi. twelve i; reflexivity.
Qed.

Lemma pyr_pairs i j : (i < j)%nat -> (j < 6)%nat -> nth i pyr_freq 0 = nth j pyr_freq 0 -> i = 1%nat /\ j = 2%nat \/ i = 4%nat /\ j = 5%nat.
Proof. intros Hi Hj. below6 j; below6 i; cbn; intros; try lia; try lra. Qed.
Lemma pyr_modes l0 : (forall a i, (i < 12)%nat -> l0 a i = pyr_V a i) ->
  threefold_modes 4 6 0 s3 pyr_sg pyr_mu (fun i => nth i pyr_freq 0) l0.
Proof.
  intros E. pose proof s3_sq as Q. pose proof s3_pos as Ps. assert (P7 : 7 / 10 < s3) by nra.
  constructor.
  - intros i Hi. below6 i; cbn; lra.
  - intros i j Hi Hj. below6 j; below6 i; cbn; try lia; (left; reflexivity) || (right; rewrite Rabs_pos_eq; lra).
  - intros i j k Hi Hj Hk E1 E2. destruct (pyr_pairs i j Hi ltac:(lia) E1), (pyr_pairs j k Hj Hk E2); lia.
  - intros i k Hi Hk Hk'. change (3 * 4)%nat with 12%nat in Hk'. below6 i; twelve k; cbn; try lia; lra.
  - intros i Hi Hs b Hb. change (3 * 4)%nat with 12%nat in *. rewrite (act_ext _ _ _ (fun a => pyr_V a i)) by (intros; apply E; lia). rewrite E by lia.
    destruct i as [|[|[|[|[|[|i]]]]]]; [|exfalso; apply (Hs 2%nat); cbn; lia || lra|exfalso; apply (Hs 1%nat); cbn; lia || lra|
      |exfalso; apply (Hs 5%nat); cbn; lia || lra|exfalso; apply (Hs 4%nat); cbn; lia || lra|lia]; twelve b; num.
  - intros i j Hi Hj Ew. exists 0%nat. split; [lia|].
    change (3 * 4)%nat with 12%nat. rewrite (act_ext _ _ _ (fun a => pyr_V a i)) by (intros; apply E; lia). rewrite E by lia.
    destruct (pyr_pairs i j Hi Hj Ew) as [[-> ->]|[-> ->]]; cbn; lra.
  - intros i j Hi Hj Ew. unfold big, toler. rewrite E by lia.
    destruct (pyr_pairs i j Hi Hj Ew) as [[-> ->]|[-> ->]]; cbn; rewrite Rabs_pos_eq; lra.
  - intros i j Hi Hj Ew. rewrite !E by lia. destruct (pyr_pairs i j Hi Hj Ew) as [[-> ->]|[-> ->]]; cbn; lra.
Qed.
Lemma pyr_apart i j k : (i < 6)%nat -> (j < 6)%nat -> (k < 6)%nat ->
  nth i pyr_freq 0 + nth j pyr_freq 0 <> nth k pyr_freq 0.
Proof. intros Hi Hj Hk. below6 i; below6 j; below6 k; cbn; lra. Qed.
Lemma pyr_far i j : (i < 6)%nat -> (j < 6)%nat -> nth i pyr_freq 0 = nth j pyr_freq 0 \/ 200 < Rabs (nth i pyr_freq 0 - nth j pyr_freq 0).
Proof.
  intros Hi Hj. below6 i; below6 j; cbn; (left; reflexivity) || (right; (rewrite Rabs_pos_eq by lra; lra) || (rewrite Rabs_left by lra; lra)).
Qed.
