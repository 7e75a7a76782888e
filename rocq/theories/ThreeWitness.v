(** Three equal atoms at the corners of a triangle: a molecule with a threefold axis and a mirror plane. *)
From Coq Require Import Reals Lra List ZArith Arith Lia Bool.
From Verif Require Import Num Loops ListFacts AnharmFacts Modes ResFacts Transform TransformFacts RotFacts HarmFacts ModeFacts DistortFacts ReportFacts GeomFacts ZeroFacts
  Geom AlignExact Finish Threefold ThreeForm ThreeModes.
Import ListNotations.
Open Scope nat_scope.
Local Open Scope R_scope.

Definition s3 : R := sqrt 3 / 2.
Lemma s3_sq : s3 * s3 = 3 / 4.
Proof. unfold s3. pose proof (sqrt_sqrt 3 ltac:(lra)). lra. Qed.
Lemma s3_pos : 0 < s3.
Proof. unfold s3. pose proof (sqrt_lt_R0 3 ltac:(lra)). lra. Qed.

(** the atoms lie at 0, 120 and 240 degrees *)
Definition tri_sg (i : nat) : nat := match i with 0%nat => 1%nat | 1%nat => 2%nat | _ => 0%nat end.
Definition tri_mu (i : nat) : nat := match i with 1%nat => 2%nat | 2%nat => 1%nat | _ => 0%nat end.
Definition tri_geom (i : nat) : R * R * R :=
  match i with 0%nat => (1, 0, 0) | 1%nat => (- (1 / 2), s3, 0) | _ => (- (1 / 2), - s3, 0) end.
(** the first column is the breathing mode, the next two are the pair of vibrations *)
Definition tri_V (a i : nat) : R :=
  let col := match i with
    | 0%nat => [2 / 3 * s3; 0; 0; - (1 / 3) * s3; 1 / 2; 0; - (1 / 3) * s3; - (1 / 2); 0]
    | 1%nat => [2 / 3 * s3; 0; 0; - (1 / 3) * s3; - (1 / 2); 0; - (1 / 3) * s3; 1 / 2; 0]
    | 2%nat => [0; 2 / 3 * s3; 0; 1 / 2; - (1 / 3) * s3; 0; - (1 / 2); - (1 / 3) * s3; 0]
    | 3%nat => [2 / 3 * s3; 0; 0; 2 / 3 * s3; 0; 0; 2 / 3 * s3; 0; 0]
    | 4%nat => [0; 2 / 3 * s3; 0; 0; 2 / 3 * s3; 0; 0; 2 / 3 * s3; 0]
    | 5%nat => [0; 2 / 3 * s3; 0; - (1 / 2); - (1 / 3) * s3; 0; 1 / 2; - (1 / 3) * s3; 0]
    | 6%nat => [0; 0; 1; 0; 0; 0; 0; 0; 0]
    | 7%nat => [0; 0; 0; 0; 0; 1; 0; 0; 0]
    | _ => [0; 0; 0; 0; 0; 0; 0; 0; 1]
    end in nth a col 0.
Definition tri_val (w : R) : R := Rsqr (w / @WAVE R Rnum).
Definition tri_vals : list R := [tri_val 3000; tri_val 2000; tri_val 2000; 0; 0; 0; 0; 0; 0].
Definition tri_eig : (nat -> nat -> R) -> list R * (nat -> nat -> R) := fun _ => (tri_vals, tri_V).
Definition tri_f2 (a b : nat) : R :=
  / @FACT2 R Rnum * (tri_val 3000 * (tri_V a 0 * tri_V b 0) + tri_val 2000 * (tri_V a 1 * tri_V b 1 + tri_V a 2 * tri_V b 2)).
Definition tri_f3 (a b c : nat) : R := tri_V a 0 * tri_V b 0 * tri_V c 0.
Definition tri_f4 (a b c d : nat) : R := tri_V a 0 * tri_V b 0 * tri_V c 0 * tri_V d 0.
Definition tri_mol : molecule R :=
  mk_mol OblateSymmTop [1; 1; 1; 1; 1; 1; 1; 4]%Z 3 3 tri_geom (fun _ => 1) (fun i => match i with 2%nat => 1 | _ => 2 end) (fun i => match i with 2%nat => 2 | _ => 1 end).
Definition tri_freq : list R := [3000; 2000; 2000; 0; 0; 0; 0; 0; 0].

Ltac cases i n := match n with O => exfalso; lia | S ?k => destruct i as [|i]; [|cases i k] end.
Ltac nine i := cases i 9%nat.
Ltac below3 i := cases i 3%nat.
Ltac num := pose proof s3_sq; pose proof s3_pos; cbn; lra.

Lemma tri_c3v : c3v 3 (fun _ => 1) s3 tri_sg tri_mu.
Proof.
  constructor; try reflexivity; [exact s3_sq| | | | |]; intros i Hi; below3 i; cbn; lia || reflexivity.
Qed.
Lemma tri_placed : placed 3 s3 tri_sg tri_mu tri_geom.
Proof.
  constructor; intros i Hi; below3 i; cbn; pose proof s3_sq; repeat f_equal; try lra.
Qed.

Lemma tri_cols i j : (i < 9)%nat -> (j < 9)%nat -> Sum 9 (fun a => tri_V a i * tri_V a j) = delta i j.
Proof. intros Hi Hj. nine i; nine j; num. Qed.
Lemma tri_rows i j : (i < 9)%nat -> (j < 9)%nat -> Sum 9 (fun a => tri_V i a * tri_V j a) = delta i j.
Proof. intros Hi Hj. nine i; nine j; num. Qed.
Lemma tri_orth : orth 9 tri_V.
Proof. split; [exact tri_rows|exact tri_cols]. Qed.

(** ** the symmetry of the force constants *)
Lemma con1_ext n U g g' a : (forall r, (r < n)%nat -> g r = g' r) -> con1 n U g a = con1 n U g' a.
Proof. intros E. apply con1_g. exact E. Qed.
Lemma con1_scale n U k g a : con1 n U (fun r => k * g r) a = k * con1 n U g a.
Proof. unfold con1. rewrite <- Rsum_scal. apply sum_g. intros. ring. Qed.
Lemma con1_add n U g g' a : con1 n U (fun r => g r + g' r) a = con1 n U g a + con1 n U g' a.
Proof. unfold con1. rewrite <- Rsum_plus. apply sum_g. intros. ring. Qed.
Lemma con2_prod n U u v a b : con2 n U (fun r s => u r * v s) a b = con1 n U u a * con1 n U v b.
Proof.
  unfold con2. rewrite (con1_ext n U _ (fun r => con1 n U v b * u r)); [rewrite con1_scale; ring|].
  intros r _. rewrite con1_scale. ring.
Qed.
Lemma con2_scale n U k f a b : con2 n U (fun r s => k * f r s) a b = k * con2 n U f a b.
Proof. unfold con2. rewrite <- con1_scale. apply con1_ext. intros r _. apply con1_scale. Qed.
Lemma con2_add n U f g a b : con2 n U (fun r s => f r s + g r s) a b = con2 n U f a b + con2 n U g a b.
Proof. unfold con2. rewrite <- con1_add. apply con1_ext. intros r _. apply con1_add. Qed.
Lemma con3_prod n U u v t a b c : con3 n U (fun r s q => u r * v s * t q) a b c = con1 n U u a * con1 n U v b * con1 n U t c.
Proof.
  unfold con3. rewrite (con1_ext n U _ (fun r => con1 n U v b * con1 n U t c * u r)); [rewrite con1_scale; ring|].
  intros r _. rewrite (con2_g n U _ (fun s q => u r * (v s * t q))) by (intros; ring). rewrite con2_scale, con2_prod. ring.
Qed.
Lemma con4_prod n U u v t x a b c d : con4 n U (fun r s q p => u r * v s * t q * x p) a b c d
  = con1 n U u a * con1 n U v b * con1 n U t c * con1 n U x d.
Proof.
  unfold con4. rewrite (con1_ext n U _ (fun r => con1 n U v b * con1 n U t c * con1 n U x d * u r)); [rewrite con1_scale; ring|].
  intros r _. rewrite (con3_prod n U (fun s => u r * v s) t x). rewrite con1_scale. ring.
Qed.

Lemma turn_0 a : (a < 9)%nat -> con1 9 (op tri_sg (third s3)) (fun r => tri_V r 0) a = tri_V a 0.
Proof. intros Ha. nine a; num. Qed.
Lemma turn_1 a : (a < 9)%nat -> con1 9 (op tri_sg (third s3)) (fun r => tri_V r 1) a = - (1 / 2) * tri_V a 1 + s3 * tri_V a 2.
Proof. intros Ha. nine a; num. Qed.
Lemma turn_2 a : (a < 9)%nat -> con1 9 (op tri_sg (third s3)) (fun r => tri_V r 2) a = - s3 * tri_V a 1 + - (1 / 2) * tri_V a 2.
Proof. intros Ha. nine a; num. Qed.
Lemma mirror_0 a : (a < 9)%nat -> con1 9 (op tri_mu flip) (fun r => tri_V r 0) a = tri_V a 0.
Proof. intros Ha. nine a; num. Qed.
Lemma mirror_1 a : (a < 9)%nat -> con1 9 (op tri_mu flip) (fun r => tri_V r 1) a = tri_V a 1.
Proof. intros Ha. nine a; num. Qed.
Lemma mirror_2 a : (a < 9)%nat -> con1 9 (op tri_mu flip) (fun r => tri_V r 2) a = - tri_V a 2.
Proof. intros Ha. nine a; num. Qed.

Lemma tri_con2 U a b : con2 9 U tri_f2 a b = / @FACT2 R Rnum * (tri_val 3000 * (con1 9 U (fun r => tri_V r 0) a * con1 9 U (fun r => tri_V r 0) b)
  + tri_val 2000 * (con1 9 U (fun r => tri_V r 1) a * con1 9 U (fun r => tri_V r 1) b + con1 9 U (fun r => tri_V r 2) a * con1 9 U (fun r => tri_V r 2) b)).
Proof.
  unfold tri_f2. rewrite con2_scale, con2_add, !con2_scale, con2_add. now rewrite !con2_prod.
Qed.
Lemma axes_delta u a : (a < 9)%nat -> con1 9 (every_atom delta) u a = u a.
Proof.
  intros Ha. unfold con1. transitivity (Sum 9 (fun r => delta a r * u r)).
  - apply sum_g. intros r _. rewrite every_atom_delta. unfold delta. now rewrite Nat.eqb_sym.
  - now apply sum_delta.
Qed.
Lemma tri_g2 a b : (a < 9)%nat -> (b < 9)%nat -> con2 9 (every_atom delta) tri_f2 a b = tri_f2 a b.
Proof. intros Ha Hb. rewrite tri_con2, !axes_delta by assumption. reflexivity. Qed.
Lemma tri_g3 a b c : (a < 9)%nat -> (b < 9)%nat -> (c < 9)%nat -> con3 9 (every_atom delta) tri_f3 a b c = tri_f3 a b c.
Proof. intros Ha Hb Hc. unfold tri_f3 at 1. rewrite (con3_prod 9 _ (fun r => tri_V r 0) (fun r => tri_V r 0) (fun r => tri_V r 0)), !axes_delta by assumption. reflexivity. Qed.
Lemma tri_g4 a b c d : (a < 9)%nat -> (b < 9)%nat -> (c < 9)%nat -> (d < 9)%nat -> con4 9 (every_atom delta) tri_f4 a b c d = tri_f4 a b c d.
Proof.
  intros Ha Hb Hc Hd. unfold tri_f4 at 1.
  rewrite (con4_prod 9 _ (fun r => tri_V r 0) (fun r => tri_V r 0) (fun r => tri_V r 0) (fun r => tri_V r 0)), !axes_delta by assumption. reflexivity.
Qed.

Lemma tri_turn2 : same2 9 (op tri_sg (third s3)) (con2 9 (every_atom delta) tri_f2).
Proof.
  intros a b Ha Hb. rewrite (con2_g 9 _ _ tri_f2) by (intros; now apply tri_g2). rewrite tri_g2, tri_con2 by assumption.
  rewrite !turn_0, !turn_1, !turn_2 by assumption. unfold tri_f2. f_equal. f_equal. f_equal.
  pose proof (s_pow s3 (tri_V a 1 * tri_V b 1) s3_sq). pose proof (s_pow s3 (tri_V a 2 * tri_V b 2) s3_sq). lra.
Qed.
Lemma tri_mirror2 : same2 9 (op tri_mu flip) (con2 9 (every_atom delta) tri_f2).
Proof.
  intros a b Ha Hb. rewrite (con2_g 9 _ _ tri_f2) by (intros; now apply tri_g2). rewrite tri_g2, tri_con2 by assumption.
  rewrite !mirror_0, !mirror_1, !mirror_2 by assumption. unfold tri_f2. f_equal. f_equal. f_equal. ring.
Qed.
Lemma tri_same3 P : (forall a, (a < 9)%nat -> con1 9 P (fun r => tri_V r 0) a = tri_V a 0) -> same3 9 P (con3 9 (every_atom delta) tri_f3).
Proof.
  intros E a b c Ha Hb Hc. rewrite (con3_g 9 _ _ tri_f3) by (intros; now apply tri_g3). rewrite tri_g3 by assumption. unfold tri_f3 at 1.
  rewrite (con3_prod 9 _ (fun r => tri_V r 0) (fun r => tri_V r 0) (fun r => tri_V r 0)), !E by assumption. reflexivity.
Qed.
Lemma tri_same4 P : (forall a, (a < 9)%nat -> con1 9 P (fun r => tri_V r 0) a = tri_V a 0) -> same4 9 P (con4 9 (every_atom delta) tri_f4).
Proof.
  intros E a b c d Ha Hb Hc Hd. rewrite (con4_g 9 _ _ tri_f4) by (intros; now apply tri_g4). rewrite tri_g4 by assumption. unfold tri_f4 at 1.
  rewrite (con4_prod 9 _ (fun r => tri_V r 0) (fun r => tri_V r 0) (fun r => tri_V r 0) (fun r => tri_V r 0)), !E by assumption. reflexivity.
Qed.
Lemma tri_sym2 : sym2 9 tri_f2.
Proof. intros a b _ _. unfold tri_f2. ring. Qed.
Lemma tri_sym3 : tsym3 9 tri_f3.
Proof. intros a b c _ _ _. unfold tri_f3. split; ring. Qed.
Lemma tri_sym4 : tsym4 9 tri_f4.
Proof. intros a b c d _ _ _ _. unfold tri_f4. repeat split; ring. Qed.

(** ** the normal modes *)
Lemma tri_eigen : eigen_system 9 (secular 3 delta tri_f2 (fun _ => 1)) tri_vals tri_V.
Proof.
  split; [reflexivity|]. split; [exact tri_orth|]. intros a i x Ha Ex.
  assert (Hi : (i < 9)%nat) by (change 9%nat with (length tri_vals); apply nth_error_Some; congruence).
  transitivity (Sum 9 (fun b => (tri_val 3000 * tri_V a 0) * (tri_V b 0 * tri_V b i) + ((tri_val 2000 * tri_V a 1) * (tri_V b 1 * tri_V b i) + (tri_val 2000 * tri_V a 2) * (tri_V b 2 * tri_V b i)))).
  - apply sum_g. intros b Hb. rewrite (secular_R 3) by (assumption || exact tri_sym2 || (intros; lra)).
    change (3 * 3)%nat with 9%nat. unfold weighted. rewrite tri_g2 by assumption. rewrite sqrt_1. unfold tri_f2.
    pose proof FACT2_pos. field. lra.
  - rewrite !Rsum_plus, !Rsum_scal. rewrite !tri_cols by lia.
    nine i; cbn in Ex; injection Ex as <-; unfold delta; cbn [Nat.eqb]; ring.
Qed.
Lemma tri_solves : solves 9 tri_eig (secular 3 delta tri_f2 (fun _ => 1)).
Proof. exact tri_eigen. Qed.

Lemma tri_val_le : 0 < tri_val 2000 < tri_val 3000.
Proof.
  unfold tri_val. pose proof WAVE_pos.
  assert (0 < 2000 / @WAVE R Rnum) by (apply Rdiv_lt_0_compat; lra).
  assert (2000 / @WAVE R Rnum < 3000 / @WAVE R Rnum) by (apply Rmult_lt_compat_r; [now apply Rinv_0_lt_compat|lra]).
  unfold Rsqr. nra.
Qed.
Lemma tri_wave w : 0 <= w -> to_wavenumber (tri_val w) = w.
Proof.
  intros Hw. rewrite wavenumber_R. unfold tri_val. pose proof WAVE_pos. pose proof (Rle_0_sqr (w / @WAVE R Rnum)).
  destruct (Rlt_dec _ 0); [lra|]. rewrite sqrt_Rsqr; [field; lra|]. apply Rmult_le_pos; [lra|]. apply Rlt_le. now apply Rinv_0_lt_compat.
Qed.
Lemma insert_front (p q : nat * R) t : snd q <= snd p -> insert_pair true p (q :: t) = p :: q :: t.
Proof. intros L. cbn [insert_pair before nltb Rnum]. now rewrite (proj2 (Rltb_false _ _) L). Qed.
Lemma tri_harmonic : exists l0, harmonic 3 delta tri_f2 (fun _ => 1) tri_eig = Some (tri_freq, l0) /\
  forall a i, (i < 9)%nat -> l0 a i = tri_V a i.
Proof.
  unfold harmonic, tri_eig, sort_eigen. change (length tri_vals) with 9%nat. change (3 * 3)%nat with 9%nat.
  assert (Ep : sort_pairs true (combine (range 0 9) tri_vals) = combine (range 0 9) tri_vals).
  { pose proof tri_val_le. unfold tri_vals. cbn [range Nat.sub seq combine sort_pairs fold_right].
    change (insert_pair true (8%nat, 0) []) with [(8%nat, 0)].
    repeat (rewrite insert_front by (cbn [snd]; lra)). reflexivity. }
  assert (Em : map to_wavenumber (map snd (combine (range 0 9) tri_vals)) = tri_freq).
  { cbn [range Nat.sub seq combine tri_vals map snd]. rewrite !tri_wave by lra.
    replace (to_wavenumber 0) with 0 by (rewrite wavenumber_R; destruct (Rlt_dec 0 0); [lra|]; rewrite sqrt_0; ring). reflexivity. }
  rewrite Ep, <- Em. cbn [range Nat.sub seq combine tri_vals ofold nth_error obind fst].
  eexists. split; [reflexivity|].
  intros a i Hi. nine i; reflexivity.
Qed.

Lemma tri_modes l0 : (forall a i, (i < 9)%nat -> l0 a i = tri_V a i) ->
  threefold_modes 3 3 0 s3 tri_sg tri_mu (fun i => nth i tri_freq 0) l0.
Proof.
  intros E. pose proof s3_sq as Q. pose proof s3_pos as Ps.
  assert (Pr : forall i j, (i < j)%nat -> (j < 3)%nat -> nth i tri_freq 0 = nth j tri_freq 0 -> i = 1%nat /\ j = 2%nat).
  { intros i j Hi Hj. below3 j; below3 i; cbn; intros; try lia; try lra. }
  constructor.
  - intros i Hi. below3 i; cbn; lra.
  - intros i j Hi Hj. below3 j; below3 i; cbn; try lia; [right|right|left; reflexivity];
      rewrite Rabs_pos_eq; lra.
  - intros i j k Hi Hj Hk E1 E2. destruct (Pr i j Hi ltac:(lia) E1), (Pr j k Hj Hk E2). lia.
  - intros i k Hi Hk Hk'. change (3 * 3)%nat with 9%nat in Hk'. below3 i; nine k; cbn; try lia; lra.
  - intros i Hi Hs b Hb. change (3 * 3)%nat with 9%nat in *. rewrite (act_ext _ _ _ (fun a => tri_V a i)) by (intros; apply E; lia). rewrite E by lia.
    below3 i; [|exfalso; apply (Hs 2%nat); cbn; lia || lra|exfalso; apply (Hs 1%nat); cbn; lia || lra].
    nine b; num.
  - intros i j Hi Hj Ew. destruct (Pr i j Hi Hj Ew) as [-> ->]. exists 0%nat. split; [lia|].
    change (3 * 3)%nat with 9%nat. rewrite (act_ext _ _ _ (fun a => tri_V a 1)) by (intros; apply E; lia). rewrite E by lia. cbn. lra.
  - intros i j Hi Hj Ew. destruct (Pr i j Hi Hj Ew) as [-> ->]. unfold big, toler. rewrite E by lia. cbn. rewrite Rabs_pos_eq by lra. nra.
  - intros i j Hi Hj Ew. destruct (Pr i j Hi Hj Ew) as [-> ->]. rewrite !E by lia. cbn. lra.
Qed.
Lemma tri_apart i j k : (i < 3)%nat -> (j < 3)%nat -> (k < 3)%nat ->
  nth i tri_freq 0 + nth j tri_freq 0 <> nth k tri_freq 0.
Proof. intros Hi Hj Hk. below3 i; below3 j; below3 k; cbn; lra. Qed.

Lemma tri_run : exists l0,
  let m := tri_mol in
  m_rotor m = OblateSymmTop /\ (0 < m_nvib m <= 3 * m_natom m)%nat /\ (forall q, (q < m_natom m)%nat -> 0 < m_w m q) /\
  c3v (m_natom m) (m_w m) s3 tri_sg tri_mu /\ placed (m_natom m) s3 tri_sg tri_mu (m_geom m) /\ m_rotcon m 0%nat = m_rotcon m 1%nat /\
  (0 < m_natom m)%nat /\ tri_mu 0 = 0%nat /\ sym2 9 tri_f2 /\ tsym3 9 tri_f3 /\ tsym4 9 tri_f4 /\
  same2 9 (op tri_sg (third s3)) (con2 9 (every_atom delta) tri_f2) /\ same2 9 (op tri_mu flip) (con2 9 (every_atom delta) tri_f2) /\
  same3 9 (op tri_sg (third s3)) (con3 9 (every_atom delta) tri_f3) /\ same3 9 (op tri_mu flip) (con3 9 (every_atom delta) tri_f3) /\
  same4 9 (op tri_sg (third s3)) (con4 9 (every_atom delta) tri_f4) /\ same4 9 (op tri_mu flip) (con4 9 (every_atom delta) tri_f4) /\
  solves 9 tri_eig (secular 3 delta tri_f2 (m_w m)) /\
  harmonic 3 delta tri_f2 (m_w m) tri_eig = Some (tri_freq, l0) /\
  threefold_modes 3 (m_nvib m) 0 s3 tri_sg tri_mu (fun i => nth i tri_freq 0) l0 /\
  (forall i j k, (i < m_nvib m)%nat -> (j < m_nvib m)%nat -> (k < m_nvib m)%nat ->
     nth i tri_freq 0 + nth j tri_freq 0 <> nth k tri_freq 0).
Proof.
  destruct tri_harmonic as (l0 & Eh & El). exists l0. cbv zeta. cbn [tri_mol m_rotor m_nvib m_natom m_w m_geom m_rotcon].
  split; [reflexivity|]. split; [lia|]. split; [intros; lra|]. split; [exact tri_c3v|]. split; [exact tri_placed|].
  split; [reflexivity|]. split; [lia|]. split; [reflexivity|]. split; [exact tri_sym2|]. split; [exact tri_sym3|]. split; [exact tri_sym4|].
  split; [exact tri_turn2|]. split; [exact tri_mirror2|].
  split; [exact (tri_same3 _ turn_0)|]. split; [exact (tri_same3 _ mirror_0)|].
  split; [exact (tri_same4 _ turn_0)|]. split; [exact (tri_same4 _ mirror_0)|].
  split; [exact tri_solves|]. split; [exact Eh|]. split; [exact (tri_modes l0 El)|exact tri_apart].
Qed.

Lemma tri_alignment : exists V lx V' lx',
  let A := secular 3 delta tri_f2 (fun _ => 1) in
  let w := fun i => nth i tri_freq 0 in
  c3v 3 (fun _ => 1) s3 tri_sg tri_mu /\ tri_mu 0 = 0%nat /\
  sym2 9 A /\ same2 9 (op tri_sg (third s3)) A /\ same2 9 (op tri_mu flip) A /\ eigen_system 9 A tri_vals V /\
  (forall i j, (i < 9)%nat -> (j < 9)%nat -> w i = w j <-> nth i tri_vals 0 = nth j tri_vals 0) /\
  threefold_modes 3 3 0 s3 tri_sg tri_mu w V /\
  bdegnl false 3 3 0 3 (Some (tri_sg 0)) w (fun _ => 1) V lx = Some (V', lx') /\
  act 9 (op tri_sg (third s3)) (fun a => V a 1%nat) 1 <> - (1 / 2) * V 1%nat 1%nat + sqrt 3 / 2 * V 1%nat 2%nat.
Proof.
  assert (TM : threefold_modes 3 3 0 s3 tri_sg tri_mu (fun i => nth i tri_freq 0) tri_V) by (apply tri_modes; reflexivity).
  destruct (align_total 3 3 0 1 (fun i => nth i tri_freq 0) (fun _ => 1) tri_V tri_V ltac:(lia) ltac:(lia)
    (tm_apart _ _ _ _ _ _ _ _ TM) (tm_two _ _ _ _ _ _ _ _ TM) (tm_big _ _ _ _ _ _ _ _ TM)) as (V' & lx' & E).
  exists tri_V, tri_V, V', lx'. cbv zeta.
  assert (Sec : forall a b, (a < 9)%nat -> (b < 9)%nat -> secular 3 delta tri_f2 (fun _ => 1) a b = weighted (fun _ => 1) (con2 9 (every_atom delta) tri_f2) a b).
  { intros a b Ha Hb. apply (secular_R 3); [exact tri_sym2|intros; lra|exact Ha|exact Hb]. }
  assert (Sm : forall P, same2 9 P (weighted (fun _ => 1) (con2 9 (every_atom delta) tri_f2)) -> same2 9 P (secular 3 delta tri_f2 (fun _ => 1))).
  { intros P HP a b Ha Hb. rewrite Sec, <- HP by assumption. apply con2_g. intros. now apply Sec. }
  split; [exact tri_c3v|]. split; [reflexivity|].
  split. { intros a b Ha Hb. rewrite !Sec by assumption. unfold weighted. rewrite !tri_g2 by assumption. rewrite (tri_sym2 a b) by assumption. f_equal. }
  split. { apply Sm, (weighted_same 3); [reflexivity|exact tri_turn2]. }
  split. { apply Sm, (weighted_same 3); [reflexivity|exact tri_mirror2]. }
  split; [exact tri_eigen|].
  split. { pose proof tri_val_le. intros i j Hi Hj. nine i; nine j; cbn; split; intros; lra. }
  split; [exact TM|]. split; [exact E|].
  change (sqrt 3 / 2) with s3. pose proof s3_sq. pose proof s3_pos. cbn. lra.
Qed.
