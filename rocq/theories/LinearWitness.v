(** Three atoms on a line, of masses 1, 4 and 4. *)
From Coq Require Import Reals Lra List ZArith Arith Lia Bool.
From Verif Require Import Num Loops ListFacts AnharmFacts Modes ResFacts FrameFacts Transform TransformFacts RotFacts HarmFacts ModeFacts DistortFacts EckartFacts ReportFacts GeomFacts ZeroFacts
  Geom AlignExact Finish Threefold ThreeForm ThreeModes ThreeWitness PyramidWitness LinearModes LinearRun.
Import ListNotations.
Open Scope nat_scope.
Local Open Scope R_scope.

Definition lin_w (i : nat) : R := match i with 0%nat => 1 | _ => 4 end.
Definition lin_geom (i : nat) : R * R * R :=
  match i with 0%nat => (0, 0, 2) | 1%nat => (0, 0, 1 / 2) | _ => (0, 0, - (1)) end.
(** the bending vibration along x and along y *)
Definition lin_X (a : nat) : R := nth a [2 / 3; 0; 0; - (2 / 3); 0; 0; 1 / 3; 0; 0] 0.
Definition lin_Y (a : nat) : R := nth a [0; 2 / 3; 0; 0; - (2 / 3); 0; 0; 1 / 3; 0] 0.
(** two stretching vibrations, two bending vibrations in planes that contain neither x nor y, and the
    motions of the whole molecule *)
Definition lin_V (a i : nat) : R :=
  match i with
  | 2%nat => 3 / 5 * lin_X a + 4 / 5 * lin_Y a
  | 3%nat => - (4 / 5) * lin_X a + 3 / 5 * lin_Y a
  | _ => nth a match i with
    | 0%nat => [0; 0; 2 / 3; 0; 0; - (2 / 3); 0; 0; 1 / 3]
    | 1%nat => [0; 0; 2 / 3; 0; 0; 1 / 3; 0; 0; - (2 / 3)]
    | 4%nat => [1 / 3; 0; 0; 2 / 3; 0; 0; 2 / 3; 0; 0]
    | 5%nat => [0; 1 / 3; 0; 0; 2 / 3; 0; 0; 2 / 3; 0]
    | 6%nat => [0; 0; 1 / 3; 0; 0; 2 / 3; 0; 0; 2 / 3]
    | 7%nat => [2 / 3; 0; 0; 1 / 3; 0; 0; - (2 / 3); 0; 0]
    | _ => [0; 2 / 3; 0; 0; 1 / 3; 0; 0; - (2 / 3); 0]
    end 0
  end.
Definition lin_vals : list R := [tri_val 2500; tri_val 1500; tri_val 600; tri_val 600; 0; 0; 0; 0; 0].
Definition lin_freq : list R := [2500; 1500; 600; 600; 0; 0; 0; 0; 0].
Definition lin_eig (A : nat -> nat -> R) : list R * (nat -> nat -> R) := (lin_vals, lin_V).
(** displacements weighted with the roots of the masses *)
Definition rm (a : nat) : R := nth a [1; 1; 1; 2; 2; 2; 2; 2; 2] 0.
Definition lin_f2 (a b : nat) : R := / @FACT2 R Rnum *
  (tri_val 2500 * ((rm a * lin_V a 0) * (rm b * lin_V b 0)) + tri_val 1500 * ((rm a * lin_V a 1) * (rm b * lin_V b 1))
   + tri_val 600 * ((rm a * lin_X a) * (rm b * lin_X b) + (rm a * lin_Y a) * (rm b * lin_Y b))).
(** a stretching vibration, alone and coupled to the square of the bending vibrations *)
Definition lin_f3 (a b c : nat) : R :=
  let S := fun a => lin_V a 0 in
  S a * S b * S c
  + (S a * lin_X b * lin_X c + lin_X a * S b * lin_X c + lin_X a * lin_X b * S c
     + (S a * lin_Y b * lin_Y c + lin_Y a * S b * lin_Y c + lin_Y a * lin_Y b * S c)).
Definition lin_f4 (a b c d : nat) : R := lin_V a 0 * lin_V b 0 * lin_V c 0 * lin_V d 0.
Definition lin_mol : molecule R :=
  mk_mol Linear [1; 1; 1; 1; 1; 1; 1; 4]%Z 3 4 lin_geom lin_w (fun i => match i with 2%nat => 0 | _ => 1 end) (fun i => match i with 2%nat => 0 | _ => 9 end).

Ltac below4 i := cases i 4%nat.
Lemma sqrt_4 : sqrt 4 = 2.
Proof. replace 4 with (2 * 2) by lra. apply sqrt_square. lra. Qed.
Lemma lin_root a : (a < 9)%nat -> sqrt (lin_w (a / 3)%nat) = rm a.
Proof. intros Ha. nine a; cbn; (apply sqrt_1 || apply sqrt_4). Qed.
Lemma lin_pos q : 0 < lin_w q.
Proof. destruct q; cbn; lra. Qed.
Lemma rm_pos a : (a < 9)%nat -> 0 < rm a.
Proof. intros Ha. nine a; cbn; lra. Qed.
Lemma lin_axis : on_axis 3 lin_geom.
Proof. intros i Hi. below3 i; cbn; eauto. Qed.

Lemma lin_cols i j : (i < 9)%nat -> (j < 9)%nat -> Sum 9 (fun a => lin_V a i * lin_V a j) = delta i j.
Proof. intros Hi Hj. nine i; nine j; cbn; lra. Qed.
Lemma lin_rows i j : (i < 9)%nat -> (j < 9)%nat -> Sum 9 (fun a => lin_V i a * lin_V j a) = delta i j.
Proof. intros Hi Hj. nine i; nine j; cbn; lra. Qed.
Lemma lin_orth : orth 9 lin_V.
Proof. split; [exact lin_rows|exact lin_cols]. Qed.

(** ** the symmetry of the force constants *)
Lemma con3_add n U f g a b c : con3 n U (fun r s t => f r s t + g r s t) a b c = con3 n U f a b c + con3 n U g a b c.
Proof.
  unfold con3. rewrite <- con1_add. apply con1_ext. intros r _. apply (con2_add n U (f r) (g r)).
Qed.
Definition turns (P : nat -> nat -> R) (c s g : R) : Prop := forall a, (a < 9)%nat ->
  con1 9 P (fun r => rm r * lin_V r 0) a = rm a * lin_V a 0 /\ con1 9 P (fun r => rm r * lin_V r 1) a = rm a * lin_V a 1 /\
  con1 9 P (fun r => lin_V r 0) a = lin_V a 0 /\
  con1 9 P lin_X a = c * lin_X a - s * lin_Y a /\ con1 9 P (fun r => rm r * lin_X r) a = c * (rm a * lin_X a) - s * (rm a * lin_Y a) /\
  con1 9 P lin_Y a = g * (s * lin_X a + c * lin_Y a) /\
  con1 9 P (fun r => rm r * lin_Y r) a = g * (s * (rm a * lin_X a) + c * (rm a * lin_Y a)).
Lemma turns_spin th : turns (turned_by th) (cos th) (sin th) 1.
Proof.
  unfold turned_by, op, spin, stay. set (c := cos th). set (s := sin th). clearbody c s.
  intros a Ha. nine a; cbn; repeat split; lra.
Qed.
Lemma turns_mirror : turns mirrored 1 0 (-1).
Proof. intros a Ha. nine a; cbn; repeat split; lra. Qed.

Lemma lin_axes u a : (a < 9)%nat -> con1 9 (every_atom delta) u a = u a.
Proof. apply axes_delta. Qed.
Lemma lin_con2 U a b : con2 9 U lin_f2 a b = / @FACT2 R Rnum *
  (tri_val 2500 * (con1 9 U (fun r => rm r * lin_V r 0) a * con1 9 U (fun r => rm r * lin_V r 0) b)
   + tri_val 1500 * (con1 9 U (fun r => rm r * lin_V r 1) a * con1 9 U (fun r => rm r * lin_V r 1) b)
   + tri_val 600 * (con1 9 U (fun r => rm r * lin_X r) a * con1 9 U (fun r => rm r * lin_X r) b
                    + con1 9 U (fun r => rm r * lin_Y r) a * con1 9 U (fun r => rm r * lin_Y r) b)).
Proof.
  unfold lin_f2. rewrite con2_scale, !con2_add, !con2_scale, con2_add.
  rewrite (con2_prod 9 U (fun r => rm r * lin_V r 0) (fun r => rm r * lin_V r 0)), (con2_prod 9 U (fun r => rm r * lin_V r 1) (fun r => rm r * lin_V r 1)),
    (con2_prod 9 U (fun r => rm r * lin_X r) (fun r => rm r * lin_X r)), (con2_prod 9 U (fun r => rm r * lin_Y r) (fun r => rm r * lin_Y r)).
  reflexivity.
Qed.
Lemma lin_con3 U a b c : con3 9 U lin_f3 a b c =
  let S := con1 9 U (fun r => lin_V r 0) in
  let X := con1 9 U lin_X in
  let Y := con1 9 U lin_Y in
  S a * S b * S c
  + (S a * X b * X c + X a * S b * X c + X a * X b * S c + (S a * Y b * Y c + Y a * S b * Y c + Y a * Y b * S c)).
Proof.
  cbv zeta. unfold lin_f3. cbv zeta.
  rewrite !con3_add. set (S := fun r => lin_V r 0).
  rewrite (con3_prod 9 U S S S), (con3_prod 9 U S lin_X lin_X), (con3_prod 9 U lin_X S lin_X), (con3_prod 9 U lin_X lin_X S),
    (con3_prod 9 U S lin_Y lin_Y), (con3_prod 9 U lin_Y S lin_Y), (con3_prod 9 U lin_Y lin_Y S). reflexivity.
Qed.
Lemma lin_con4 U a b c d : con4 9 U lin_f4 a b c d =
  con1 9 U (fun r => lin_V r 0) a * con1 9 U (fun r => lin_V r 0) b * con1 9 U (fun r => lin_V r 0) c * con1 9 U (fun r => lin_V r 0) d.
Proof. apply (con4_prod 9 U (fun r => lin_V r 0) (fun r => lin_V r 0) (fun r => lin_V r 0) (fun r => lin_V r 0)). Qed.
Lemma lin_g2 a b : (a < 9)%nat -> (b < 9)%nat -> con2 9 (every_atom delta) lin_f2 a b = lin_f2 a b.
Proof. intros Ha Hb. rewrite lin_con2, !lin_axes by assumption. reflexivity. Qed.
Lemma lin_g3 a b c : (a < 9)%nat -> (b < 9)%nat -> (c < 9)%nat -> con3 9 (every_atom delta) lin_f3 a b c = lin_f3 a b c.
Proof. intros Ha Hb Hc. rewrite lin_con3. cbv zeta. rewrite !lin_axes by assumption. reflexivity. Qed.
Lemma lin_g4 a b c d : (a < 9)%nat -> (b < 9)%nat -> (c < 9)%nat -> (d < 9)%nat -> con4 9 (every_atom delta) lin_f4 a b c d = lin_f4 a b c d.
Proof. intros Ha Hb Hc Hd. rewrite lin_con4, !lin_axes by assumption. reflexivity. Qed.

Section Same.
  Variables (P : nat -> nat -> R) (c s g : R).
  Hypothesis HP : turns P c s g.
  Hypothesis Hcs : c * c + s * s = 1.
  Hypothesis Hg : g * g = 1.
  Lemma lin_same2 : same2 9 P (con2 9 (every_atom delta) lin_f2).
  Proof.
    intros a b Ha Hb. rewrite (con2_g 9 _ _ lin_f2) by (intros; now apply lin_g2). rewrite lin_g2, lin_con2 by assumption.
    destruct (HP a Ha) as (-> & -> & _ & _ & -> & _ & ->), (HP b Hb) as (-> & -> & _ & _ & -> & _ & ->). unfold lin_f2. f_equal. f_equal. f_equal.
    set (xa := rm a * lin_X a). set (ya := rm a * lin_Y a). set (xb := rm b * lin_X b). set (yb := rm b * lin_Y b).
    transitivity ((c * xa - s * ya) * (c * xb - s * yb) + (g * g) * ((s * xa + c * ya) * (s * xb + c * yb))); [ring|].
    rewrite Hg. transitivity ((c * c + s * s) * (xa * xb + ya * yb)); [ring|]. rewrite Hcs. ring.
  Qed.
  Lemma lin_same3 : same3 9 P (con3 9 (every_atom delta) lin_f3).
  Proof.
    intros a b d Ha Hb Hd. rewrite (con3_g 9 _ _ lin_f3) by (intros; now apply lin_g3). rewrite lin_g3, lin_con3 by assumption. cbv zeta.
    destruct (HP a Ha) as (_ & _ & -> & -> & _ & -> & _), (HP b Hb) as (_ & _ & -> & -> & _ & -> & _), (HP d Hd) as (_ & _ & -> & -> & _ & -> & _).
    unfold lin_f3. cbv zeta. f_equal.
    assert (Q : forall xa ya xb yb, (c * xa - s * ya) * (c * xb - s * yb) + g * (s * xa + c * ya) * (g * (s * xb + c * yb)) = xa * xb + ya * yb).
    { intros. transitivity ((c * xa - s * ya) * (c * xb - s * yb) + (g * g) * ((s * xa + c * ya) * (s * xb + c * yb))); [ring|].
      rewrite Hg. transitivity ((c * c + s * s) * (xa * xb + ya * yb)); [ring|]. rewrite Hcs. ring. }
    pose proof (f_equal (Rmult (lin_V a 0)) (Q (lin_X b) (lin_Y b) (lin_X d) (lin_Y d))).
    pose proof (f_equal (Rmult (lin_V b 0)) (Q (lin_X a) (lin_Y a) (lin_X d) (lin_Y d))).
    pose proof (f_equal (Rmult (lin_V d 0)) (Q (lin_X a) (lin_Y a) (lin_X b) (lin_Y b))). lra.
  Qed.
  Lemma lin_same4 : same4 9 P (con4 9 (every_atom delta) lin_f4).
  Proof.
    intros a b d e Ha Hb Hd He. rewrite (con4_g 9 _ _ lin_f4) by (intros; now apply lin_g4). rewrite lin_g4, lin_con4 by assumption.
    destruct (HP a Ha) as (_ & _ & -> & _), (HP b Hb) as (_ & _ & -> & _), (HP d Hd) as (_ & _ & -> & _), (HP e He) as (_ & _ & -> & _). reflexivity.
  Qed.
End Same.
Lemma unit_turn th : cos th * cos th + sin th * sin th = 1.
Proof. pose proof (sin2_cos2 th) as H. unfold Rsqr in H. lra. Qed.
Lemma lin_symmetric : axially_symmetric 3 (con2 9 (every_atom delta) lin_f2) (con3 9 (every_atom delta) lin_f3) (con4 9 (every_atom delta) lin_f4).
Proof.
  repeat split; intros.
  - apply (lin_same2 _ _ _ _ (turns_spin th) (unit_turn th)). lra.
  - apply (lin_same2 _ _ _ _ turns_mirror); lra.
  - apply (lin_same3 _ _ _ _ (turns_spin th) (unit_turn th)). lra.
  - apply (lin_same3 _ _ _ _ turns_mirror); lra.
  - apply (lin_same4 _ _ _ _ (turns_spin th)).
  - apply (lin_same4 _ _ _ _ turns_mirror).
Qed.
Lemma lin_sym2 : sym2 9 lin_f2.
Proof. intros a b _ _. unfold lin_f2. ring. Qed.
Lemma lin_sym3 : tsym3 9 lin_f3.
Proof. intros a b c _ _ _. unfold lin_f3. cbv zeta. split; ring. Qed.
Lemma lin_sym4 : tsym4 9 lin_f4.
Proof. intros a b c d _ _ _ _. unfold lin_f4. repeat split; ring. Qed.

(** ** the normal modes *)
Lemma lin_bends a b : lin_V a 2 * lin_V b 2 + lin_V a 3 * lin_V b 3 = lin_X a * lin_X b + lin_Y a * lin_Y b.
Proof. cbn [lin_V]. lra. Qed.
Lemma lin_secular a b : (a < 9)%nat -> (b < 9)%nat -> secular 3 delta lin_f2 lin_w a b
  = tri_val 2500 * (lin_V a 0 * lin_V b 0) + tri_val 1500 * (lin_V a 1 * lin_V b 1) + tri_val 600 * (lin_V a 2 * lin_V b 2 + lin_V a 3 * lin_V b 3).
Proof.
  intros Ha Hb. rewrite (secular_R 3) by (assumption || exact lin_sym2 || (intros; apply lin_pos)).
  change (3 * 3)%nat with 9%nat. unfold weighted. rewrite lin_g2, !lin_root, lin_bends by assumption. unfold lin_f2.
  pose proof FACT2_pos. pose proof (rm_pos a Ha). pose proof (rm_pos b Hb). field. lra.
Qed.
Lemma lin_eigen : eigen_system 9 (secular 3 delta lin_f2 lin_w) lin_vals lin_V.
Proof.
  split; [reflexivity|]. split; [exact lin_orth|]. intros a i x Ha Ex.
  assert (Hi : (i < 9)%nat) by (change 9%nat with (length lin_vals); apply nth_error_Some; congruence).
  transitivity (Sum 9 (fun b => (tri_val 2500 * lin_V a 0) * (lin_V b 0 * lin_V b i) + (tri_val 1500 * lin_V a 1) * (lin_V b 1 * lin_V b i)
    + ((tri_val 600 * lin_V a 2) * (lin_V b 2 * lin_V b i) + (tri_val 600 * lin_V a 3) * (lin_V b 3 * lin_V b i)))).
  - apply sum_g. intros b Hb. rewrite lin_secular by assumption. ring.
  - rewrite !Rsum_plus, !Rsum_scal. rewrite !lin_cols by lia.
    nine i; cbn [nth_error lin_vals] in Ex; injection Ex as <-; unfold delta; cbn [Nat.eqb]; ring.
Qed.
Lemma lin_solves : solves 9 lin_eig (secular 3 delta lin_f2 lin_w).
Proof. exact lin_eigen. Qed.
Lemma lin_vals_lt : 0 < tri_val 600 /\ tri_val 600 < tri_val 1500 /\ tri_val 1500 < tri_val 2500.
Proof.
  assert (E : tri_val 0 = 0) by (unfold tri_val, Rdiv; rewrite Rmult_0_l; apply Rsqr_0).
  rewrite <- E at 1. repeat split; apply tri_val_lt; lra.
Qed.
Lemma lin_harmonic : exists l0, harmonic 3 delta lin_f2 lin_w lin_eig = Some (lin_freq, l0) /\
  forall a i, (i < 9)%nat -> l0 a i = lin_V a i.
Proof.
  unfold harmonic, lin_eig, sort_eigen. change (length lin_vals) with 9%nat. change (3 * 3)%nat with 9%nat.
  assert (Ep : sort_pairs true (combine (range 0 9) lin_vals) = combine (range 0 9) lin_vals).
  { pose proof lin_vals_lt. unfold lin_vals. cbn [range Nat.sub seq combine sort_pairs fold_right].
    change (insert_pair true (8%nat, 0) []) with [(8%nat, 0)].
    repeat (rewrite insert_front by (cbn [snd]; lra)). reflexivity. }
  assert (Em : map to_wavenumber (map snd (combine (range 0 9) lin_vals)) = lin_freq).
  { cbn [range Nat.sub seq combine lin_vals map snd]. rewrite !tri_wave by lra.
    replace (to_wavenumber 0) with 0 by (rewrite wavenumber_R; destruct (Rlt_dec 0 0); [lra|]; rewrite sqrt_0; ring). reflexivity. }
  rewrite Ep, <- Em. cbn [range Nat.sub seq combine lin_vals ofold nth_error obind fst].
  eexists. split; [reflexivity|].
  intros a i Hi. nine i; reflexivity.
Qed.
Lemma lin_pair i j : (i < j)%nat -> (j < 4)%nat -> nth i lin_freq 0 = nth j lin_freq 0 -> i = 2%nat /\ j = 3%nat.
Proof. intros Hi Hj. below4 j; below4 i; cbn; intros; try lia; try lra. Qed.
Lemma lin_modes l0 : (forall a i, (i < 9)%nat -> l0 a i = lin_V a i) ->
  linear_modes 3 4 0 (fun i => nth i lin_freq 0) l0.
Proof.
  intros E. constructor.
  - intros i Hi. below4 i; cbn; lra.
  - intros i j Hi Hj. below4 j; below4 i; cbn; try lia; (left; reflexivity) || (right; rewrite Rabs_pos_eq; lra).
  - intros i j k Hi Hj Hk E1 E2. destruct (lin_pair i j Hi ltac:(lia) E1), (lin_pair j k Hj Hk E2); lia.
  - intros i k Hi Hk Hk'. change (3 * 3)%nat with 9%nat in Hk'. below4 i; nine k; cbn; try lia; lra.
  - intros i j Hi Hj Ew. left. unfold big, toler. rewrite E by lia.
    destruct (lin_pair i j Hi Hj Ew) as [-> ->]; cbn; rewrite Rabs_pos_eq; lra.
Qed.
Lemma lin_apart i j k : (i < 4)%nat -> (j < 4)%nat -> (k < 4)%nat ->
  nth i lin_freq 0 + nth j lin_freq 0 <> nth k lin_freq 0.
Proof. intros Hi Hj Hk. below4 i; below4 j; below4 k; cbn; lra. Qed.
Lemma lin_far i j : (i < 4)%nat -> (j < 4)%nat -> nth i lin_freq 0 = nth j lin_freq 0 \/ 200 < Rabs (nth i lin_freq 0 - nth j lin_freq 0).
Proof.
  intros Hi Hj. below4 i; below4 j; cbn; (left; reflexivity) || (right; (rewrite Rabs_pos_eq by lra; lra) || (rewrite Rabs_left by lra; lra)).
Qed.
(** turning the molecule costs no energy *)
Lemma lin_free : rotation_free 3 lin_f2 (input_position delta lin_geom).
Proof.
  intros W HW a Ha. change (3 * 3)%nat with 9%nat in *.
  set (t := fun b : nat => Sum 3 (fun k => W (b mod 3)%nat k * input_position delta lin_geom (b / 3)%nat k)).
  assert (Z : Sum 9 (fun b => (rm b * lin_V b 0) * t b) = 0 /\ Sum 9 (fun b => (rm b * lin_V b 1) * t b) = 0 /\
              Sum 9 (fun b => (rm b * lin_X b) * t b) = 0 /\ Sum 9 (fun b => (rm b * lin_Y b) * t b) = 0).
  { assert (D : W 0%nat 0%nat = 0 /\ W 1%nat 1%nat = 0 /\ W 2%nat 2%nat = 0).
    { pose proof (HW 0 0)%nat. pose proof (HW 1 1)%nat. pose proof (HW 2 2)%nat. lra. }
    destruct D as (D0 & D1 & D2).
    pose proof (HW 1 0)%nat as E0. pose proof (HW 2 0)%nat as E1. pose proof (HW 2 1)%nat as E2.
    repeat split; unfold t, input_position; cbn; unfold delta; cbn; rewrite ?D0, ?D1, ?D2, ?E0, ?E1, ?E2; lra. }
  destruct Z as (Z0 & Z1 & Z2 & Z3).
  transitivity (Sum 9 (fun b => / @FACT2 R Rnum * (tri_val 2500 * (rm a * lin_V a 0)) * ((rm b * lin_V b 0) * t b)
    + / @FACT2 R Rnum * (tri_val 1500 * (rm a * lin_V a 1)) * ((rm b * lin_V b 1) * t b)
    + / @FACT2 R Rnum * (tri_val 600 * (rm a * lin_X a)) * ((rm b * lin_X b) * t b)
    + / @FACT2 R Rnum * (tri_val 600 * (rm a * lin_Y a)) * ((rm b * lin_Y b) * t b))).
  - apply sum_g. intros b Hb. fold (t b). unfold lin_f2. ring.
  - rewrite !Rsum_plus, !Rsum_scal, Z0, Z1, Z2, Z3. ring.
Qed.

Lemma lin_run : exists l0,
  let m := lin_mol in
  m_rotor m = Linear /\ (0 < m_nvib m <= 3 * m_natom m)%nat /\ (forall q, (q < m_natom m)%nat -> 0 < m_w m q) /\
  on_axis (m_natom m) (m_geom m) /\ m_rotcon m 0%nat = m_rotcon m 1%nat /\ m_rotcon m 2%nat = 0 /\
  sym2 9 lin_f2 /\ tsym3 9 lin_f3 /\ tsym4 9 lin_f4 /\
  axially_symmetric 3 (con2 9 (every_atom delta) lin_f2) (con3 9 (every_atom delta) lin_f3) (con4 9 (every_atom delta) lin_f4) /\
  solves 9 lin_eig (secular 3 delta lin_f2 (m_w m)) /\
  harmonic 3 delta lin_f2 (m_w m) lin_eig = Some (lin_freq, l0) /\
  linear_modes 3 (m_nvib m) 0 (fun i => nth i lin_freq 0) l0 /\
  (forall i j k, (i < m_nvib m)%nat -> (j < m_nvib m)%nat -> (k < m_nvib m)%nat ->
     nth i lin_freq 0 + nth j lin_freq 0 <> nth k lin_freq 0).
Proof.
  destruct lin_harmonic as (l0 & Eh & El). exists l0. cbv zeta. cbn [lin_mol m_rotor m_nvib m_natom m_w m_geom m_rotcon].
  split; [reflexivity|]. split; [lia|]. split; [intros; apply lin_pos|]. split; [exact lin_axis|].
  split; [reflexivity|]. split; [reflexivity|]. split; [exact lin_sym2|]. split; [exact lin_sym3|]. split; [exact lin_sym4|].
  split; [exact lin_symmetric|]. split; [exact lin_solves|]. split; [exact Eh|]. split; [exact (lin_modes l0 El)|exact lin_apart].
Qed.

Lemma lin_alignment : exists V lx V' lx',
  let A := secular 3 delta lin_f2 lin_w in
  let w := fun i => nth i lin_freq 0 in
  sym2 9 A /\ (forall th, same2 9 (turned_by th) A) /\ same2 9 mirrored A /\ eigen_system 9 A lin_vals V /\
  (forall i j, (i < 9)%nat -> (j < 9)%nat -> w i = w j <-> nth i lin_vals 0 = nth j lin_vals 0) /\
  linear_modes 3 4 0 w V /\
  bdegnl true 3 4 0 0 None w lin_w V lx = Some (V', lx') /\
  V 1%nat 2%nat <> 0 /\ V 0%nat 3%nat <> 0.
Proof.
  assert (TM : linear_modes 3 4 0 (fun i => nth i lin_freq 0) lin_V) by (apply lin_modes; reflexivity).
  destruct (align_total1 3 4 0 0 None (fun i => nth i lin_freq 0) lin_w lin_V lin_V ltac:(lia) ltac:(lia)
    (lm_apart _ _ _ _ _ TM) (lm_two _ _ _ _ _ TM) (lm_big _ _ _ _ _ TM)) as (V' & lx' & E).
  exists lin_V, lin_V, V', lx'. cbv zeta.
  assert (Sec : forall a b, (a < 9)%nat -> (b < 9)%nat -> secular 3 delta lin_f2 lin_w a b = weighted lin_w (con2 9 (every_atom delta) lin_f2) a b).
  { intros a b Ha Hb. apply (secular_R 3); [exact lin_sym2|intros; apply lin_pos|exact Ha|exact Hb]. }
  assert (Sm : forall P, same2 9 P (weighted lin_w (con2 9 (every_atom delta) lin_f2)) -> same2 9 P (secular 3 delta lin_f2 lin_w)).
  { intros P HP a b Ha Hb. rewrite Sec, <- HP by assumption. apply con2_g. intros. now apply Sec. }
  destruct lin_symmetric as ((T2 & M2) & _).
  split. { intros a b Ha Hb. rewrite !lin_secular by assumption. ring. }
  split. { intros th. apply Sm, (weighted_same 3); [reflexivity|exact (T2 th)]. }
  split. { apply Sm, (weighted_same 3); [reflexivity|exact M2]. }
  split; [exact lin_eigen|].
  split. { pose proof lin_vals_lt. intros i j Hi Hj. nine i; nine j; cbn [nth lin_freq lin_vals]; split; intros; lra. }
  split; [exact TM|]. split; [exact E|]. cbn. split; lra.
Qed.

(** the bends are the degenerate partners *)
Definition lin_rep (i j : nat) : bool :=
  match i, j with 2, 3 | 3, 2 => true | _, _ => false end%nat.
Lemma lin_rep_spec i j : lin_rep i j = true <-> (i < 4)%nat /\ (j < 4)%nat /\ i <> j /\ nth i lin_freq 0 = nth j lin_freq 0.
Proof.
  split.
  - destruct i as [|[|[|[|i]]]], j as [|[|[|[|j]]]]; cbn; intros E; try discriminate; repeat split; try lia; reflexivity.
  - intros (Hi & Hj & Ne & E). below4 i; below4 j; cbn in *; try reflexivity; try (exfalso; lra); contradiction.
Qed.
Lemma lin_KJ : 2 * 9 * (/ sqrt 18) ^ 2 = 1.
Proof.
  rewrite pow_inv. simpl (_ ^ 2). rewrite Rmult_1_r, sqrt_sqrt by lra. field.
Qed.

Lemma lin_rot : exists l0,
  let m := lin_mol in
  let w := fun i => nth i lin_freq 0 in
  m_rotor m = Linear /\ (0 < m_nvib m <= 3 * m_natom m)%nat /\ (forall q, (q < m_natom m)%nat -> 0 < m_w m q) /\
  on_axis (m_natom m) (m_geom m) /\ m_rotcon m 0%nat = m_rotcon m 1%nat /\ m_primat m 0%nat = m_primat m 1%nat /\
  sym2 9 lin_f2 /\ tsym3 9 lin_f3 /\ tsym4 9 lin_f4 /\
  axially_symmetric 3 (con2 9 (every_atom delta) lin_f2) (con3 9 (every_atom delta) lin_f3) (con4 9 (every_atom delta) lin_f4) /\
  orth 3 delta /\ rotation_free 3 lin_f2 (input_position delta (m_geom m)) /\
  solves 9 lin_eig (secular 3 delta lin_f2 (m_w m)) /\
  harmonic 3 delta lin_f2 (m_w m) lin_eig = Some (lin_freq, l0) /\
  linear_modes 3 (m_nvib m) 0 w l0 /\
  (forall i j k, (i < m_nvib m)%nat -> (j < m_nvib m)%nat -> (k < m_nvib m)%nat -> w i + w j <> w k) /\
  2 * 9 * (/ sqrt 18) ^ 2 = 1 /\ 0 < m_primat m 1%nat /\ m_rotcon m 1%nat = 9 / m_primat m 1%nat /\
  (forall i j, lin_rep i j = true <-> (i < m_nvib m)%nat /\ (j < m_nvib m)%nat /\ i <> j /\ w i = w j) /\
  (forall i j, (i < m_nvib m)%nat -> (j < m_nvib m)%nat -> w i = w j \/ 200 < Rabs (w i - w j)).
Proof.
  destruct lin_harmonic as (l0 & Eh & El). exists l0. cbv zeta. cbn [lin_mol m_rotor m_nvib m_natom m_w m_geom m_rotcon m_primat].
  split; [reflexivity|]. split; [lia|]. split; [intros; apply lin_pos|]. split; [exact lin_axis|].
  split; [reflexivity|]. split; [reflexivity|]. split; [exact lin_sym2|]. split; [exact lin_sym3|]. split; [exact lin_sym4|].
  split; [exact lin_symmetric|]. split; [exact orth_delta3|]. split; [exact lin_free|].
  split; [exact lin_solves|]. split; [exact Eh|]. split; [exact (lin_modes l0 El)|]. split; [exact lin_apart|].
  split; [exact lin_KJ|]. split; [cbn; lra|]. split; [cbn; lra|]. split; [exact lin_rep_spec|exact lin_far].
Qed.
