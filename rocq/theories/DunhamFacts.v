(** Lemmas about diatomic molecules and Dunham's expansion. *)
From Coq Require Import Reals Lra Lia List ZArith Arith Bool.
From Verif Require Import Num Loops Index Modes Anharm VibRot Distort Transform Geom Report.
From Verif Require Import ListFacts ModesFacts ResFacts AnharmFacts EnergyFacts VibRotFacts DistortFacts SexticFacts
  InertiaFacts.
Import ListNotations.
Open Scope R_scope.

(** two masses on the x axis, the centre of mass at the origin *)
Definition on_axis (x : nat -> R) (i : nat) : R * R * R := (x i, 0, 0).
(** the normalised mass-weighted stretch, positive when the bond grows *)
Definition stretch (m x : nat -> R) (lxm : nat -> nat -> R) : Prop :=
  0 < m 0%nat /\ 0 < m 1%nat /\ m 0%nat * x 0%nat + m 1%nat * x 1%nat = 0 /\
  lxm 1%nat 0%nat = 0 /\ lxm 2%nat 0%nat = 0 /\ lxm 4%nat 0%nat = 0 /\ lxm 5%nat 0%nat = 0 /\
  sqrt (m 0%nat) * lxm 0%nat 0%nat + sqrt (m 1%nat) * lxm 3%nat 0%nat = 0 /\
  lxm 0%nat 0%nat ^ 2 + lxm 3%nat 0%nat ^ 2 = 1 /\
  0 < (x 1%nat - x 0%nat) * (lxm 3%nat 0%nat / sqrt (m 1%nat) - lxm 0%nat 0%nat / sqrt (m 0%nat)).
(** the moment of inertia *)
Definition moment (m x : nat -> R) : R := m 0%nat * x 0%nat ^ 2 + m 1%nat * x 1%nat ^ 2.

Lemma moment_inertia m x a :
  inertia 2 m (on_axis x) a a = match a with O => 0 | _ => moment m x end.
Proof.
  unfold inertia, moment, on_axis, kron. rewrite Nat.eqb_refl.
  destruct a as [|[|]]; cbn [Rsum fold_right seq comp fst snd]; ring.
Qed.

Lemma pow2_pos (z : R) : z <> 0 -> 0 < z ^ 2.
Proof. intros H. replace (z ^ 2) with (Rsqr z) by (unfold Rsqr; ring). now apply Rsqr_pos_lt. Qed.

Lemma stretch_length m x lxm : stretch m x lxm ->
  0 < moment m x /\
  sqrt (m 0%nat) * x 0%nat * lxm 0%nat 0%nat + sqrt (m 1%nat) * x 1%nat * lxm 3%nat 0%nat = sqrt (moment m x).
Proof.
  intros (M0 & M1 & C & _ & _ & _ & _ & T & N & P). unfold moment.
  set (a := lxm 0%nat 0%nat) in *. set (b := lxm 3%nat 0%nat) in *.
  set (y := x 0%nat) in *. set (z := x 1%nat) in *.
  assert (S0 : 0 < sqrt (m 0%nat)) by now apply sqrt_lt_R0.
  assert (S1 : 0 < sqrt (m 1%nat)) by now apply sqrt_lt_R0.
  assert (E0 : m 0%nat = sqrt (m 0%nat) * sqrt (m 0%nat)) by (symmetry; apply sqrt_sqrt; lra).
  assert (E1 : m 1%nat = sqrt (m 1%nat) * sqrt (m 1%nat)) by (symmetry; apply sqrt_sqrt; lra).
  set (s := sqrt (m 0%nat)) in *. set (t := sqrt (m 1%nat)) in *.
  rewrite E0, E1 in C |- *. clear E0 E1 M0 M1.
  assert (Z : z = - (s * s * y) / (t * t)) by (apply Rmult_eq_reg_l with (t * t); [field_simplify; nra|nra]).
  assert (B : b = - (s * a) / t) by (apply Rmult_eq_reg_l with t; [field_simplify; nra|nra]).
  assert (Q : 0 < s * s + t * t) by nra.
  assert (D : s * y * a + t * z * b = s * y * a * (s * s + t * t) / (t * t)) by (rewrite Z, B; field; lra).
  assert (PP : (z - y) * (b / t - a / s) = y * a * ((s * s + t * t) * (s * s + t * t)) / (s * (t * t) * (t * t)))
    by (rewrite Z, B; field; lra).
  assert (YA : 0 < y * a).
  { rewrite PP in P.
    assert (0 < (s * s + t * t) * (s * s + t * t)) as P1 by (apply Rmult_lt_0_compat; assumption).
    assert (0 < s * (t * t) * (t * t)) as P2 by (repeat apply Rmult_lt_0_compat; assumption).
    apply Rmult_lt_reg_r with (((s * s + t * t) * (s * s + t * t)) / (s * (t * t) * (t * t))).
    - apply Rdiv_lt_0_compat; assumption.
    - rewrite Rmult_0_l. unfold Rdiv in *. rewrite <- Rmult_assoc. exact P. }
  assert (I : s * s * y ^ 2 + t * t * z ^ 2 = (s * y) ^ 2 * (s * s + t * t) / (t * t)) by (rewrite Z; field; lra).
  assert (N' : a ^ 2 * (s * s + t * t) / (t * t) = 1) by (rewrite <- N, B; field; lra).
  split.
  - rewrite I. apply Rdiv_lt_0_compat; [|nra]. apply Rmult_lt_0_compat; [|assumption].
    assert (y <> 0) as Hy by (intros ->; lra).
    rewrite Rpow_mult_distr. apply Rmult_lt_0_compat; apply pow2_pos; [intros E; lra|assumption].
  - rewrite D. symmetry. apply sqrt_lem_1.
    + rewrite I. apply Rmult_le_pos; [|left; apply Rinv_0_lt_compat; nra].
      apply Rmult_le_pos; [apply pow2_ge_0|lra].
    + replace (s * y * a * (s * s + t * t) / (t * t)) with (s * (y * a) * (s * s + t * t) / (t * t)) by (field; lra).
      apply Rmult_le_pos; [|left; apply Rinv_0_lt_compat; nra]. apply Rmult_le_pos; [apply Rmult_le_pos|]; lra.
    + rewrite I.
      transitivity ((s * y) ^ 2 * (s * s + t * t) / (t * t) * (a ^ 2 * (s * s + t * t) / (t * t))); [field; lra|].
      rewrite N'. ring.
Qed.

Lemma diatomic_wila m x lxm c : stretch m x lxm ->
  wila 2 (on_axis x) m lxm 0 c =
  match c with 2%nat => 2 * sqrt (moment m x) | 0%nat | 1%nat | 3%nat | 4%nat => 0 | _ => 2 * sqrt (moment m x) end.
Proof.
  intros H. destruct (stretch_length _ _ _ H) as [_ L]. rewrite <- L.
  destruct H as (_ & _ & _ & H1 & H2 & H4 & H5 & _).
  destruct c as [|[|[|[|[|]]]]]; unfold wila; cbv zeta;
    rewrite ?nsum_R, ?acc_sub_R; unfold range, cx, cy, cz, on_axis;
    cbn [Rsum fold_right seq Nat.sub Nat.add Nat.mul fst snd nsqrt nmul nadd nsub Rnum];
    rewrite ?nz_R, ?H1, ?H2, ?H4, ?H5; ring.
Qed.

Lemma diatomic_zeta m x lxm k a : stretch m x lxm -> (a < 3)%nat -> k = 0%nat -> zmat 2 lxm k k a = 0.
Proof.
  intros H Ha ->. destruct a as [|[|[|]]]; try lia; unfold zmat; rewrite nsum_R; unfold range, cx, cy, cz;
    cbn [Rsum fold_right seq Nat.sub Nat.add Nat.mul fst snd nsqrt nmul nadd nsub Rnum]; ring.
Qed.

(** what the rest of the program sees of a diatomic molecule: the slopes of the inertia tensor,
    the Coriolis constants, moments and rotational constants; [sg] is the direction of the mode *)
Record two_atoms (J sg : R) (wl : nat -> nat -> R) (zm : nat -> nat -> nat -> R) (I B : nat -> R) : Prop := {
  ta_J : / 100 < J;
  ta_sg : sg = 1 \/ sg = -1;
  ta_wl : forall c, wl 0%nat c = match c with 0%nat | 1%nat | 3%nat | 4%nat => 0 | _ => sg * (2 * sqrt J) end;
  ta_zm : forall a, (a < 3)%nat -> zm 0%nat 0%nat a = 0;
  ta_I0 : I 0%nat = 0; ta_I1 : I 1%nat = J; ta_I2 : I 2%nat = J;
  ta_B1 : B 1%nat = ROTCONST / J; ta_B2 : B 2%nat = ROTCONST / J }.

Lemma ROT_val : ROTCONST = 100 * (6626176 / 1000000 * (6022045 / 1000000)) /
    (8 * (314159265358979323846264338327950288 / 100000000000000000000000000000000000)
     * (314159265358979323846264338327950288 / 100000000000000000000000000000000000) * (299792458 / 100000000)).
Proof. unfold ROTCONST, PH, AVN, PI64, CL. cbn [nmul ndiv nlit Rnum]. rewrite !nz_R. reflexivity. Qed.
Lemma ROT_pos : 0 < ROTCONST.
Proof. rewrite ROT_val. lra. Qed.

Lemma stretch_two m x lxm (I B : nat -> R) : stretch m x lxm -> / 100 < moment m x ->
  (forall a, (a < 3)%nat -> I a = inertia 2 m (on_axis x) a a) -> (forall a, (a < 3)%nat -> B a = rot_const (I a)) ->
  two_atoms (moment m x) 1 (wila 2 (on_axis x) m lxm) (zmat 2 lxm) I B.
Proof.
  intros St HJ HI HB.
  assert (R : forall a, (a < 3)%nat -> I a = moment m x -> B a = ROTCONST / moment m x).
  { intros a Ha E. rewrite HB, E by exact Ha. unfold rot_const, ngtb. cbn [nltb nlit Rnum ndiv].
    replace (Rltb _ _) with true; [reflexivity|]. symmetry. apply Rltb_true. lra. }
  assert (I1' : I 1%nat = moment m x) by (rewrite HI by lia; apply moment_inertia).
  assert (I2' : I 2%nat = moment m x) by (rewrite HI by lia; apply moment_inertia).
  constructor; try assumption.
  - now left.
  - intros c. rewrite diatomic_wila by exact St. destruct c as [|[|[|[|[|]]]]]; ring.
  - intros a Ha. now apply (diatomic_zeta m x).
  - rewrite HI by lia. apply moment_inertia.
  - apply R; [lia|exact I1'].
  - apply R; [lia|exact I2'].
Qed.

Section Diatomic.
  Variables (J sg : R) (wl : nat -> nat -> R) (zm : nat -> nat -> nat -> R) (I B : nat -> R) (w : nat -> R)
    (f3 : nat -> nat -> nat -> R).
  Hypothesis TA : two_atoms J sg wl zm I B.
  Hypothesis W : 0 < w 0%nat.
  Let HJ := ta_J _ _ _ _ _ _ TA.
  Let Hwl := ta_wl _ _ _ _ _ _ TA.
  Let Hzm := ta_zm _ _ _ _ _ _ TA.
  Let I0' := ta_I0 _ _ _ _ _ _ TA.
  Let I1' := ta_I1 _ _ _ _ _ _ TA.
  Let I2' := ta_I2 _ _ _ _ _ _ TA.
  Let B1' := ta_B1 _ _ _ _ _ _ TA.
  Let B2' := ta_B2 _ _ _ _ _ _ TA.

  Lemma J_pos : 0 < J. Proof. pose proof HJ. lra. Qed.
  Lemma sg_sq : sg * sg = 1. Proof. destruct (ta_sg _ _ _ _ _ _ TA) as [-> | ->]; ring. Qed.
  Lemma slopes : sg * (2 * sqrt J) * (sg * (2 * sqrt J)) = 4 * J.
  Proof.
    pose proof J_pos as P. assert (S2 : sqrt J * sqrt J = J) by (apply sqrt_sqrt; lra).
    transitivity (4 * (sg * sg) * (sqrt J * sqrt J)); [ring|]. rewrite sg_sq, S2. ring.
  Qed.

  Lemma diatomic_de : exists q, quartic_new Diatomic 1 B I w wl = Some q /\
    de q = 3833384078 / 100000 / (2 * w 0%nat ^ 2 * J ^ 3) /\
    bxs q = 0 /\ bys q = 0 /\ bzs q = 0.
  Proof.
    unfold quartic_new. cbn [is_linear is_diatomic princ_cart obind IPTOC ICTOP nth_error make_t range seq Nat.sub
      ofold at3 fst snd Nat.ltb Nat.leb andb].
    eexists. split; [reflexivity|]. cbn [quartic_linear de bxs bys bzs]. rewrite nz_R.
    split; [|repeat split].
    cbn [upd2 Nat.eqb andb].
    rewrite taup_R by lia. unfold taup_spec, tau_spec. cbn [Nat.eqb Rsum fold_right seq acol Nat.max Nat.min].
    cbn [nopp ndiv Rnum]. rewrite nz_R, ?I1', ?I2', ?I0'. rewrite !Hwl, slopes.
    pose proof J_pos as P. field. split; lra.
  Qed.

  Lemma diatomic_c : c_mat 2 1 w (fun i => I (2 - i)) wl 0 2 =
    sg * / (p32 J * p32 ((1722212503791076 / 10000000000000000) ^ 2 * w 0%nat)).
  Proof.
    unfold c_mat. cbn [range seq Nat.sub Nat.add fold_left].
    unfold ioff. cbn [Nat.add Nat.mul Nat.div Nat.divmod fst Nat.sub].
    cbn [upd2 Nat.eqb andb Nat.sub]. rewrite ?I1', ?I2', ?I0'. rewrite !Hwl.
    cbn [ndiv nmul npow32 nlit Rnum SQLAM]. rewrite nz_R. pose proof J_pos as P.
    unfold p32. cbn [pow]. rewrite !Rmult_1_r.
    assert (S2 : sqrt J * sqrt J = J) by (apply sqrt_sqrt; lra).
    assert (SJ : 0 < sqrt J) by now apply sqrt_lt_R0.
    set (g := sqrt (1722212503791076 / 10000000000000000 * (1722212503791076 / 10000000000000000) * w 0%nat)).
    assert (G : 0 < g) by (apply sqrt_lt_R0; repeat apply Rmult_lt_0_compat; lra).
    set (j := sqrt J) in *. rewrite <- S2. field. repeat split; lra.
  Qed.

  Lemma cc_zero i c : cc_tensor 1 2 w c zm B i 1 1 1 = 0.
  Proof.
    unfold cc_tensor. cbn [range seq Nat.sub Nat.add fold_left Nat.eqb orb].
    unfold upd4. cbn [Nat.sub Nat.eqb andb]. rewrite nz_R.
    destruct (Nat.eqb_spec i 0) as [->|N]; cbn [andb]; [|reflexivity].
    unfold cc_diag. rewrite nsum_R. unfold range. cbn [Rsum fold_right seq Nat.sub Nat.add].
    rewrite Hzm by lia. cbn [nmul ndiv Rnum].
    unfold Rdiv. ring.
  Qed.

  Lemma diatomic_he : exists s, sextic_new Diatomic 1 6 B I w wl zm f3 = Some s /\
    he s = 3 / 16 * (2 * (3833384078 / 100000) / (w 0%nat ^ 2 * J ^ 3)) ^ 2 / B 1%nat
           + sg * f3 0%nat 0%nat 0%nat / 6 *
             (/ (p32 J * p32 ((1722212503791076 / 10000000000000000) ^ 2 * w 0%nat))) ^ 3.
  Proof.
    unfold sextic_new. cbn [is_linear is_diatomic].
    eexists. split; [reflexivity|]. cbn [sextic_linear he].
    unfold scc. cbn [is_linear range seq Nat.sub fold_left upd3 Nat.eqb andb].
    unfold scc_diag. cbn [is_linear range seq Nat.sub fold_left].
    rewrite !nsum_R. cbn [Rsum fold_right seq].
    change (fun i => I match i with 0%nat => 2%nat | 1%nat => 1%nat | S (S _) => 0%nat end)
      with (fun i => I (2 - i)%nat).
    rewrite cc_zero. change (wdiag1 (1 + 1)) with 2%nat. rewrite diatomic_c.
    rewrite !make_tau_R by lia. unfold tau_spec. cbn [Rsum fold_right seq acol Nat.max Nat.min Nat.sub].
    cbn [acol]. change (acol 0 1) with 1%nat. change (acol 1 1) with 2%nat.
    rewrite !Hwl, !slopes. rewrite ?I1', ?I2', ?I0'.
    unfold srot. cbn [Nat.eqb Nat.sub]. unfold nsq. cbn [nmul ndiv nadd nsub nlit Rnum]. rewrite !nz_R.
    pose proof J_pos as P. set (C := / (p32 J * _)).
    assert (B1 : B 1%nat <> 0) by (rewrite ?B1', ?B2'; apply Rgt_not_eq, Rdiv_lt_0_compat; [apply ROT_pos|exact P]).
    assert (B2 : B 2%nat <> 0) by (rewrite ?B1', ?B2'; apply Rgt_not_eq, Rdiv_lt_0_compat; [apply ROT_pos|exact P]).
    pose proof (ta_sg _ _ _ _ _ _ TA) as Q. clearbody C. clear TA HJ Hwl Hzm I0' I1' I2' B1' B2'.
    generalize dependent (B 1%nat). generalize dependent (B 2%nat). intros b2 B2 b1 B1.
    destruct Q as [-> | ->]; field; repeat split; lra.
  Qed.

  Lemma diatomic_alpha :
    sym_alpha B I w wl zm f3 Diatomic [I1 0] [] 0%nat 1%nat =
    2 * B 1%nat ^ 2 / w 0%nat * (3 + 86112 / 1000000 * (sg * f3 0%nat 0%nat 0%nat * (2 * sqrt J) * w 0%nat / p32 (w 0%nat))).
  Proof.
    unfold sym_alpha, make_alpha.
    cbn [range seq Nat.sub fold_left upd2 Nat.eqb andb n1dm n2dm mode_count fst snd Nat.add m1 i1mode mode_partition
      nth app].
    unfold alpha_b_nondeg, cubic_b. 
    cbn [range seq Nat.sub fold_left upd2 Nat.eqb andb n1dm n2dm mode_count fst snd Nat.add m1 i1mode mode_partition
      nth app].
    rewrite nsum_R. cbn [Rsum fold_right]. rewrite !Hwl.
    rewrite ?I1', ?I2', ?I0'. unfold nsq, ALPHA_CONST. cbn [nmul ndiv nadd npow32 nlit Rnum]. rewrite !nz_R, ?slopes.
    pose proof J_pos as P. unfold p32. assert (SW : 0 < sqrt (w 0%nat)) by now apply sqrt_lt_R0. field. repeat split; lra.
  Qed.
End Diatomic.

(** Dunham's expansion of a potential in xi = (r - re) / re, given the expansion in the
    dimensionless normal coordinate q with xi = sqrt (2 B / w) q *)
Definition dunham (w B phi3 phi4 a1 a2 : R) : Prop :=
  forall q, w / 2 * q ^ 2 + phi3 / 6 * q ^ 3 + phi4 / 24 * q ^ 4 =
    (let xi := sqrt (2 * B / w) * q in w ^ 2 / (4 * B) * xi ^ 2 * (1 + a1 * xi + a2 * xi ^ 2)).

Lemma dunham_coeffs w B phi3 phi4 a1 a2 : 0 < w -> 0 < B -> dunham w B phi3 phi4 a1 a2 ->
  phi3 = 3 * w * sqrt (2 * B / w) * a1 /\ phi4 = 24 * B * a2.
Proof.
  intros W P D. assert (S2 : sqrt (2 * B / w) * sqrt (2 * B / w) = 2 * B / w).
  { apply sqrt_sqrt. apply Rlt_le, Rdiv_lt_0_compat; lra. }
  set (s := sqrt (2 * B / w)) in *.
  assert (E : forall q, w / 2 * q ^ 2 + phi3 / 6 * q ^ 3 + phi4 / 24 * q ^ 4 =
     w / 2 * q ^ 2 + w / 2 * s * a1 * q ^ 3 + B * a2 * q ^ 4).
  { intros q. specialize (D q). cbv zeta in D. fold s in D. rewrite D.
    replace (w ^ 2 / (4 * B) * (s * q) ^ 2 * (1 + a1 * (s * q) + a2 * (s * q) ^ 2))
      with (w ^ 2 / (4 * B) * (s * s) * q ^ 2 * (1 + a1 * s * q + a2 * (s * s) * q ^ 2)) by ring.
    rewrite S2. field. lra. }
  pose proof (E 1) as E1. pose proof (E (-1)) as E2. split; lra.
Qed.

Definition k_de : R := 3833384078 / 100000 / (8 * ROTCONST ^ 3).
Definition k_u : R := 2 * ROTCONST * (1722212503791076 / 10000000000000000) ^ 2.
Definition k_he : R := / (k_u ^ 4 * sqrt k_u).
Definition k_al : R := 2 * (86112 / 1000000) * sqrt (2 * ROTCONST).

Lemma div_bounds a b lo hi : 0 < b -> lo * b < a < hi * b -> lo < a / b < hi.
Proof.
  intros P [L U]. split; apply Rmult_lt_reg_r with b; try exact P;
    unfold Rdiv; rewrite Rmult_assoc, Rinv_l, Rmult_1_r; lra.
Qed.
Lemma k_de_bounds : 1000236 / 1000000 < k_de < 1000237 / 1000000.
Proof.
  unfold k_de. pose proof ROT_pos as P. apply div_bounds.
  - apply Rmult_lt_0_compat; [lra|now apply pow_lt].
  - rewrite ROT_val. lra.
Qed.
Lemma k_u_bounds : 1 < k_u < 1 + / 10000000000000000.
Proof. unfold k_u. rewrite ROT_val. lra. Qed.
Lemma k_he_bounds : 1 - / 1000000000000000 < k_he < 1.
Proof.
  unfold k_he. pose proof k_u_bounds as [L U]. set (u := k_u) in *.
  assert (S1 : 1 < sqrt u) by (rewrite <- sqrt_1; apply sqrt_lt_1; lra).
  assert (S2 : sqrt u < u).
  { assert (sqrt u * sqrt u = u) as E by (apply sqrt_sqrt; lra). nra. }
  assert (P4 : 1 < u ^ 4) by (apply Rlt_pow_R1; [lra|lia]).
  assert (P5 : u ^ 4 * sqrt u < 1 + / 1000000000000000).
  { apply Rlt_trans with (u ^ 5).
    - replace (u ^ 5) with (u ^ 4 * u) by ring. apply Rmult_lt_compat_l; lra.
    - apply Rlt_trans with ((1 + / 10000000000000000) ^ 5); [|lra].
      cbn [pow]. rewrite !Rmult_1_r. repeat apply Rmult_gt_0_lt_compat; try lra; nra. }
  assert (P6 : 1 < u ^ 4 * sqrt u) by nra.
  set (z := u ^ 4 * sqrt u) in *. replace (/ z) with (1 / z) by (unfold Rdiv; ring).
  apply div_bounds; [lra|]. split; lra.
Qed.
Lemma k_al_bounds : 10000159 / 10000000 < k_al < 1000016 / 1000000.
Proof.
  unfold k_al.
  assert (A : 10000159 / 10000000 / (2 * (86112 / 1000000)) < sqrt (2 * ROTCONST)).
  { apply Rsqr_incrst_0; [|lra|apply sqrt_pos]. rewrite Rsqr_sqrt by (pose proof ROT_pos; lra).
    unfold Rsqr. rewrite ROT_val. lra. }
  assert (B : sqrt (2 * ROTCONST) < 1000016 / 1000000 / (2 * (86112 / 1000000))).
  { apply Rsqr_incrst_0; [|apply sqrt_pos|lra]. rewrite Rsqr_sqrt by (pose proof ROT_pos; lra).
    unfold Rsqr. rewrite ROT_val. lra. }
  lra.
Qed.

Section Pipeline.
  Variables (J sg : R) (wl : nat -> nat -> R) (zm : nat -> nat -> nat -> R) (I B : nat -> R) (w : nat -> R)
    (f3 : nat -> nat -> nat -> R) (f4 : nat -> nat -> nat -> nat -> R) (a1 a2 : R).
  Hypothesis TA : two_atoms J sg wl zm I B.
  Hypothesis W : 0 < w 0%nat.
  Let b := B 1%nat.
  Let f := w 0%nat.
  Hypothesis D : dunham f b (sg * f3 0%nat 0%nat 0%nat) (f4 0%nat 0%nat 0%nat 0%nat) a1 a2.

  Lemma PJ : 0 < J.
  Proof. pose proof (ta_J _ _ _ _ _ _ TA). lra. Qed.
  Lemma b_val : b = ROTCONST / J.
  Proof. exact (ta_B1 _ _ _ _ _ _ TA). Qed.
  Lemma b_pos : 0 < b.
  Proof. rewrite b_val. apply Rdiv_lt_0_compat; [apply ROT_pos|apply PJ]. Qed.

  Lemma roots : exists g j v, 0 < g /\ 0 < j /\ 0 < v /\ 2 * ROTCONST = g * g /\ J = j * j /\ f = v * v /\
    sqrt (2 * ROTCONST) = g /\ sqrt J = j /\ sqrt f = v /\ sqrt (2 * b / f) = g / (j * v) /\
    b = g * g / (2 * (j * j)).
  Proof.
    pose proof ROT_pos as P. pose proof PJ.
    exists (sqrt (2 * ROTCONST)), (sqrt J), (sqrt f).
    assert (0 < sqrt (2 * ROTCONST)) by (apply sqrt_lt_R0; lra).
    assert (0 < sqrt J) by (apply sqrt_lt_R0; lra). assert (0 < sqrt f) by (apply sqrt_lt_R0; exact W).
    assert (2 * ROTCONST = sqrt (2 * ROTCONST) * sqrt (2 * ROTCONST)) as E1 by (symmetry; apply sqrt_sqrt; lra).
    assert (J = sqrt J * sqrt J) as E2 by (symmetry; apply sqrt_sqrt; lra).
    assert (f = sqrt f * sqrt f) as E3 by (symmetry; apply sqrt_sqrt; unfold f; lra).
    repeat (split; [solve [assumption|reflexivity]|]). split.
    - rewrite b_val. replace (2 * (ROTCONST / J) / f) with (2 * ROTCONST / (J * f)) by (field; unfold f; split; lra).
      rewrite sqrt_div_alt by (apply Rmult_lt_0_compat; assumption).
      rewrite (sqrt_mult_alt J) by lra. reflexivity.
    - rewrite b_val. rewrite <- E1, <- E2. field. lra.
  Qed.

  Lemma de_dunham : exists q, quartic_new Diatomic 1 B I w wl = Some q /\
    de q = 4 * b ^ 3 / f ^ 2 * k_de /\ bxs q = 0 /\ bys q = 0 /\ bzs q = 0.
  Proof.
    destruct (diatomic_de J sg wl zm I B w TA W) as (q & E & V & S). exists q. split; [exact E|].
    split; [|exact S]. rewrite V. fold f. unfold k_de. rewrite b_val.
    pose proof ROT_pos. pose proof PJ. assert (0 < f) by exact W. field. repeat split; lra.
  Qed.

  Lemma he_dunham : exists s, sextic_new Diatomic 1 6 B I w wl zm f3 = Some s /\
    he s = 16 * b ^ 5 / f ^ 4 * (3 * k_de ^ 2 + a1 * k_he).
  Proof.
    destruct (diatomic_he J sg wl zm I B w f3 TA W) as (s & E & V). exists s. split; [exact E|]. rewrite V. clear V E s.
    destruct (dunham_coeffs _ _ _ _ _ _ W b_pos D) as [E3 _]. rewrite E3.
    fold f. fold b.
    destruct roots as (g & j & v & Pg & Pj & Pv & Eg & Ej & Ev & Sg & Sj & Sv & Sb & Eb).
    rewrite Sb. unfold p32. rewrite Sj.
    set (S := 1722212503791076 / 10000000000000000). assert (PS : 0 < S) by (unfold S; lra).
    assert (SS : sqrt (S ^ 2 * f) = S * v).
    { rewrite sqrt_mult_alt by (apply pow2_ge_0). rewrite sqrt_pow2 by lra. now rewrite Sv. }
    rewrite SS. unfold k_de, k_he, k_u. fold S.
    assert (SU : sqrt (2 * ROTCONST * S ^ 2) = S * g).
    { rewrite sqrt_mult_alt by (pose proof ROT_pos; lra). rewrite sqrt_pow2 by lra. rewrite Sg. ring. }
    rewrite SU. replace ROTCONST with (g * g / 2) by lra. rewrite Eb, Ej, Ev.
    generalize (3833384078 / 100000). intros C1. clearbody S. field. repeat split; lra.
  Qed.

  Lemma al_dunham : sym_alpha B I w wl zm f3 Diatomic [I1 0] [] 0%nat 1%nat = 6 * b ^ 2 / f * (1 + a1 * k_al).
  Proof.
    rewrite (diatomic_alpha J sg wl zm I B w f3 TA W).
    destruct (dunham_coeffs _ _ _ _ _ _ W b_pos D) as [E3 _]. rewrite E3.
    fold f. fold b.
    destruct roots as (g & j & v & Pg & Pj & Pv & Eg & Ej & Ev & Sg & Sj & Sv & Sb & Eb).
    rewrite Sb. unfold p32, k_al. rewrite Sj, Sv, Sg, Eb, Ev. generalize (86112 / 1000000). intros A.
    field. repeat split; lra.
  Qed.

  Let xc := xcalc 1 f4 w f3 zm B [] [].
  Let e0 := make_e0 f4 w f3 (make_fermi_checks [] []) [I1 0].
  Let Y20 := 3 / 2 * b * (a2 - 5 / 4 * a1 ^ 2).
  Let Y00 := b / 8 * (3 * a2 - 7 / 4 * a1 ^ 2).

  Lemma coeffs : f3 0%nat 0%nat 0%nat * f3 0%nat 0%nat 0%nat = 18 * f * b * a1 ^ 2 /\
    f4 0%nat 0%nat 0%nat 0%nat = 24 * b * a2.
  Proof.
    destruct (dunham_coeffs _ _ _ _ _ _ W b_pos D) as [E3 E4]. split; [|exact E4]. fold f.
    assert (S2 : sqrt (2 * b / f) * sqrt (2 * b / f) = 2 * b / f).
    { apply sqrt_sqrt, Rlt_le, Rdiv_lt_0_compat; [pose proof b_pos; lra|exact W]. }
    transitivity ((sg * f3 0%nat 0%nat 0%nat) * (sg * f3 0%nat 0%nat 0%nat)).
    { destruct (ta_sg _ _ _ _ _ _ TA) as [-> | ->]; ring. }
    rewrite E3. fold f.
    replace (3 * f * sqrt (2 * b / f) * a1 * (3 * f * sqrt (2 * b / f) * a1))
      with (9 * f * f * a1 ^ 2 * (sqrt (2 * b / f) * sqrt (2 * b / f))) by ring.
    rewrite S2. field. pose proof W. unfold f. lra.
  Qed.

  Lemma x_dunham : xc 0%nat 0%nat = Y20.
  Proof.
    unfold xc, xcalc. cbn [range seq Nat.sub fold_left upd2 Nat.eqb andb].
    unfold xcalc_diag. rewrite acc_sub_R. unfold range. cbn [Rsum fold_right seq Nat.sub Nat.eqb flagged make_fermi_checks fold_left
      ifrmchk negb]. unfold nsq. cbn [nmul ndiv nadd nsub Rnum]. rewrite !nz_R.
    destruct coeffs as [E3 E4]. rewrite E3, E4. fold f. unfold Y20. assert (0 < f) by exact W.
    field. repeat split; try lra.
    replace (4 * (f * f) - f * f) with (3 * (f * f)) by ring. nra.
  Qed.
  Lemma e0_dunham : e0 = Y00.
  Proof.
    unfold e0, make_e0. rewrite !nsum_R. cbn [i1mode mode_partition fold_left fst snd app Rsum fold_right].
    cbn [filter Nat.eqb negb Nat.ltb Nat.leb acc_add acc_sub fold_left].
    unfold nsq. cbn [nmul ndiv nadd nsub nopp Rnum]. rewrite !nz_R.
    destruct coeffs as [E3 E4]. rewrite E3, E4. fold f. unfold Y00. assert (0 < f) by exact W. field. lra.
  Qed.
  Lemma funds_dunham : make_funds 1 w xc = [f + 2 * Y20].
  Proof.
    unfold make_funds. cbn [range seq Nat.sub map fold_left Nat.eqb]. rewrite x_dunham.
    cbn [nmul nadd Rnum]. rewrite nz_R. reflexivity.
  Qed.

  Definition dlevel (v : R) : R := f * (v + / 2) + Y20 * (v + / 2) ^ 2 + Y00.
  Lemma levels_dunham t : restst_tables 1 1 [I1 0] = Some t ->
    t_states t = [I1st [0]; I1st [1]; I1st [2]]%nat /\
    part1 w [I1 0] xc None e0 (t_states t) = Some [dlevel 0; dlevel 1; dlevel 2] /\
    forall eig2 eng, enrgy eig2 f3 (make_fermi_checks [] []) [I1 0] t eng = Some eng.
  Proof.
    intros E. vm_compute in E. injection E as <-. split; [reflexivity|]. split; [|reflexivity].
    cbn [t_states]. unfold part1. cbn [ofold obind state_i1 state_i2].
    unfold level. cbn [n1dm n2dm mode_count fold_left fst snd range seq Nat.sub Nat.add ofold obind m1 i1mode
      mode_partition nth app acc_add]. rewrite x_dunham, e0_dunham.
    rewrite !half_R. cbn [nmul nadd Rnum]. rewrite !nz_R. fold f. cbn [INR].
    unfold dlevel. do 2 f_equal; [|f_equal; [|f_equal]]; ring.
  Qed.

  Lemma rows_dunham t : restst_tables 1 1 [I1 0] = Some t ->
    exists rows out, alphas B I w wl zm f3 Diatomic [I1 0] (t_states t) [] = Some rows /\
      rots B Diatomic rows (t_states t) 0 0 0 = Some out /\
      let al := 6 * b ^ 2 / f * (1 + a1 * k_al) in
      linear_rows out B = [(I1st [0%nat], b + al / 2); (I1st [1%nat], b + al * (3 / 2))].
  Proof.
    intros E. vm_compute in E. injection E as <-. cbn [t_states].
    unfold alphas. cbn [ofold obind is_linear].
    unfold alphas_sum. cbn [n1dm n2dm mode_count fold_left fst snd range seq Nat.sub Nat.add ofold obind m1 i1mode
      mode_partition nth app nth_error state_i1 state_i2].
    rewrite al_dunham. do 2 eexists. split; [reflexivity|]. split.
    - unfold rots. cbn [is_prolate is_diatomic princ_cart obind IPTOC ICTOP nth_error range seq Nat.sub length app
        ofold rots_keep fold_left Nat.add Nat.ltb Nat.leb negb row3 fst snd is_linear]. reflexivity.
    - cbv zeta. unfold linear_rows. cbn [map rot_state rot_b vibr upd1 at3 fst snd Nat.eqb].
      rewrite !nlit_half. unfold nnat. cbn [nmul nadd nsub Rnum Z.of_nat Pos.of_succ_nat]. rewrite !nz_R. fold b.
      f_equal; [|f_equal]; f_equal; cbn; lra.
  Qed.
End Pipeline.

Lemma diatomic_dunham_lemma :
  exists k1 k2 k3,
  1000236 / 1000000 < k1 < 1000237 / 1000000 /\ 1 - / 1000000000000000 < k2 < 1 /\
  10000159 / 10000000 < k3 < 1000016 / 1000000 /\
  forall m x lxm (w : nat -> R) f3 f4 a1 a2,
  stretch m x lxm -> 0 < w 0%nat -> / 100 < moment m x ->
  let I a := inertia 2 m (on_axis x) a a in
  let B a := rot_const (I a) in
  let b := B 1%nat in
  let f := w 0%nat in
  dunham f b (f3 0%nat 0%nat 0%nat) (f4 0%nat 0%nat 0%nat 0%nat) a1 a2 ->
  let wl := wila 2 (on_axis x) m lxm in
  let zm := zmat 2 lxm in
  let modes := [I1 0] in
  let xc := xcalc 1 f4 w f3 zm B [] [] in
  let e0 := make_e0 f4 w f3 (make_fermi_checks [] []) modes in
  let Y20 := 3 / 2 * b * (a2 - 5 / 4 * a1 ^ 2) in
  let Y00 := b / 8 * (3 * a2 - 7 / 4 * a1 ^ 2) in
  let E v := f * (v + / 2) + Y20 * (v + / 2) ^ 2 + Y00 in
  let al := 6 * b ^ 2 / f * (1 + a1 * k3) in
  b = ROTCONST / moment m x /\
  deg_modes Diatomic 1 w = Some modes /\
  coriolis Diatomic modes w zm = Some [] /\ fermi1 Diatomic modes w f3 = Some [] /\
  fermi2 Diatomic modes w f3 = Some [] /\
  exists q s t rows out,
    quartic_new Diatomic 1 B I w wl = Some q /\ de q = 4 * b ^ 3 / f ^ 2 * k1 /\
    sextic_new Diatomic 1 6 B I w wl zm f3 = Some s /\
    he s = 16 * b ^ 5 / f ^ 4 * (3 * k1 ^ 2 + a1 * k2) /\
    restst_tables 1 1 modes = Some t /\ t_states t = [I1st [0%nat]; I1st [1%nat]; I1st [2%nat]] /\
    make_funds 1 w xc = [f + 2 * Y20] /\
    part1 w modes xc None e0 (t_states t) = Some [E 0; E 1; E 2] /\
    (forall eig2, enrgy eig2 f3 (make_fermi_checks [] []) modes t [E 0; E 1; E 2] = Some [E 0; E 1; E 2]) /\
    alphas B I w wl zm f3 Diatomic modes (t_states t) [] = Some rows /\
    rots B Diatomic rows (t_states t) (bxs q) (bys q) (bzs q) = Some out /\
    linear_rows out B = [(I1st [0%nat], b + al / 2); (I1st [1%nat], b + al * (3 / 2))].
Proof.
  exists k_de, k_he, k_al. split; [exact k_de_bounds|]. split; [exact k_he_bounds|]. split; [exact k_al_bounds|].
  intros m x lxm w f3 f4 a1 a2 St W HJ I B b f D wl zm modes xc e0 Y20 Y00 E al.
  assert (TA : two_atoms (moment m x) 1 wl zm I B) by (apply stretch_two; (assumption || reflexivity)).
  assert (D' : dunham f b (1 * f3 0%nat 0%nat 0%nat) (f4 0%nat 0%nat 0%nat 0%nat) a1 a2) by (rewrite Rmult_1_l; exact D).
  split; [exact (b_val _ _ _ _ _ _ TA)|]. do 4 (split; [reflexivity|]).
  destruct (de_dunham _ _ _ _ _ _ w TA W) as (q & Q1 & Q2 & X & Y & Z).
  destruct (he_dunham _ _ _ _ _ _ w f3 f4 a1 a2 TA W D') as (s & S1 & S2).
  assert (T : exists t, restst_tables 1 1 [I1 0] = Some t) by (eexists; vm_compute; reflexivity).
  destruct T as [t T].
  destruct (levels_dunham _ _ _ _ _ _ w f3 f4 a1 a2 TA W D' t T) as (L1 & L2 & L3).
  destruct (rows_dunham _ _ _ _ _ _ w f3 f4 a1 a2 TA W D' t T) as (rows & out & R1 & R2 & R3).
  exists q, s, t, rows, out.
  split; [exact Q1|]. split; [exact Q2|]. split; [exact S1|]. split; [exact S2|]. split; [exact T|].
  split; [exact L1|]. split; [exact (funds_dunham _ _ _ _ _ _ w f3 f4 a1 a2 TA W D')|]. split; [exact L2|].
  split; [intros eig2; exact (L3 eig2 _)|]. split; [exact R1|]. rewrite X, Y, Z. split; [exact R2|exact R3].
Qed.
