(** Molecules with a threefold axis: the quartic constants of a run. *)
From Coq Require Import Reals Lra List ZArith Arith Lia Bool Permutation Sorted FunctionalExtensionality.
From Verif Require Import Num Loops ListFacts Index LoadFacts Modes ModesFacts ResFacts
  StatesFacts IndexFacts Anharm AnharmFacts EnergyFacts VibRot Distort Transform TransformFacts
  RotFacts NormalFacts HarmFacts ModeFacts ZeroFacts DistortFacts SexticFacts FormFacts TensorFacts ReductionFacts SymTopFacts EckartFacts InertiaFacts SymAnharm
  Polyads Report OutputFacts VibRotFacts SymRotFacts Geom IrrepFacts Finish FinishFacts
  PerturbFacts PerturbLevels SymE0 SymExact VibPerturb SymVib SymPerturb SymLevels SymFacts RunFacts RunSecond RunRot TopRun AlignExact
  SumRule RotorMech SexticFiles MechFiles Threefold ThreeForm ThreeModes ThreeRun ThreeRot ThreeConst.
Import ListNotations.
Open Scope nat_scope.
Local Open Scope R_scope.

(** the quartic form is a sum of squares *)
Lemma quartic_squares n w I wl x y z :
  quartic_form (tau_spec n w I wl) x y z =
  / 4 * (- / 2 * (3833384078 / 100000)) * Sum n (fun v => / w v ^ 2 *
    (wl v 0%nat * (x / I 0%nat) ^ 2 + wl v 2%nat * (y / I 1%nat) ^ 2 + wl v 5%nat * (z / I 2%nat) ^ 2
     + 2 * (wl v 1%nat * (x / I 0%nat) * (y / I 1%nat) + wl v 3%nat * (x / I 0%nat) * (z / I 2%nat)
            + wl v 4%nat * (y / I 1%nat) * (z / I 2%nat))) ^ 2).
Proof.
  unfold quartic_form. rewrite Rmult_assoc. f_equal. unfold FormFacts.sum3.
  set (X := xyz x y z). set (c := - / 2 * (3833384078 / 100000)).
  set (W := fun v i j => wl v (acol i j)).
  assert (Wv : forall v, W v 0%nat 0%nat = wl v 0%nat /\ W v 0%nat 1%nat = wl v 1%nat /\ W v 0%nat 2%nat = wl v 3%nat /\
     W v 1%nat 0%nat = wl v 1%nat /\ W v 1%nat 1%nat = wl v 2%nat /\ W v 1%nat 2%nat = wl v 4%nat /\
     W v 2%nat 0%nat = wl v 3%nat /\ W v 2%nat 1%nat = wl v 4%nat /\ W v 2%nat 2%nat = wl v 5%nat) by (intros; repeat split).
  transitivity (Sum 3 (fun i => Sum 3 (fun j => Sum 3 (fun k => Sum 3 (fun l =>
    Sum n (fun v => c * (/ w v ^ 2 * (W v i j * (X i / I i) * (X j / I j)) * (W v k l * (X k / I k) * (X l / I l))))))))).
  - do 4 (apply sum_g; intros ? ?). unfold tau_spec. fold c. rewrite Rmult_assoc, <- Rsum_scal_r, <- Rsum_scal. apply sum_g. intros v _.
    unfold W, Rdiv. rewrite !Rinv_mult. ring.
  - assert (SW : forall m f, Sum 3 (fun i => Sum m (f i)) = Sum m (fun v => Sum 3 (fun i => f i v))) by (intros; apply Rsum_swap).
    rewrite (sum_g 3 _ (fun i => Sum n (fun v => Sum 3 (fun j => Sum 3 (fun k => Sum 3 (fun l => c * (/ w v ^ 2 * (W v i j * (X i / I i) * (X j / I j)) * (W v k l * (X k / I k) * (X l / I l))))))))).
    2:{ intros i _. rewrite <- (SW n). apply sum_g. intros j _. rewrite <- (SW n). apply sum_g. intros k _. rewrite <- (SW n). reflexivity. }
    rewrite (SW n), <- Rsum_scal. apply sum_g. intros v _.
    destruct (Wv v) as (E0 & E1 & E2 & E3 & E4 & E5 & E6 & E7 & E8).
    rewrite !sum_3, E0, E1, E2, E3, E4, E5, E6, E7, E8. unfold X. cbn [xyz].
    set (x' := x / I 0%nat). set (y' := y / I 1%nat). set (z' := z / I 2%nat). ring.
Qed.

(** the form of a molecule with a threefold axis *)
Lemma quartic_threefold n ns ts w I wl :
  Permutation (ns ++ flat_map (fun '(a, b) => [a; b]) ts) (seq 0 n) -> I 0%nat = I 1%nat ->
  (forall i j, In (i, j) ts -> w i = w j) ->
  (forall k, In k ns -> wl k 3%nat = 0 /\ wl k 4%nat = 0 /\ wl k 1%nat = 0 /\ wl k 2%nat = wl k 0%nat) ->
  (forall a b, In (a, b) ts ->
    (wl a 5%nat = 0 /\ wl b 5%nat = 0 /\ wl a 2%nat = - wl a 0%nat /\ wl b 2%nat = - wl b 0%nat) /\
    (wl a 1%nat = 0 /\ wl a 4%nat = 0) /\ (wl b 0%nat = 0 /\ wl b 3%nat = 0) /\
    (wl b 1%nat ^ 2 = wl a 0%nat ^ 2 /\ wl b 4%nat ^ 2 = wl a 3%nat ^ 2)) ->
  (forall a b, In (a, b) ts -> wl b 1%nat * wl b 4%nat = - (wl a 0%nat * wl a 3%nat)) ->
  exists p q r s, forall x y z,
    quartic_form (tau_spec n w I wl) x y z =
    p * (x ^ 2 + y ^ 2) ^ 2 + q * (x ^ 2 + y ^ 2) * z ^ 2 + r * z ^ 4 + s * (z * (x ^ 3 - 3 * x * y ^ 2)).
Proof.
  intros Hp I01 Hw Hn Hd Hc.
  set (c := / 4 * (- / 2 * (3833384078 / 100000))).
  set (a := / I 1%nat). set (b := / I 2%nat).
  exists (c * a ^ 4 * (Rsum ns (fun v => / w v ^ 2 * wl v 0%nat ^ 2) + Rsum ts (fun t => / w (fst t) ^ 2 * wl (fst t) 0%nat ^ 2))),
    (c * a ^ 2 * b ^ 2 * (Rsum ns (fun v => / w v ^ 2 * (2 * wl v 0%nat * wl v 5%nat)) + Rsum ts (fun t => / w (fst t) ^ 2 * (4 * wl (fst t) 3%nat ^ 2)))),
    (c * b ^ 4 * Rsum ns (fun v => / w v ^ 2 * wl v 5%nat ^ 2)),
    (c * a ^ 3 * b * Rsum ts (fun t => / w (fst t) ^ 2 * (4 * wl (fst t) 0%nat * wl (fst t) 3%nat))).
  intros x y z. rewrite quartic_squares. fold c. rewrite I01. unfold Rdiv. fold a b.
  rewrite (S_split n ns ts Hp), Rplus_assoc, <- Rsum_plus.
  transitivity (c * (Rsum ns (fun v => / w v ^ 2 * (wl v 0%nat ^ 2 * (a ^ 4 * (x ^ 2 + y ^ 2) ^ 2)
      + 2 * wl v 0%nat * wl v 5%nat * (a ^ 2 * b ^ 2 * (x ^ 2 + y ^ 2) * z ^ 2) + wl v 5%nat ^ 2 * (b ^ 4 * z ^ 4)))
    + Rsum ts (fun t => / w (fst t) ^ 2 * (wl (fst t) 0%nat ^ 2 * (a ^ 4 * (x ^ 2 + y ^ 2) ^ 2)
      + 4 * wl (fst t) 3%nat ^ 2 * (a ^ 2 * b ^ 2 * (x ^ 2 + y ^ 2) * z ^ 2)
      + 4 * wl (fst t) 0%nat * wl (fst t) 3%nat * (a ^ 3 * b * (z * (x ^ 3 - 3 * x * y ^ 2))))))).
  - f_equal. f_equal; apply Rsum_ext.
    + intros k Hk. destruct (Hn k Hk) as (-> & -> & -> & ->). f_equal. ring.
    + intros [i j] Hij. cbn [fst snd]. destruct (Hd i j Hij) as ((E5 & F5 & E2 & F2) & (E1 & E4) & (F0 & F3) & G1 & G4).
      pose proof (Hc i j Hij) as G. rewrite <- (Hw i j Hij), E5, F5, E2, F2, E1, E4, F0, F3.
      rewrite <- Rmult_plus_distr_l. f_equal.
      match goal with |- ?l = ?r => assert (D : l - r = (wl j 1%nat ^ 2 - wl i 0%nat ^ 2) * (4 * (x * a) ^ 2 * (y * a) ^ 2)
         + (wl j 4%nat ^ 2 - wl i 3%nat ^ 2) * (4 * (y * a) ^ 2 * (z * b) ^ 2)
         + (wl j 1%nat * wl j 4%nat + wl i 0%nat * wl i 3%nat) * (8 * (x * a) * (y * a) ^ 2 * (z * b))) by ring end.
      rewrite G1, G4, G in D. apply Rminus_diag_uniq. rewrite D. ring.
  - rewrite (Rsum_ext _ (fun v => (a ^ 4 * (x ^ 2 + y ^ 2) ^ 2) * (/ w v ^ 2 * wl v 0%nat ^ 2)
      + ((a ^ 2 * b ^ 2 * (x ^ 2 + y ^ 2) * z ^ 2) * (/ w v ^ 2 * (2 * wl v 0%nat * wl v 5%nat)) + (b ^ 4 * z ^ 4) * (/ w v ^ 2 * wl v 5%nat ^ 2))) ns) by (intros; ring).
    rewrite (Rsum_ext _ (fun t => (a ^ 4 * (x ^ 2 + y ^ 2) ^ 2) * (/ w (fst t) ^ 2 * wl (fst t) 0%nat ^ 2)
      + ((a ^ 2 * b ^ 2 * (x ^ 2 + y ^ 2) * z ^ 2) * (/ w (fst t) ^ 2 * (4 * wl (fst t) 3%nat ^ 2))
         + (a ^ 3 * b * (z * (x ^ 3 - 3 * x * y ^ 2))) * (/ w (fst t) ^ 2 * (4 * wl (fst t) 0%nat * wl (fst t) 3%nat)))) ts) by (intros; ring).
    rewrite !Rsum_plus, !Rsum_scal. ring.
Qed.

Section RunDistort.
  Context {I : Type}.
  Variables (eig2 : R -> R -> R -> R * R * (R * R))
    (eig : (nat -> nat -> R) -> list R * (nat -> nat -> R))
    (label : (nat -> R * R * R) -> (nat -> nat -> R) -> nat -> R -> option I) (A : I).

  Lemma run_three_distort m axes iatom s sg mu fc2 f3x f4x freq l0 K lam :
    let N := m_natom m in
    let n := m_nvib m in
    let B := m_rotcon m in
    let J := m_primat m in
    let w := fun i => nth i freq 0 in
    let turn := op sg (third s) in
    let mirror := op mu flip in
    let g2 := con2 (3 * N) (every_atom axes) fc2 in
    let g3 := con3 (3 * N) (every_atom axes) f3x in
    let g4 := con4 (3 * N) (every_atom axes) f4x in
    m_rotor m = OblateSymmTop /\ B 2%nat < B 0%nat \/ m_rotor m = ProlateSymmTop /\ B 0%nat < B 2%nat ->
    (3 * N = n + 6)%nat -> (0 < n)%nat ->
    (forall q, (q < N)%nat -> 0 < m_w m q) ->
    c3v N (m_w m) s sg mu -> placed N s sg mu (m_geom m) -> B 0%nat = B 1%nat ->
    (iatom < N)%nat -> mu iatom = iatom ->
    sym2 (3 * N) fc2 -> tsym3 (3 * N) f3x -> tsym4 (3 * N) f4x ->
    same2 (3 * N) turn g2 -> same2 (3 * N) mirror g2 ->
    same3 (3 * N) turn g3 -> same3 (3 * N) mirror g3 ->
    same4 (3 * N) turn g4 -> same4 (3 * N) mirror g4 ->
    orth 3 axes -> translation_free N fc2 -> rotation_free N fc2 (input_position axes (m_geom m)) ->
    solves (3 * N) eig (secular N axes fc2 (m_w m)) ->
    harmonic N axes fc2 (m_w m) eig = Some (freq, l0) ->
    threefold_modes N n iatom s sg mu w l0 ->
    (forall i j k, (i < n)%nat -> (j < n)%nat -> (k < n)%nat -> w i + w j <> w k) ->
    (forall x, (x < 3)%nat -> Sum N (fun q => m_w m q * comp (m_geom m q) x) = 0) ->
    (forall x y, (x < 3)%nat -> (y < 3)%nat -> inertia N (m_w m) (m_geom m) x y = kron x y * J x) ->
    0 < lam -> 2 * K * lam ^ 2 = 1 -> (forall y, (y < 3)%nat -> 0 < J y) -> (forall y, (y < 3)%nat -> B y = K / J y) ->
    exists fuel0 lx,
      let hess := fun a b => FACT2 * g2 a b in
      let F3 := cubic_spec (3 * N) g3 lx w in
      (forall i j, (i < 3 * N)%nat -> (j < 3 * N)%nat ->
         Sum (3 * N) (fun a => m_w m (a / 3)%nat * lx a i * lx a j) = (if Nat.eqb i j then 1 else 0)) /\
      (forall i j, (i < 3 * N)%nat -> (j < 3 * N)%nat -> i <> j -> con2 (3 * N) lx hess i j = 0) /\
      (forall i, (i < 3 * N)%nat -> nth_error freq i = Some (to_wavenumber (con2 (3 * N) lx hess i i))) /\
      StronglySorted Rge freq /\
      forall a, inertia_slope N n (m_w m) (m_geom m) lx a ->
      let tau0 := tau_cl n K w J a in
      rotor_energy N n (m_w m) (m_geom m) J lx w F3 K lam tau0 (shift_cl lam w J a) /\
      forall fuel, (fuel0 <= fuel)%nat ->
      exists o, run eig2 eig label A fuel (Some (sg iatom)) false m axes iatom 3 (Quartic fc2 f3x f4x) = Some (FullResult o) /\
      let q := out_quartic o in
      let kappa := 3833384078 / 100000 / (2 * K) ^ 3 in
      (exists t, forall x y z,
        kappa * quartic_form tau0 x y z = top4 (djw q) (djkw q) (dkw q) x y z + t * (z * (x ^ 3 - 3 * x * y ^ 2))) /\
      (m_rotor m = OblateSymmTop ->
        djn q = djw q /\ djkn q = djkw q /\ dkn q = dkw q /\ sdjn q = 0 /\ r5 q = 0 /\ r6 q = 0).
  Proof.
    intros N n B J w turn mirror g2 g3 g4 Hr6 Hn6 Hn0 Hw C G HB Hi Mi S2 S3 S4 T2 M2 T3 M3 T4 M4 Ho Ht Hf Sv Eh TM Dw Hce Hin Hl HK HJ BJ.
    assert (HN : (0 < N)%nat) by lia. assert (Hn : (0 < n <= 3 * N)%nat) by lia.
    assert (Hr : m_rotor m = OblateSymmTop \/ m_rotor m = ProlateSymmTop) by tauto.
    destruct (run_three_core eig2 eig label A m axes iatom s sg mu fc2 f3x f4x freq l0 Hr HN Hn Hw C G HB Hi Mi S2 S3 S4 T2 M2 T3 M3 T4 M4 Sv Eh TM Dw)
      as (f0 & lx & V & h & Q1 & Q2 & Q3 & Q4 & Lf & Ef & SA & ES & ESV & ML & Z & Q).
    assert (Pw : forall i, (i < n)%nat -> 0 < w i) by (intros i Hi'; pose proof (tm_w _ _ _ _ _ _ _ _ TM i Hi'); lra).
    assert (Eck : forall k, (k < n)%nat -> eckart N (m_geom m) (m_w m) V k).
    { intros k Hk. destruct (nth_error h k) as [x|] eqn:Ex.
      2:{ apply nth_error_None in Ex. rewrite <- Ef, map_length in Lf. lia. }
      apply (eigen_eckart N axes fc2 (m_w m) (m_geom m) h V S2 Hw Ho Hf ESV k x Ex).
      intros ->. pose proof (Pw k Hk) as P. unfold w in P. rewrite <- Ef in P.
      rewrite (nth_error_nth _ _ 0 (map_nth_error to_wavenumber _ _ Ex)) in P.
      assert (to_wavenumber 0 = 0) by now apply wavenumber_0. lra. }
    exists f0, lx. cbv zeta. split; [exact Q1|]. split; [exact Q2|]. split; [exact Q3|]. split; [exact Q4|].
    intros a Ha. split.
    { apply rotating_lemma; try assumption.
      exact (modes_free N n axes fc2 (m_w m) (m_geom m) J lx freq (proj2 Hn) Hw Ho Ht Hf Hce Hin Q1 Q2 Q3 Pw). }
    intros fuel Hfu. destruct (Q fuel Hfu) as (o & f3l & f4l & irreps & Er & Eo & HD & HS & BV & X3 & X4 & Et & TF). clear Q.
    exists o. split; [exact Er|].
    set (modes := rs_modes (out_resonances o)) in *.
    assert (K0 : K <> 0) by (intros ->; lra).
    assert (J01 : J 0%nat = J 1%nat).
    { pose proof (BJ 0%nat ltac:(lia)) as E0. pose proof (BJ 1%nat ltac:(lia)) as E1. pose proof (HJ 0%nat ltac:(lia)). pose proof (HJ 1%nat ltac:(lia)).
      rewrite HB, E1 in E0. apply (f_equal Rinv) in E0. unfold Rdiv in E0. rewrite !Rinv_mult, !Rinv_inv in E0.
      apply Rmult_eq_reg_l in E0; [congruence|now apply Rinv_neq_0_compat]. }
    assert (Wa : forall k y z, (k < n)%nat -> (y < 3)%nat -> (z < 3)%nat -> wila N (m_geom m) (m_w m) V k (acol y z) = a k y z).
    { intros k y z Hk Hy Hz. symmetry. apply (slope_wila N (m_w m) (m_geom m) V k lx y z); auto.
      intros b Hb. apply ML; lia. }
    set (wl := wila N (m_geom m) (m_w m) V) in *.
    assert (Hp : Permutation (nondeg modes ++ flat_map (fun '(a, b) => [a; b]) (degs modes)) (seq 0 n)).
    { etransitivity; [|exact (tf_modes _ _ _ _ _ _ _ _ _ TF)]. apply modes_part. intros i j k. exact (tf_single _ _ _ _ _ _ _ _ _ TF i j k). }
    destruct (quartic_threefold n (nondeg modes) (degs modes) w J wl Hp J01) as (p & q & r & t & HF).
    { intros i j Hij%HD. tauto. }
    { intros k Hk. exact (wila_n N (m_w m) s sg mu C (m_geom m) G (sqrt 3 / 2) (nondeg modes) (degs modes) V BV k Hk). }
    { intros i j Hij. exact (wila_d N (m_w m) s sg mu C (m_geom m) G (sqrt 3 / 2) (nondeg modes) (degs modes) V h3 BV i j Hij). }
    { intros i j Hij. exact (wila_cross N (m_w m) s sg mu C (m_geom m) G (sqrt 3 / 2) (nondeg modes) (degs modes) V h3 BV i j Hij). }
    assert (Ev : forall x y z, even (quartic_form (tau_spec n w J wl)) x y z = p * (x ^ 2 + y ^ 2) ^ 2 + q * (x ^ 2 + y ^ 2) * z ^ 2 + r * z ^ 4).
    { intros x y z. unfold even. rewrite !HF. field. }
    assert (Ax : SymTopFacts.axial (even (quartic_form (tau_spec n w J wl)))).
    { intros x y x' y' z E. rewrite !Ev, E. reflexivity. }
    destruct (finish_inv _ _ _ _ _ _ _ _ _ Eo) as (sym & xm & g & e0 & lev & eng & rows & Eq & _).
    assert (Wf : (fun i => nth i freq (nz 0)) = w) by (unfold w; rewrite nz_R; reflexivity).
    rewrite Wf in Eq. fold N n B J wl in Eq.
    split.
    - exists t. intros x y z.
      assert (L : m_rotor m = OblateSymmTop /\ oblate_like B \/ m_rotor m = ProlateSymmTop /\ prolate_like B).
      { unfold oblate_like, prolate_like. destruct Hr6 as [[E L]|[E L]]; [left|right]; (split; [exact E|]); lra. }
      destruct (wilson_lemma n B J w wl (m_rotor m) L Ax) as (q' & Eq' & HT).
      rewrite Eq in Eq'. apply some_eq3 in Eq'. subst q'. rewrite <- HT, Ev.
      transitivity (quartic_form (tau_spec n w J wl) x y z); [|rewrite HF; ring].
      unfold quartic_form, FormFacts.sum3. rewrite Rmult_comm, Rmult_assoc. f_equal.
      rewrite Rmult_comm, <- Rsum_scal. apply sum_g. intros i Hi'. rewrite <- Rsum_scal. apply sum_g. intros j Hj.
      rewrite <- Rsum_scal. apply sum_g. intros k Hk. rewrite <- Rsum_scal. apply sum_g. intros l Hl'. rewrite <- Rmult_assoc. f_equal.
      unfold tau_cl, tau_spec.
      rewrite (sum_g n (fun v => wl v (acol i j) * wl v (acol k l) / (w v ^ 2 * J i * J j * J k * J l))
        (fun v => a v i j * a v k l / (w v ^ 2 * J i * J j * J k * J l))).
      + field. exact K0.
      + intros v Hv. rewrite !Wa by assumption. reflexivity.
    - intros Ro. destruct Hr6 as [[_ L]|[E _]]; [|congruence].
      rewrite Ro in Eq.
      destruct (oblate_lemma n B J w wl) as (q' & Eq' & H1 & H2 & H3 & H4 & H5 & H6 & _); [unfold oblate_like; lra|exact Ax|].
      rewrite Eq in Eq'. apply some_eq3 in Eq'. subst q'. auto 10.
  Qed.
End RunDistort.
