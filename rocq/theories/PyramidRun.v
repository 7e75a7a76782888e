(** The rotational constants of the pyramid lack a term. *)
From Coq Require Import Reals Lra List ZArith Arith Lia Bool Sorted FunctionalExtensionality.
From Verif Require Import Num Loops ListFacts AnharmFacts Modes ModesFacts ResFacts Transform TransformFacts RotFacts NormalFacts HarmFacts ModeFacts DistortFacts EckartFacts InertiaFacts ReportFacts GeomFacts ZeroFacts
  VibRot VibRotFacts SymAnharm SymE0 PerturbFacts PerturbLevels VibPerturb Report Distort Geom AlignExact Finish RunSecond RunRot Threefold ThreeForm ThreeModes ThreeRun ThreeRot ThreeConst ThreeWitness PyramidWitness.
Import ListNotations.
Open Scope nat_scope.
Local Open Scope R_scope.

Definition pyr_rep (i j : nat) : bool :=
  match i, j with
  | 1%nat, 2%nat => true | 2%nat, 1%nat => true | 4%nat, 5%nat => true | 5%nat, 4%nat => true
  | _, _ => false
  end.
Lemma pyr_rep_spec i j : pyr_rep i j = true <-> (i < 6)%nat /\ (j < 6)%nat /\ i <> j /\ nth i pyr_freq 0 = nth j pyr_freq 0.
Proof.
  split.
  - intros H. do 6 (destruct i as [|i]; [do 6 (destruct j as [|j]; [try discriminate; cbn; repeat split; lia || reflexivity|]); discriminate|]). discriminate.
  - intros (Hi & Hj & Ne & E). below6 i; below6 j; cbn in E; try reflexivity; try lia; exfalso; lra.
Qed.
Lemma pyr_KJ : 2 * pyr_K * pyr_lam ^ 2 = 1 /\ 0 < pyr_K.
Proof.
  assert (0 < pyr_lam ^ 2) by (apply pow_lt; unfold pyr_lam; lra). unfold pyr_K. split; [field; unfold pyr_lam in *; lra|].
  apply Rinv_0_lt_compat. lra.
Qed.
Lemma pyr_J_pos y : (y < 3)%nat -> 0 < pyr_J y.
Proof. intros Hy. below3 y; cbn; lra. Qed.

(** the derivatives of the inertia tensor exist *)
Lemma wila_slope N n (mw : nat -> R) geom V lx : (n <= 3 * N)%nat -> (forall i, (i < N)%nat -> 0 < mw i) ->
  mass_weighted N mw V lx -> (forall k, (k < n)%nat -> eckart N geom mw V k) ->
  inertia_slope N n mw geom lx (fun k y z => wila N geom mw V k (acol y z)).
Proof.
  intros Hn Hm ML Ek k y z Hk Hy Hz.
  replace (fun t => inertia N mw (displaced geom lx k t) y z)
    with (fun t => inertia N mw geom y z + t * wila N geom mw V k (acol y z) + t ^ 2 * quadratic N V k y z).
  { apply parabola_slope. }
  extensionality t. rewrite <- inertia_lemma by auto. unfold inertia. apply Rsum_ext. intros i Hi%in_seq.
  assert (E : displaced geom lx k t i = along geom mw V k t i); [|now rewrite E].
  unfold displaced, along. rewrite !ML by lia.
  replace (3 * i / 3)%nat with i by (rewrite Nat.mul_comm, Nat.div_mul; lia).
  replace ((3 * i + 1) / 3)%nat with i by (rewrite Nat.mul_comm, Nat.div_add_l by lia; cbn; lia).
  replace ((3 * i + 2) / 3)%nat with i by (rewrite Nat.mul_comm, Nat.div_add_l by lia; cbn; lia).
  unfold Rdiv. now rewrite !Rmult_assoc.
Qed.

(** the first partner of the second pair, after the alignment *)
Lemma pyr_even h l0 V A ns ts : sym2 12 A -> eigen_system 12 A h l0 -> eigen_system 12 A h V ->
  map to_wavenumber h = pyr_freq -> (forall a i, (i < 12)%nat -> l0 a i = pyr_V a i) ->
  behaves 12 (op pyr_sg (third s3)) (op pyr_mu flip) (sqrt 3 / 2) ns ts V -> In (4%nat, 5%nat) ts ->
  exists c, c * c = 1 /\ forall a, (a < 12)%nat -> V a 4%nat = c * pyr_V a 4.
Proof.
  intros Sy E0 EV Ef El BV I45.
  destruct E0 as (L0 & O0 & H0), EV as (LV & OV & HV).
  assert (Fr : forall i x, nth_error h i = Some x -> to_wavenumber x = nth i pyr_freq 0).
  { intros i x Ex. rewrite <- Ef. symmetry. apply nth_error_nth. now apply map_nth_error. }
  assert (P : forall k, (k < 12)%nat -> k <> 4%nat -> k <> 5%nat -> overlap 12 l0 V k 4 = 0).
  { intros k Hk N4 N5. destruct (nth_error h k) as [x|] eqn:Ex; [|apply nth_error_None in Ex; lia].
    destruct (nth_error h 4) as [y|] eqn:Ey; [|apply nth_error_None in Ey; lia].
    pose proof (overlap_eigen 12 A h l0 h V k 4 x y Sy (conj L0 (conj O0 H0)) (conj LV (conj OV HV)) Hk ltac:(lia) Ex Ey) as Q.
    assert (Nxy : x <> y).
    { intros ->. pose proof (Fr _ _ Ex) as F1. rewrite (Fr _ _ Ey) in F1. twelve k; cbn in F1; try lia; lra. }
    destruct (Req_dec (overlap 12 l0 V k 4) 0) as [|Nz]; [assumption|]. exfalso. apply Nxy.
    now apply Rmult_eq_reg_r in Q. }
  set (p := overlap 12 l0 V 4 4). set (q := overlap 12 l0 V 5 4).
  assert (EX : forall a, (a < 12)%nat -> V a 4%nat = p * pyr_V a 4 + q * pyr_V a 5).
  { intros a Ha. transitivity (Sum 12 (fun k => l0 a k * overlap 12 l0 V k 4)).
    - unfold overlap.
      transitivity (Sum 12 (fun b => delta a b * V b 4%nat)); [symmetry; now apply (sum_delta 12 (fun b => V b 4%nat))|].
      transitivity (Sum 12 (fun b => Sum 12 (fun k => l0 a k * l0 b k) * V b 4%nat)).
      + apply sum_g. intros b Hb. now rewrite (proj1 O0).
      + transitivity (Sum 12 (fun b => Sum 12 (fun k => l0 a k * (l0 b k * V b 4%nat)))).
        * apply sum_g. intros b Hb. rewrite <- Rsum_scal_r. apply sum_g. intros. ring.
        * rewrite Rsum_swap. apply sum_g. intros k Hk. now rewrite Rsum_scal.
    - transitivity (Sum 12 (fun k => delta 4 k * (l0 a k * p) + delta 5 k * (l0 a k * q))).
      + apply sum_g. intros k Hk. unfold delta.
        destruct (Nat.eqb_spec 4 k) as [<-|N4]; [cbn [Nat.eqb]; fold p; ring|].
        destruct (Nat.eqb_spec 5 k) as [<-|N5]; [fold q; ring|]. rewrite P by auto. ring.
      + rewrite Rsum_plus, (sum_delta 12 (fun k => l0 a k * p)), (sum_delta 12 (fun k => l0 a k * q)) by lia.
        rewrite !El by lia. ring. }
  clearbody p q. assert (q0 : q = 0).
  { destruct (bh_pair _ _ _ _ _ _ _ BV 4%nat 5%nat I45 10%nat ltac:(lia)) as (_ & _ & M & _).
    assert (M2 : act 12 (op pyr_mu flip) (fun a => V a 4%nat) 10 = - V 10%nat 4%nat) by (cbn; ring).
    rewrite M2 in M. rewrite EX in M by lia. cbn in M. lra. }
  exists p. split.
  - pose proof (proj2 OV 4%nat 4%nat ltac:(lia) ltac:(lia)) as Q.
    rewrite (sum_g 12 _ (fun a => p * p * (pyr_V a 4 * pyr_V a 4))) in Q by (intros a Ha; rewrite !EX by exact Ha; rewrite q0; ring).
    rewrite Rsum_scal, pyr_cols in Q by lia. unfold delta in Q. cbn in Q. lra.
  - intros a Ha. rewrite EX by exact Ha. rewrite q0. ring.
Qed.

Lemma per_pair_pos ts (c : nat -> R) s t : In (s, t) ts -> (forall p, In p ts -> 0 <= c (fst p)) -> 0 < c s -> 0 < per_pair ts c ground.
Proof.
  intros Hin Hc Hs. unfold per_pair. apply in_split in Hin as (l1 & l2 & ->).
  rewrite Rsum_app, Rsum_cons. unfold ground. cbn [fst snd INR].
  assert (P : forall l, (forall p, In p l -> In p (l1 ++ (s, t) :: l2)) -> 0 <= Rsum l (fun p => c (fst p) * (0 + 0 + 1))).
  { intros l Hl. apply Rsum_nonneg. intros p Hp. specialize (Hc p (Hl p Hp)). lra. }
  pose proof (P l1 ltac:(intros; apply in_or_app; auto)). pose proof (P l2 ltac:(intros; apply in_or_app; right; right; assumption)). lra.
Qed.

Lemma pyr_hyps : exists l0,
  (forall a i, (i < 12)%nat -> l0 a i = pyr_V a i) /\
  let m := pyr_mol in
  let w := fun i => nth i pyr_freq 0 in
  m_rotor m = OblateSymmTop /\ (0 < m_nvib m <= 3 * m_natom m)%nat /\ (forall q, (q < m_natom m)%nat -> 0 < m_w m q) /\
  c3v (m_natom m) (m_w m) s3 pyr_sg pyr_mu /\ placed (m_natom m) s3 pyr_sg pyr_mu (m_geom m) /\ m_rotcon m 0%nat = m_rotcon m 1%nat /\
  (0 < m_natom m)%nat /\ pyr_mu 0 = 0%nat /\ sym2 12 pyr_f2 /\ tsym3 12 pyr_f3 /\ tsym4 12 pyr_f4 /\
  same2 12 (op pyr_sg (third s3)) (con2 12 (every_atom delta) pyr_f2) /\ same2 12 (op pyr_mu flip) (con2 12 (every_atom delta) pyr_f2) /\
  same3 12 (op pyr_sg (third s3)) (con3 12 (every_atom delta) pyr_f3) /\ same3 12 (op pyr_mu flip) (con3 12 (every_atom delta) pyr_f3) /\
  same4 12 (op pyr_sg (third s3)) (con4 12 (every_atom delta) pyr_f4) /\ same4 12 (op pyr_mu flip) (con4 12 (every_atom delta) pyr_f4) /\
  orth 3 delta /\ rotation_free 4 pyr_f2 (input_position delta (m_geom m)) /\
  solves 12 pyr_eig (secular 4 delta pyr_f2 (m_w m)) /\
  harmonic 4 delta pyr_f2 (m_w m) pyr_eig = Some (pyr_freq, l0) /\
  threefold_modes 4 (m_nvib m) 0 s3 pyr_sg pyr_mu w l0 /\
  (forall i j k, (i < m_nvib m)%nat -> (j < m_nvib m)%nat -> (k < m_nvib m)%nat -> w i + w j <> w k) /\
  2 * pyr_K * pyr_lam ^ 2 = 1 /\ (forall y, (y < 3)%nat -> 0 < m_primat m y) /\
  (forall y, (y < 3)%nat -> m_rotcon m y = pyr_K / m_primat m y) /\
  (forall i j, pyr_rep i j = true <-> (i < m_nvib m)%nat /\ (j < m_nvib m)%nat /\ i <> j /\ w i = w j).
Proof.
  destruct pyr_harmonic as (l0 & Eh & El). exists l0. split; [exact El|]. cbv zeta. cbn [pyr_mol m_rotor m_nvib m_natom m_w m_geom m_rotcon m_primat].
  split; [reflexivity|]. split; [lia|]. split; [intros; lra|]. split; [exact pyr_c3v|]. split; [exact pyr_placed|].
  split; [reflexivity|]. split; [lia|]. split; [reflexivity|]. split; [exact pyr_sym2|]. split; [exact pyr_sym3|]. split; [exact pyr_sym4|].
  split; [exact pyr_turn2|]. split; [exact pyr_mirror2|].
  split; [exact (pyr_same3 _ (pturn 0))|]. split; [exact (pyr_same3 _ (pmirror 0))|].
  split; [exact (pyr_same4 _ (pturn 0))|]. split; [exact (pyr_same4 _ (pmirror 0))|].
  split. { split; intros a b Ha Hb; rewrite !sum_3; below3 a; below3 b; cbn; ring. }
  split; [exact pyr_free|].
  split; [exact pyr_solves|]. split; [exact Eh|]. split; [exact (pyr_modes l0 El)|]. split; [exact pyr_apart|].
  split; [apply pyr_KJ|]. split; [exact pyr_J_pos|]. split; [reflexivity|exact pyr_rep_spec].
Qed.

Section Lost.
  Context {I : Type}.
  Variable eig2 : R -> R -> R -> R * R * (R * R).
  Variable label : (nat -> R * R * R) -> (nat -> nat -> R) -> nat -> R -> option I.
  Variable A : I.

  Lemma pyr_lost : exists fuel0 lx,
    let m := pyr_mol in
    let B := m_rotcon m in
    let w := fun i => nth i pyr_freq 0 in
    let g2 := con2 12 (every_atom delta) pyr_f2 in
    let g3 := con3 12 (every_atom delta) pyr_f3 in
    let hess := fun a b => FACT2 * g2 a b in
    let F3 := cubic_spec 12 g3 lx w in
    let zeta := zeta_of 4 (fun a i => sqrt (m_w m (a / 3)%nat) * lx a i) in
    (forall i j, (i < 12)%nat -> (j < 12)%nat ->
       Sum 12 (fun a => m_w m (a / 3)%nat * lx a i * lx a j) = (if Nat.eqb i j then 1 else 0)) /\
    (forall i j, (i < 12)%nat -> (j < 12)%nat -> i <> j -> con2 12 lx hess i j = 0) /\
    (forall i, (i < 12)%nat -> nth_error pyr_freq i = Some (to_wavenumber (con2 12 lx hess i i))) /\
    forall fuel, (fuel0 <= fuel)%nat ->
    exists o a c,
      run eig2 pyr_eig label A fuel (Some (pyr_sg 0)) false m delta 0 3 (Quartic pyr_f2 pyr_f3 pyr_f4) = Some (FullResult o) /\
      rs_coriolis (out_resonances o) = [] /\
      inertia_slope 4 6 (m_w m) (m_geom m) lx a /\
      nth_error (out_rots o) 0 = Some c /\ rot_state c = I1st (repeat 0%nat 6) /\
      let q := out_quartic o in
      let change := fun x => VibPerturb.rot_const 6 w F3 zeta a pyr_J pyr_K pyr_lam pyr_rep x ground - B x + rounding_term 6 B w a F3 pyr_lam x ground in
      rot_a c < bys q + / 2 * (change 0%nat + change 1%nat) /\
      rot_b c < bxs q + / 2 * (change 0%nat + change 1%nat) /\
      rot_c c < bzs q + change 2%nat.
  Proof.
    destruct pyr_hyps as (l0 & El & H). cbv zeta in H.
    destruct H as (H1 & H2 & H3 & H4 & H5 & H6 & H7 & H8 & H9 & H10 & H11 & H12 & H13 & H14 & H15 & H16 & H17 & H18 & H19 & H20 & H21 & H22 & H23 & H24 & H25 & H26 & H27).
    destruct (run_three_const_core eig2 pyr_eig label A pyr_mol delta 0%nat s3 pyr_sg pyr_mu pyr_f2 pyr_f3 pyr_f4 pyr_freq l0 pyr_K pyr_lam pyr_rep
      (or_introl H1) H7 H2 H3 H4 H5 H6 H7 H8 H9 H10 H11 H12 H13 H14 H15 H16 H17 H18 H19 H20 H21 H22 H23 H24 H25 H26 H27)
      as (f0 & lx & V & h & Q1 & Q2 & Q3 & Q4 & Q5 & Q6 & Q7 & Q8 & Q9 & Q10 & Q).
    exists f0, lx. cbv zeta. split; [exact Q1|]. split; [exact Q2|]. split; [exact Q3|].
    intros fuel Hf. destruct (Q fuel Hf) as (o & Er & HD & HS & BV & NC & HC).
    specialize (NC pyr_far). set (a := fun k y z => wila 4 (m_geom pyr_mol) (m_w pyr_mol) V k (acol y z)).
    assert (SL : inertia_slope 4 6 (m_w pyr_mol) (m_geom pyr_mol) lx a).
    { apply wila_slope; [lia|exact H3|exact Q9|exact Q10]. }
    destruct (HC NC a SL) as (Hst & Hval).
    destruct (out_rots o) as [|c cs] eqn:Eo; [discriminate Hst|].
    exists o, a, c. split; [exact Er|]. split; [exact NC|]. split; [exact SL|]. rewrite Eo. split; [reflexivity|].
    split; [exact (f_equal (hd (I1st [])) Hst)|].
    destruct (Hval 0%nat c eq_refl) as (Hob & _). destruct (Hob H1) as (Ra & Rb & Rc). cbn [excited] in Ra, Rb, Rc.
    assert (I45 : In (4%nat, 5%nat) (degs (rs_modes (out_resonances o)))) by (apply HD; cbn; split; [lia|reflexivity]).
    destruct (pyr_even h l0 V _ _ _ Q6 Q7 Q8 Q5 El BV I45) as (p & Pp & EV).
    assert (A4 : 0 < a 4%nat 0%nat 2%nat ^ 2).
    { assert (Ea : a 4%nat 0%nat 2%nat = p * wila 4 (m_geom pyr_mol) (m_w pyr_mol) pyr_V 4 3).
      { unfold a, acol, wila. rewrite !acc_sub_R. unR. unfold range. cbn [seq Nat.sub]. unfold Rsum. cbn [fold_right]. rewrite !EV by (cbn; lia). ring. }
      rewrite Ea. replace ((p * wila 4 (m_geom pyr_mol) (m_w pyr_mol) pyr_V 4 3) ^ 2)
        with (p * p * wila 4 (m_geom pyr_mol) (m_w pyr_mol) pyr_V 4 3 ^ 2) by ring. rewrite Pp.
      assert (wila 4 (m_geom pyr_mol) (m_w pyr_mol) pyr_V 4 3 <> 0).
      { unfold wila. unR. cbn. rewrite sqrt_1. lra. }
      rewrite Rmult_1_l. rewrite <- Rsqr_pow2. now apply Rlt_0_sqr. }
    assert (BK : forall y, (y < 3)%nat -> 0 < m_rotcon pyr_mol y).
    { intros y Hy. rewrite H26 by exact Hy. apply Rdiv_lt_0_compat; [apply pyr_KJ|now apply H25]. }
    assert (LP : forall x, 0 < lost_about (fun i => nth i pyr_freq 0) (m_rotcon pyr_mol) (m_primat pyr_mol) a (degs (rs_modes (out_resonances o))) x ground).
    { intros x. unfold lost_about. apply per_pair_pos with (s := 4%nat) (t := 5%nat); [exact I45| |].
      - intros (s, t) Hp. apply HD in Hp as (Hst' & Ew). cbn [fst].
        assert (W : 0 < nth s pyr_freq 0) by (assert (s < 6)%nat by (cbn in Hst'; lia); clear - H; below6 s; cbn; lra).
        assert (P : forall b J, 0 < J -> forall k, 0 < k -> 0 <= 2 * b ^ 2 / nth s pyr_freq 0 * (k * (a s 0%nat 2%nat ^ 2 / J))).
        { intros b J HJ k Hk. apply Rmult_le_pos.
          - apply Rmult_le_pos; [pose proof (pow2_ge_0 b); lra|]. left. now apply Rinv_0_lt_compat.
          - apply Rmult_le_pos; [lra|]. apply Rmult_le_pos; [apply pow2_ge_0|]. left. now apply Rinv_0_lt_compat. }
        destruct x as [|[|[|x]]]; apply P; try lra; apply H25; lia.
      - assert (P : forall b J, 0 < b -> 0 < J -> forall k, 0 < k -> 0 < 2 * b ^ 2 / nth 4 pyr_freq 0 * (k * (a 4%nat 0%nat 2%nat ^ 2 / J))).
        { intros b J Hb HJ k Hk. apply Rmult_lt_0_compat.
          - apply Rdiv_lt_0_compat; [pose proof (pow_lt b 2 Hb); lra|cbn; lra].
          - apply Rmult_lt_0_compat; [lra|]. now apply Rdiv_lt_0_compat. }
        destruct x as [|[|[|x]]]; apply P; try lra; try (apply H25; lia); apply BK; lia. }
    pose proof (LP 0%nat) as L0. pose proof (LP 1%nat) as L1. pose proof (LP 2%nat) as L2.
    rewrite Ra, Rb, Rc. repeat split; match goal with |- ?u - ?v < ?u' => change u' with u; lra end.
  Qed.
End Lost.

Lemma pyr_refuted :
  forall (I : Type) eig2 (label : (nat -> R * R * R) -> (nat -> nat -> R) -> nat -> R -> option I) A,
  (exists l0, let m := pyr_mol in
    let w := fun i => nth i pyr_freq 0 in
    m_rotor m = OblateSymmTop /\ (0 < m_nvib m <= 3 * m_natom m)%nat /\ (forall q, (q < m_natom m)%nat -> 0 < m_w m q) /\
    c3v (m_natom m) (m_w m) s3 pyr_sg pyr_mu /\ placed (m_natom m) s3 pyr_sg pyr_mu (m_geom m) /\ m_rotcon m 0%nat = m_rotcon m 1%nat /\
    (0 < m_natom m)%nat /\ pyr_mu 0 = 0%nat /\ sym2 12 pyr_f2 /\ tsym3 12 pyr_f3 /\ tsym4 12 pyr_f4 /\
    same2 12 (op pyr_sg (third s3)) (con2 12 (every_atom delta) pyr_f2) /\ same2 12 (op pyr_mu flip) (con2 12 (every_atom delta) pyr_f2) /\
    same3 12 (op pyr_sg (third s3)) (con3 12 (every_atom delta) pyr_f3) /\ same3 12 (op pyr_mu flip) (con3 12 (every_atom delta) pyr_f3) /\
    same4 12 (op pyr_sg (third s3)) (con4 12 (every_atom delta) pyr_f4) /\ same4 12 (op pyr_mu flip) (con4 12 (every_atom delta) pyr_f4) /\
    orth 3 delta /\ rotation_free 4 pyr_f2 (input_position delta (m_geom m)) /\
    solves 12 pyr_eig (secular 4 delta pyr_f2 (m_w m)) /\
    harmonic 4 delta pyr_f2 (m_w m) pyr_eig = Some (pyr_freq, l0) /\
    threefold_modes 4 (m_nvib m) 0 s3 pyr_sg pyr_mu w l0 /\
    (forall i j k, (i < m_nvib m)%nat -> (j < m_nvib m)%nat -> (k < m_nvib m)%nat -> w i + w j <> w k) /\
    2 * pyr_K * pyr_lam ^ 2 = 1 /\ (forall y, (y < 3)%nat -> 0 < m_primat m y) /\
    (forall y, (y < 3)%nat -> m_rotcon m y = pyr_K / m_primat m y) /\
    (forall i j, pyr_rep i j = true <-> (i < m_nvib m)%nat /\ (j < m_nvib m)%nat /\ i <> j /\ w i = w j)) /\
  exists fuel0 lx,
    let m := pyr_mol in
    let B := m_rotcon m in
    let w := fun i => nth i pyr_freq 0 in
    let g2 := con2 12 (every_atom delta) pyr_f2 in
    let g3 := con3 12 (every_atom delta) pyr_f3 in
    let hess := fun a b => FACT2 * g2 a b in
    let F3 := cubic_spec 12 g3 lx w in
    let zeta := zeta_of 4 (fun a i => sqrt (m_w m (a / 3)%nat) * lx a i) in
    (forall i j, (i < 12)%nat -> (j < 12)%nat ->
       Sum 12 (fun a => m_w m (a / 3)%nat * lx a i * lx a j) = (if Nat.eqb i j then 1 else 0)) /\
    (forall i j, (i < 12)%nat -> (j < 12)%nat -> i <> j -> con2 12 lx hess i j = 0) /\
    (forall i, (i < 12)%nat -> nth_error pyr_freq i = Some (to_wavenumber (con2 12 lx hess i i))) /\
    forall fuel, (fuel0 <= fuel)%nat ->
    exists o a c,
      run eig2 pyr_eig label A fuel (Some (pyr_sg 0)) false m delta 0 3 (Quartic pyr_f2 pyr_f3 pyr_f4) = Some (FullResult o) /\
      rs_coriolis (out_resonances o) = [] /\
      inertia_slope 4 6 (m_w m) (m_geom m) lx a /\
      nth_error (out_rots o) 0 = Some c /\ rot_state c = I1st (repeat 0%nat 6) /\
      let q := out_quartic o in
      let change := fun x => VibPerturb.rot_const 6 w F3 zeta a pyr_J pyr_K pyr_lam pyr_rep x ground - B x + rounding_term 6 B w a F3 pyr_lam x ground in
      rot_a c < bys q + / 2 * (change 0%nat + change 1%nat) /\
      rot_b c < bxs q + / 2 * (change 0%nat + change 1%nat) /\
      rot_c c < bzs q + change 2%nat.
Proof. intros I eig2 label A. split; [|exact (pyr_lost eig2 label A)]. destruct pyr_hyps as (l0 & _ & H). exists l0. exact H. Qed.
