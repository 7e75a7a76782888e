(** The distortion constants of symmetric tops as coefficients of the rotational energy. *)
From Coq Require Import Reals Lra Lia List ZArith Arith Bool.
From Verif Require Import Num Loops Index Modes Anharm VibRot Distort.
From Verif Require Import ListFacts ModesFacts ResFacts AnharmFacts EnergyFacts VibRotFacts
  DistortFacts SexticFacts FormFacts TensorFacts ReductionFacts.
Import ListNotations.
Open Scope R_scope.

(** unchanged by every rotation about the third axis *)
Definition axial (f : R -> R -> R -> R) : Prop :=
  forall x y x' y' z, x ^ 2 + y ^ 2 = x' ^ 2 + y' ^ 2 -> f x y z = f x' y' z.
(** the energy of a symmetric top with constants DJ, DJK, DK *)
Definition top4 (dj djk dk x y z : R) : R :=
  - dj * J2 x y z ^ 2 - djk * J2 x y z * z ^ 2 - dk * z ^ 4.

Section SymTop.
  Variables (nvib : nat) (B I w : nat -> R) (wl : nat -> nat -> R).
  Let tau := tau_spec nvib w I wl.
  Let T a b := taup_spec nvib w I wl a b / 4.

  Lemma even_quartic x y z :
    even (quartic_form tau) x y z =
    T 0 0 * x ^ 4 + T 1 1 * y ^ 4 + T 2 2 * z ^ 4
    + 2 * (T 0 1 * x ^ 2 * y ^ 2 + T 0 2 * x ^ 2 * z ^ 2 + T 1 2 * y ^ 2 * z ^ 2).
  Proof.
    unfold T, taup_spec. cbn [Nat.eqb]. fold tau.
    unfold even, quartic_form. rewrite !sum3_eq. cbn [xyz].
    rewrite !(tau_can tau (tau_sym' nvib I w wl)) by lia. unfold tcan. cbn [acol Nat.min Nat.max].
    field.
  Qed.
  Lemma axial_T : axial (even (quartic_form tau)) -> T 1 1 = T 0 0 /\ T 0 1 = T 0 0 /\ T 1 2 = T 0 2.
  Proof.
    intros A.
    pose proof (A 1 0 0 1 0 ltac:(lra)) as E1. pose proof (A 3 4 5 0 0 ltac:(lra)) as E2.
    pose proof (A 1 0 0 1 1 ltac:(lra)) as E3. rewrite !even_quartic in *. repeat split; lra.
  Qed.
  Lemma taup_swap i j : (i < 3)%nat -> (j < 3)%nat -> taup_spec nvib w I wl i j = taup_spec nvib w I wl j i.
  Proof.
    intros Hi Hj. rewrite <- !taup_R by assumption.
    exact (proj2 (taup_sym_lemma nvib w I wl i j Hi Hj)).
  Qed.

  Lemma make_t_sym : exists t,
    make_t 3 (1, 0, 2)%nat (tau_prime (make_tau (F := R) nvib w I wl)) = Some t /\
    t 0%nat 0%nat = T 1 1 /\ t 1%nat 1%nat = T 0 0 /\ t 2%nat 2%nat = T 2 2 /\
    t 0%nat 1%nat = T 0 1 /\ t 0%nat 2%nat = T 1 2 /\ t 1%nat 2%nat = T 0 2.
  Proof.
    eexists. split; [reflexivity|]. unfold upd2, at3. cbn [Nat.eqb andb fst snd ndiv Rnum].
    rewrite !nz_R, !taup_R by lia. unfold T.
    repeat split; try reflexivity; rewrite taup_swap by lia; reflexivity.
  Qed.

  (** where the two equal constants may differ a little *)
  Definition oblate_like : Prop := B 2%nat < B 0%nat /\ B 0%nat + B 2%nat <= 2 * B 1%nat.
  Definition prolate_like : Prop := B 0%nat < B 2%nat /\ 2 * B 1%nat < B 0%nat + B 2%nat.

  Ltac code := cbn [at3 fst snd nltb nadd nsub nmul ndiv nopp Rnum]; rewrite ?nz_R, ?taup_R by lia.

  (** Wilson's constants *)
  Lemma wilson_lemma r : r = OblateSymmTop /\ oblate_like \/ r = ProlateSymmTop /\ prolate_like ->
    axial (even (quartic_form tau)) ->
    exists q, quartic_new r nvib B I w wl = Some q /\
      forall x y z, even (quartic_form tau) x y z = top4 (djw q) (djkw q) (dkw q) x y z.
  Proof.
    intros Hr A. destruct (axial_T A) as (E1 & E2 & E3). unfold T in E1, E2, E3.
    assert (F1 : taup_spec nvib w I wl 1 1 = taup_spec nvib w I wl 0 0) by lra.
    assert (F2 : taup_spec nvib w I wl 0 1 = taup_spec nvib w I wl 0 0) by lra.
    assert (F3 : taup_spec nvib w I wl 1 2 = taup_spec nvib w I wl 0 2) by lra.
    destruct Hr as [(-> & L1 & L2)|(-> & L1 & L2)].
    - destruct make_t_sym as (t & Et & _).
      unfold quartic_new. cbn [is_linear princ_cart IPTOC ICTOP nth_error obind].
      rewrite Et. cbn [obind is_diatomic is_sym_top is_asymm_top is_spherical_top andb negb].
      destruct (make_tsix t) as [k400 k220 k040 k202 k022 k004].
      cbn [is_linear princ_cart IPTOC ICTOP nth_error obind at3 fst snd negb andb]. code.
      assert (L : Rltb ((2 * B 1%nat - B 0%nat - B 2%nat) / (B 0%nat - B 2%nat)) 0 = false).
      { apply Rltb_false. apply Rmult_le_pos; [lra|]. apply Rlt_le, Rinv_0_lt_compat. lra. }
      rewrite L.
      cbn [obind princ_cart IPTOC ICTOP nth_error]. eexists. split; [reflexivity|].
      intros x y z. cbn [djw djkw dkw]. rewrite even_quartic. unfold top4, J2, T. code.
      rewrite F1, F2, F3. field.
    - destruct (make_t_asym nvib I w wl) as (t & Et & _).
      unfold quartic_new. cbn [is_linear princ_cart IPTOC ICTOP nth_error obind].
      rewrite Et. cbn [obind is_diatomic is_sym_top is_asymm_top is_spherical_top andb negb].
      destruct (make_tsix t) as [k400 k220 k040 k202 k022 k004].
      cbn [is_linear princ_cart IPTOC ICTOP nth_error obind at3 fst snd negb andb]. code.
      assert (L : Rltb ((2 * B 1%nat - B 2%nat - B 0%nat) / (B 2%nat - B 0%nat)) 0 = true).
      { apply Rltb_true. apply Ropp_lt_cancel. rewrite Ropp_0. unfold Rdiv. rewrite Ropp_mult_distr_l.
        apply Rmult_lt_0_compat; [lra|]. apply Rinv_0_lt_compat. lra. }
      rewrite L.
      cbn [obind princ_cart IPTOC ICTOP nth_error]. eexists. split; [reflexivity|].
      intros x y z. cbn [djw djkw dkw]. rewrite even_quartic. unfold top4, J2, T. code.
      rewrite F1, F2, F3. field.
  Qed.

  (** oblate tops: Nielsen's and the S constants are the same *)
  Lemma oblate_lemma : oblate_like -> axial (even (quartic_form tau)) ->
    exists q, quartic_new OblateSymmTop nvib B I w wl = Some q /\
      djn q = djw q /\ djkn q = djkw q /\ dkn q = dkw q /\ sdjn q = 0 /\ r5 q = 0 /\ r6 q = 0 /\
      (B 0%nat <> B 1%nat ->
       dj q = djw q /\ djk q = djkw q /\ dk q = dkw q /\ sd1 q = 0 /\ sd2 q = 0 /\
       bxs q = B 1%nat /\ bys q = B 0%nat /\ bzs q = B 2%nat).
  Proof.
    intros (L1 & L2) A. destruct (axial_T A) as (E1 & E2 & E3). unfold T in E1, E2, E3.
    destruct make_t_sym as (t & Et & T00 & T11 & T22 & T01 & T02 & T12).
    unfold quartic_new. cbn [is_linear princ_cart IPTOC ICTOP nth_error obind].
    rewrite Et. cbn [obind is_diatomic is_sym_top is_asymm_top is_spherical_top andb negb].
    unfold make_tsix. cbv zeta. rewrite T00, T11, T22, T01, T02, T12.
    cbn [is_linear princ_cart IPTOC ICTOP nth_error obind at3 fst snd negb andb]. code.
    assert (L : Rltb ((2 * B 1%nat - B 0%nat - B 2%nat) / (B 0%nat - B 2%nat)) 0 = false).
    { apply Rltb_false. apply Rmult_le_pos; [lra|]. apply Rlt_le, Rinv_0_lt_compat. lra. }
    rewrite L.
    cbn [obind princ_cart IPTOC ICTOP nth_error]. eexists. split; [reflexivity|].
    cbn [djw djkw dkw djn djkn dkn sdjn r5 r6 dj djk dk sd1 sd2 bxs bys bzs]. code. unfold T in *.
    assert (F1 : taup_spec nvib w I wl 1 1 = taup_spec nvib w I wl 0 0) by lra.
    assert (F2 : taup_spec nvib w I wl 0 1 = taup_spec nvib w I wl 0 0) by lra.
    assert (F3 : taup_spec nvib w I wl 1 2 = taup_spec nvib w I wl 0 2) by lra.
    rewrite F1, F2, F3. do 6 (split; [field|]).
    intros N.
    set (ka := (2 * B 1%nat - B 0%nat - B 2%nat) / (B 0%nat - B 2%nat)) in *.
    assert (0 <= ka). { apply Rmult_le_pos; [lra|]. apply Rlt_le, Rinv_0_lt_compat. lra. }
    assert (N1 : ka - 1 <> 0).
    { assert (ka - 1 = 2 * (B 1%nat - B 0%nat) / (B 0%nat - B 2%nat)) as -> by (unfold ka; field; lra).
      apply Rmult_integral_contrapositive. split; [lra|]. apply Rinv_neq_0_compat. lra. }
    assert (N2 : ka + 3 <> 0) by lra.
    change (@nlit R Rnum 1 2) with (1 / 2). change (@nlit R Rnum 5 2) with (5 / 2).
    change (@nlit R Rnum 1 4) with (1 / 4). clearbody ka.
    repeat split; field; auto.
  Qed.

  (** Nielsen's constants: the axis called z is the first for asymmetric and prolate tops
      and the third for oblate ones *)
  Definition nielsen4 (q : quartic R) : R -> R -> R -> R :=
    cyl4 (- djn q) (- djkn q) (- dkn q) (- sdjn q) (2 * r5 q) (r6 q).
  Lemma nielsen_lemma r : r = AsymmTop \/ r = ProlateSymmTop \/ r = OblateSymmTop ->
    exists q, quartic_new r nvib B I w wl = Some q /\
      forall x y z, nielsen4 q x y z =
        match r with
        | OblateSymmTop => even (quartic_form tau) y x z
        | _ => even (quartic_form tau) z x y
        end.
  Proof.
    intros [->|[->| ->]].
    - destruct (make_t_asym nvib I w wl) as (t & Et & T00 & T11 & T22 & T01 & T02 & T12).
      unfold quartic_new. cbn [is_linear princ_cart IPTOC ICTOP nth_error obind].
      rewrite Et. cbn [obind is_diatomic is_sym_top is_asymm_top is_spherical_top andb negb].
      unfold make_tsix. cbv zeta. rewrite T00, T11, T22, T01, T02, T12.
      cbn [is_linear princ_cart IPTOC ICTOP nth_error obind at3 fst snd negb andb].
      eexists. split; [reflexivity|]. intros x y z. unfold nielsen4.
      cbn [djn djkn dkn sdjn r5 r6]. code. rewrite even_quartic.
      rewrite !(taup_swap 1 0), !(taup_swap 2 0) by lia.
      unfold cyl4, J2, q2, q4, T. field.
    - destruct (make_t_asym nvib I w wl) as (t & Et & T00 & T11 & T22 & T01 & T02 & T12).
      unfold quartic_new. cbn [is_linear princ_cart IPTOC ICTOP nth_error obind].
      rewrite Et. cbn [obind is_diatomic is_sym_top is_asymm_top is_spherical_top andb negb].
      unfold make_tsix. cbv zeta. rewrite T00, T11, T22, T01, T02, T12.
      cbn [is_linear princ_cart IPTOC ICTOP nth_error obind at3 fst snd negb andb].
      match goal with |- context [if ?b then _ else _] => destruct b end;
      cbn [obind princ_cart IPTOC ICTOP nth_error];
      (eexists; split; [reflexivity|]; intros x y z; unfold nielsen4;
      cbn [djn djkn dkn sdjn r5 r6]; code; rewrite even_quartic;
      rewrite !(taup_swap 1 0), !(taup_swap 2 0) by lia;
      unfold cyl4, J2, q2, q4, T; field).
    - destruct make_t_sym as (t & Et & T00 & T11 & T22 & T01 & T02 & T12).
      unfold quartic_new. cbn [is_linear princ_cart IPTOC ICTOP nth_error obind].
      rewrite Et. cbn [obind is_diatomic is_sym_top is_asymm_top is_spherical_top andb negb].
      unfold make_tsix. cbv zeta. rewrite T00, T11, T22, T01, T02, T12.
      cbn [is_linear princ_cart IPTOC ICTOP nth_error obind at3 fst snd negb andb].
      match goal with |- context [if ?b then _ else _] => destruct b end;
      cbn [obind princ_cart IPTOC ICTOP nth_error];
      (eexists; split; [reflexivity|]; intros x y z; unfold nielsen4;
      cbn [djn djkn dkn sdjn r5 r6]; code; rewrite even_quartic;
      unfold cyl4, J2, q2, q4, T; field).
  Qed.

  (** the sextic constants; the tensor may have a term of sixfold symmetry *)
  Definition top6 (a b c d h : R) : R -> R -> R -> R := cyl6 a b c d 0 0 0 0 0 h.
  Lemma make_phi_sym (s : nat -> nat -> nat -> R) :
    (forall a b e, (a < 3)%nat -> (b < 3)%nat -> (e < 3)%nat -> sym3 s a b e) ->
    exists p,
    make_phi 3 (1, 0, 2)%nat s = Some p /\
    forall x y z,
      match make_psix p with
      | mk_p p600 p420 p240 p060 p402 p222 p042 p204 p024 p006 =>
        tensor_form s y x z = cyl6 p600 p420 p240 p060 p402 p222 p042 p204 p024 p006 x y z
      end.
  Proof.
    intros Hs. eexists. split; [reflexivity|]. intros x y z. unfold make_psix. cbv zeta.
    unfold upd3, at3. cbn [Nat.eqb andb fst snd]. cbn [nadd nsub nmul ndiv Rnum]. rewrite !nz_R.
    assert (s 1%nat 0%nat 2%nat = s 0%nat 1%nat 2%nat) as ->.
    { destruct (Hs 1 0 2)%nat as (E2 & _); try lia. congruence. }
    unfold tensor_form, cyl6, J2, q2, q4, q6. field.
  Qed.
  Lemma cyl6_inj p600 p420 p240 p060 p402 p222 p042 p204 p024 p006 a b c d h :
    (forall x y z, cyl6 p600 p420 p240 p060 p402 p222 p042 p204 p024 p006 x y z = top6 a b c d h x y z) ->
    p600 = a /\ p420 = b /\ p240 = c /\ p060 = d /\ p402 = 0 /\ p222 = 0 /\ p042 = 0 /\ p204 = 0 /\
    p024 = 0 /\ p006 = h.
  Proof.
    intros E. unfold top6, cyl6, J2, q2, q4, q6 in E.
    pose proof (E 1 0 0). pose proof (E 0 1 0). pose proof (E 0 0 1). pose proof (E 1 1 0).
    pose proof (E 2 1 0). pose proof (E 1 0 1). pose proof (E 0 1 1). pose proof (E 1 1 1).
    pose proof (E 2 0 1). pose proof (E 0 2 1). clear E. repeat split; lra.
  Qed.

  Lemma top_sextic_lemma nfreq zm f3 r a b c d h :
    r = OblateSymmTop /\ oblate_like /\ B 0%nat <> B 1%nat \/ r = ProlateSymmTop /\ prolate_like ->
    axial (even (quartic_form tau)) ->
    (forall x y z, tensor_form (phi6 nvib nfreq B I w wl zm f3) y x z = top6 a b c d h x y z) ->
    exists s, sextic_new r nvib nfreq B I w wl zm f3 = Some s /\
      hj s = a /\ hjk s = b /\ hkj s = c /\ hk s = d /\ h1 s = 0 /\ h2 s = 0 /\ h3 s = h.
  Proof.
    intros Hr A P. destruct (axial_T A) as (E1 & E2 & E3). unfold T in E1, E2, E3.
    destruct make_t_sym as (t & Et & T00 & T11 & T22 & T01 & T02 & T12).
    set (ph := phi6 nvib nfreq B I w wl zm f3) in *.
    destruct (make_phi_sym ph) as (p & Ep & Fp).
    { intros a' b' e Ha Hb He. unfold ph, phi6. apply scc_sym_lemma; auto. }
    assert (X : make_psix p = mk_p a b c d 0 0 0 0 0 h).
    { destruct (make_psix p) as [p600 p420 p240 p060 p402 p222 p042 p204 p024 p006].
      destruct (cyl6_inj p600 p420 p240 p060 p402 p222 p042 p204 p024 p006 a b c d h) as
        (-> & -> & -> & -> & -> & -> & -> & -> & -> & ->); [|reflexivity].
      intros x y z. now rewrite <- Fp, P. }
    assert (Y : exists k400 k220 k040 k202 k004, make_tsix t = mk_t k400 k220 k040 k202 0 k004).
    { unfold make_tsix. cbv zeta. rewrite T00, T11, T22, T01, T02, T12. code.
      do 5 eexists. f_equal. unfold T. lra. }
    destruct Y as (k400 & k220 & k040 & k202 & k004 & Y).
    assert (Z : r = OblateSymmTop \/ r = ProlateSymmTop) by (destruct Hr as [(-> & _)|(-> & _)]; auto).
    clear Hr. destruct Z as [-> | ->]; unfold sextic_new;
      cbn [is_linear is_diatomic is_sym_top obind princ_cart IPTOC ICTOP nth_error];
      rewrite Et; cbn [obind];
      match goal with |- context [make_phi 3 _ ?s0] => change s0 with ph end;
      rewrite Ep; cbn [obind]; unfold sextic_consts; rewrite X, Y;
      cbn [negb is_prolate is_asymm_top orb princ_cart IPTOC ICTOP nth_error obind];
      (eexists; split; [reflexivity|]);
      cbn [hj hjk hkj hk h1 h2 h3]; code; unfold Rdiv; repeat split; ring.
  Qed.
End SymTop.

(** prolate tops: the constants that should be DJ, DJK and DK are not *)
Definition pro_B (i : nat) : R := match i with 2%nat => 2 | _ => 1 end.
Definition pro_wl (v c : nat) : R := match c with 0%nat | 2%nat => 1 | _ => 0 end.
Lemma pro_axial : axial (even (quartic_form (tau_spec 1 (fun _ => 100) (fun _ => 2) pro_wl))).
Proof.
  intros x y x' y' z E. rewrite !(even_quartic 1 pro_B (fun _ => 2) (fun _ => 100) pro_wl).
  assert (V : taup_spec 1 (fun _ => 100) (fun _ => 2) pro_wl 0 0 = taup_spec 1 (fun _ => 100) (fun _ => 2) pro_wl 1 1
    /\ taup_spec 1 (fun _ => 100) (fun _ => 2) pro_wl 0 1 = taup_spec 1 (fun _ => 100) (fun _ => 2) pro_wl 1 1
    /\ taup_spec 1 (fun _ => 100) (fun _ => 2) pro_wl 0 2 = 0
    /\ taup_spec 1 (fun _ => 100) (fun _ => 2) pro_wl 1 2 = 0).
  { unfold taup_spec, tau_spec, pro_wl. cbn [Nat.eqb acol Nat.max Nat.min Rsum fold_right seq Nat.mul Nat.add].
    repeat split; field. }
  destruct V as (-> & -> & -> & ->).
  generalize (taup_spec 1 (fun _ => 100) (fun _ => 2) pro_wl 1 1) (taup_spec 1 (fun _ => 100) (fun _ => 2) pro_wl 2 2).
  intros u v.
  transitivity (u / 4 * (x ^ 2 + y ^ 2) ^ 2 + v / 4 * z ^ 4); [field|]. rewrite E. field.
Qed.
Lemma prolate_quartic_refuted :
  exists nvib (B I w : nat -> R) wl q,
    B 0%nat = B 1%nat /\ B 1%nat < B 2%nat /\ axial (even (quartic_form (tau_spec nvib w I wl))) /\
    quartic_new ProlateSymmTop nvib B I w wl = Some q /\
    djn q = 3 / 8 * djw q /\ dj q <> djw q /\ djw q <> 0.
Proof.
  exists 1%nat, pro_B, (fun _ => 2), (fun _ => 100), pro_wl.
  destruct (make_t_asym 1 (fun _ => 2) (fun _ => 100) pro_wl) as (t & Et & T00 & T11 & T22 & T01 & T02 & T12).
  unfold quartic_new. cbn [is_linear princ_cart IPTOC ICTOP nth_error obind].
  rewrite Et. cbn [obind is_diatomic is_sym_top is_asymm_top is_spherical_top andb negb].
  unfold make_tsix. cbv zeta. rewrite T00, T11, T22, T01, T02, T12.
  cbn [is_linear princ_cart IPTOC ICTOP nth_error obind at3 fst snd negb andb pro_B].
  assert (L : Rltb ((2 * 1 - 2 - 1) / (2 - 1)) 0 = true) by (apply Rltb_true; lra).
  cbn [nltb nadd nsub nmul ndiv nopp Rnum]. rewrite ?nz_R. rewrite L.
  cbn [obind princ_cart IPTOC ICTOP nth_error]. eexists.
  split; [reflexivity|]. split; [lra|]. split; [exact pro_axial|]. split; [reflexivity|].
  cbn [djn dj djw at3 fst snd nltb nadd nsub nmul ndiv nopp Rnum]. rewrite ?nz_R, ?taup_R by lia.
  change (@nlit R Rnum 1 2) with (1 / 2).
  unfold taup_spec, tau_spec, pro_wl. cbn [Nat.eqb acol Nat.max Nat.min Rsum fold_right seq Nat.mul Nat.add].
  assert (V : / Ropp 9999999999999 = - / 9999999999999) by field.
  unfold Rdiv. rewrite V. split; [lra|]. split; intros E; lra.
Qed.
