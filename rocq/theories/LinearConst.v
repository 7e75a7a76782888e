(** Linear molecules: the rotational constants of a run. *)
From Coq Require Import Reals Lra List ZArith Arith Lia Bool Permutation Sorted FunctionalExtensionality.
From Verif Require Import Num Loops ListFacts Index LoadFacts Modes ModesFacts ResFacts
  StatesFacts IndexFacts Anharm AnharmFacts EnergyFacts VibRot Distort Transform TransformFacts
  RotFacts NormalFacts HarmFacts ModeFacts ZeroFacts DistortFacts EckartFacts InertiaFacts SymAnharm
  Polyads Report OutputFacts VibRotFacts SymRotFacts Geom IrrepFacts Finish FinishFacts
  PerturbFacts PerturbLevels SymE0 SymExact VibPerturb SymVib SymPerturb SymLevels SymFacts RunFacts RunSecond RunRot TopRun AlignExact
  Threefold ThreeForm ThreeModes ThreeRun ThreeRot ThreeConst LinearModes LinearRun.
Import ListNotations.
Open Scope nat_scope.
Local Open Scope R_scope.

(** a bending vibration changes no moment of inertia *)
Lemma linear_slope N m ns ts V geom : on_axis N geom ->
  behaves (3 * N) (op stay (third (- (sqrt 3 / 2)))) (op stay flip) (sqrt 3 / 2) ns ts V ->
  forall s t c, In (s, t) ts -> wila N geom m V s c = 0 /\ wila N geom m V t c = 0.
Proof.
  intros Ax BV s t c H.
  assert (Z : forall k, (forall q, (q < N)%nat -> V (3 * q + 2)%nat k = 0) -> wila N geom m V k c = 0).
  { intros k Hk.
    assert (S0 : forall f : nat -> R, (forall q, (q < N)%nat -> f q = 0) -> Sum N f = 0) by (intros f Hf; apply Rsum_0; intros q Hq%in_seq; apply Hf; lia).
    assert (G : forall q, (q < N)%nat -> fst (fst (geom q)) = 0 /\ snd (fst (geom q)) = 0).
    { intros q Hq. destruct (Ax q Hq) as (z & ->). auto. }
    destruct c as [|[|[|[|[|c]]]]]; unfold wila; rewrite ?nsum_R, ?acc_sub_R, ?range_0, ?nz_R; cbn [nmul nadd nsub Rnum];
      rewrite S0; try ring; intros q Hq; destruct (G q Hq) as [G1 G2]; cbv beta; rewrite ?G1, ?G2; unfold cx, cy, cz; rewrite ?(Hk q Hq); ring. }
  split; apply Z; intros q Hq; apply (bend_plane N m ns ts V BV s t q H Hq).
Qed.
Lemma linear_zeta N (m : nat -> R) ns ts V :
  behaves (3 * N) (op stay (third (- (sqrt 3 / 2)))) (op stay flip) (sqrt 3 / 2) ns ts V ->
  forall s t s' t' x, In (s, t) ts -> In (s', t') ts -> (x < 2)%nat -> zeta_of N V s s' x = 0.
Proof.
  intros BV s t s' t' x H H' Hx. unfold zeta_of. apply Rsum_0. intros q Hq%in_seq.
  destruct (bend_plane N m ns ts V BV s t q H ltac:(lia)) as [Z _], (bend_plane N m ns ts V BV s' t' q H' ltac:(lia)) as [Z' _].
  destruct x as [|[|x]]; try lia; rewrite Z, Z'; ring.
Qed.
Lemma linear_axial N m ns ts V geom J : on_axis N geom -> J 0%nat = J 1%nat ->
  behaves (3 * N) (op stay (third (- (sqrt 3 / 2)))) (op stay flip) (sqrt 3 / 2) ns ts V ->
  axial_inertia ns ts (wila N geom m V) J 1.
Proof.
  intros Ax EJ BV.
  pose proof (axial_inertia_3 N m _ stay stay (linear_c3v N m) geom (linear_placed N geom _ Ax) (sqrt 3 / 2) ns ts V h3 BV J EJ) as [A1 A2 _ _ _ _].
  pose proof (linear_slope N m ns ts V geom Ax BV) as Z.
  constructor; try assumption; try lia; intros s t H;
    repeat match goal with |- context [wila N geom m V s ?c] => rewrite (proj1 (Z s t c H)) end;
    repeat match goal with |- context [wila N geom m V t ?c] => rewrite (proj2 (Z s t c H)) end; repeat split; ring.
Qed.

Section Consts.
  Context {I : Type}.
  Variable eig2 : R -> R -> R -> R * R * (R * R).

  Lemma finish_rot_linear m freql f3l f4l (irreps : list I) lxm lx o K lam rep :
    let n := m_nvib m in
    let w := fun i => nth i freql 0 in
    let zeta := zeta_of (m_natom m) lxm in
    let wl := wila (m_natom m) (m_geom m) (m_w m) lxm in
    let B := m_rotcon m in
    let J := m_primat m in
    let modes := rs_modes (out_resonances o) in
    let f3 := fun i j k => nth (find3 i j k) f3l 0 in
    let f4 := fun i j k l => nth (find4 i j k l) f4l 0 in
    let listed := nondeg modes ++ firsts modes in
    m_rotor m = Linear ->
    finish eig2 false m freql f3l f4l irreps lxm lx = Some o ->
    restst_tables n (ioff (n + 1)) modes = Some (rs_tables (out_resonances o)) ->
    top_field n modes w f3 f4 zeta B (m_rotor m) wl ->
    axial_inertia (nondeg modes) (degs modes) wl J 1 ->
    linear_inertia (degs modes) wl zeta ->
    (forall i j, (i < n)%nat -> (j < n)%nat -> i <> j -> ~ In (i, j) (degs modes) -> ~ In (j, i) (degs modes) -> w i <> w j) ->
    rs_coriolis (out_resonances o) = [] ->
    2 * K * lam ^ 2 = 1 -> 0 < J 1%nat -> B 1%nat = K / J 1%nat ->
    (forall i j, rep i j = true <-> In (i, j) (degs modes) \/ In (j, i) (degs modes)) ->
    let a := fun k y z => wl k (acol y z) in
    let value := fun v x => rot_const n w f3 zeta a J K lam rep x v + rounding_term n B w a f3 lam x v in
    map rot_state (out_rots o) =
      I1st (repeat 0%nat n)
      :: map (fun p => I1st (unit1 n p 1)) (seq 0 (length (nondeg modes)))
      ++ map (fun p => I2st (punit1 n p (1, 1)%nat)) (seq 0 (length (firsts modes))) /\
    forall p c, nth_error (out_rots o) p = Some c ->
      let v := excited listed p in
      rot_b c + B 1%nat = / 2 * (value v 0%nat + value v 1%nat).
  Proof.
    intros n w zeta wl B J modes f3 f4 listed Hr E Et TF AI LI apart Hc HK HJ HB Hrep a value.
    destruct (finish_inv _ _ _ _ _ _ _ _ _ E) as (sym & xm & g & e0 & lev & eng & rows & Eq & _ & Es & _ & _ & _ & _ & _ & Ea & Eo & _).
    assert (Q0 : bxs (out_quartic o) = 0).
    { rewrite Hr in Eq. unfold quartic_new in Eq.
      destruct (princ_cart 2) as [[cc dd]|] eqn:Ep; [|discriminate].
      cbn [obind is_linear is_diatomic] in Eq. rewrite Ep in Eq. cbn [obind] in Eq.
      destruct (make_t _ _ _) as [t|]; [|discriminate]. cbn [obind] in Eq. apply some_eq3 in Eq. rewrite <- Eq.
      cbn [quartic_linear bxs]. apply nz_R. }
    assert (Hs : is_sym_top (m_rotor m) = Some true) by (rewrite Hr; reflexivity).
    assert (Hsp : is_spherical_top (m_rotor m) = false) by (rewrite Hr; reflexivity).
    rewrite Hs in Es. injection Es as <-. cbn [orb] in Ea, Eo. rewrite Hsp in Eo.
    assert (Wf : (fun i => nth i freql (nz 0)) = w) by (unfold w; rewrite nz_R; reflexivity).
    assert (F3 : (fun i j k => nth (find3 i j k) f3l (nz 0)) = f3) by (unfold f3; rewrite nz_R; reflexivity).
    assert (Z : zmat (m_natom m) lxm = zeta).
    { unfold zeta. extensionality i. extensionality j. extensionality b. apply zeta_of_zmat. }
    rewrite Wf, F3, Z, Hc in Ea. fold modes B J wl in Ea, Eo.
    set (q := out_quartic o) in *.
    destruct (rots_lemma n modes (m_rotor m) B J w wl zeta f3 [] (bxs q) (bys q) (bzs q)
      (tf_modes _ _ _ _ _ _ _ _ _ TF)) as (t & rows' & out & gg & Et' & Ea' & Eo' & St & Cs & _).
    { rewrite Hr; discriminate. } { rewrite Hr; discriminate. }
    assert (t = rs_tables (out_resonances o)) as -> by congruence.
    rewrite Ea in Ea'. apply some_eq3 in Ea'. subst rows'.
    rewrite Eo in Eo'. apply some_eq3 in Eo'. rewrite <- Eo' in St, Cs.
    split. { rewrite St. unfold firsts. now rewrite map_length. }
    intros p c Hp v.
    assert (Hst : nth_error (map rot_state (out_rots o)) p = Some (rot_state c)) by (rewrite nth_error_map, Hp; reflexivity).
    rewrite St in Hst.
    pose proof (excited_filled n modes w f3 f4 zeta B (m_rotor m) wl TF p _ Hst) as Fi.
    fold listed in Fi. fold v in Fi.
    assert (Wd : wide modes (rot_state c)).
    { pose proof (part_counts n modes (tf_modes _ _ _ _ _ _ _ _ _ TF)) as Hcn. rewrite n1dm_len, n2dm_len in Hcn.
      unfold wide. apply nth_error_In in Hst. destruct Hst as [<-|[H|H]%in_app_or].
      - cbn [state_i1 state_i2]. rewrite !repeat_length. lia.
      - apply in_map_iff in H as (y & <- & _). cbn [state_i1 state_i2]. unfold unit1. rewrite !repeat_length, map_length, seq_length. lia.
      - apply in_map_iff in H as (y & <- & _). cbn [state_i1 state_i2]. unfold punit1. rewrite !repeat_length, map_length, seq_length. lia. }
    assert (Hns : m_rotor m <> SphericalTop) by (rewrite Hr; discriminate).
    assert (Aw : forall s, In s [rot_state c] -> wide modes s) by (intros s [<-|[]]; exact Wd).
    assert (AI' : axial_inertia (nondeg modes) (degs modes) wl J (if is_prolate (m_rotor m) then 0%nat else 1%nat)) by (rewrite Hr; exact AI).
    destruct (states_lemma n modes w f3 f4 zeta B J (m_rotor m) wl TF AI' (fun _ => LI) apart K lam rep HK HJ HB Hrep
      [rot_state c] 0 (rot_state c) v Hns Aw eq_refl Fi) as (rows2 & row & Er2 & Hrow & Sr & _).
    rewrite (alphas_R modes (m_rotor m) B J w wl zeta f3 [] [rot_state c] Hns Aw) in Er2. apply some_eq3 in Er2. subst rows2.
    cbn [map nth_error] in Hrow. apply some_eq3 in Hrow. subst row.
    destruct (Cs c (nth_error_In _ _ Hp)) as (C1 & _). cbv zeta in C1. rewrite C1, Q0.
    unfold sym_row in Sr. cbn [fst snd] in Sr.
    assert (RO : forall x, rounding n B w wl f3 lam x v = rounding_term n B w a f3 lam x v) by reflexivity.
    rewrite (RO 0%nat), (RO 1%nat) in Sr. fold a in Sr. unfold value.
    match type of Sr with _ + ?u = _ => match goal with |- _ + ?u' + _ = _ => change u' with u end end. lra.
  Qed.
End Consts.

(** ** the whole run *)
Section RunConst.
  Context {I : Type}.
  Variables (eig2 : R -> R -> R -> R * R * (R * R))
    (eig : (nat -> nat -> R) -> list R * (nat -> nat -> R))
    (label : (nat -> R * R * R) -> (nat -> nat -> R) -> nat -> R -> option I) (A : I).

  Lemma run_linear_const m axes iatom order buddy fc2 f3x f4x freq l0 K lam rep :
    let N := m_natom m in
    let n := m_nvib m in
    let B := m_rotcon m in
    let J := m_primat m in
    let w := fun i => nth i freq 0 in
    let g2 := con2 (3 * N) (every_atom axes) fc2 in
    let g3 := con3 (3 * N) (every_atom axes) f3x in
    let g4 := con4 (3 * N) (every_atom axes) f4x in
    m_rotor m = Linear ->
    (0 < N)%nat -> (0 < n <= 3 * N)%nat ->
    (forall q, (q < N)%nat -> 0 < m_w m q) ->
    on_axis N (m_geom m) -> B 0%nat = B 1%nat -> J 0%nat = J 1%nat ->
    (iatom < N)%nat ->
    sym2 (3 * N) fc2 -> tsym3 (3 * N) f3x -> tsym4 (3 * N) f4x ->
    axially_symmetric N g2 g3 g4 ->
    orth 3 axes -> rotation_free N fc2 (input_position axes (m_geom m)) ->
    solves (3 * N) eig (secular N axes fc2 (m_w m)) ->
    harmonic N axes fc2 (m_w m) eig = Some (freq, l0) ->
    linear_modes N n iatom w l0 ->
    (forall i j k, (i < n)%nat -> (j < n)%nat -> (k < n)%nat -> w i + w j <> w k) ->
    2 * K * lam ^ 2 = 1 -> 0 < J 1%nat -> B 1%nat = K / J 1%nat ->
    (forall i j, rep i j = true <-> (i < n)%nat /\ (j < n)%nat /\ i <> j /\ w i = w j) ->
    exists fuel0 lx,
      let hess := fun a b => FACT2 * g2 a b in
      let F3 := cubic_spec (3 * N) g3 lx w in
      let zeta := zeta_of N (fun a i => sqrt (m_w m (a / 3)%nat) * lx a i) in
      (forall i j, (i < 3 * N)%nat -> (j < 3 * N)%nat ->
         Sum (3 * N) (fun a => m_w m (a / 3)%nat * lx a i * lx a j) = (if Nat.eqb i j then 1 else 0)) /\
      (forall i j, (i < 3 * N)%nat -> (j < 3 * N)%nat -> i <> j -> con2 (3 * N) lx hess i j = 0) /\
      (forall i, (i < 3 * N)%nat -> nth_error freq i = Some (to_wavenumber (con2 (3 * N) lx hess i i))) /\
      StronglySorted Rge freq /\
      forall fuel, (fuel0 <= fuel)%nat ->
      exists o, run eig2 eig label A fuel buddy false m axes iatom order (Quartic fc2 f3x f4x) = Some (FullResult o) /\
      let modes := rs_modes (out_resonances o) in
      (forall i j, In (i, j) (degs modes) <-> (i < j < n)%nat /\ w i = w j) /\
      (forall i, In i (nondeg modes) <-> (i < n)%nat /\ forall j, (j < n)%nat -> j <> i -> w j <> w i) /\
      ((forall i j, (i < n)%nat -> (j < n)%nat -> w i = w j \/ 200 < Rabs (w i - w j)) -> rs_coriolis (out_resonances o) = []) /\
      (rs_coriolis (out_resonances o) = [] ->
       forall a, inertia_slope N n (m_w m) (m_geom m) lx a ->
       let value := fun v x => rot_const n w F3 zeta a J K lam rep x v + rounding_term n B w a F3 lam x v in
       map rot_state (out_rots o) =
         I1st (repeat 0%nat n)
         :: map (fun p => I1st (unit1 n p 1)) (seq 0 (length (nondeg modes)))
         ++ map (fun p => I2st (punit1 n p (1, 1)%nat)) (seq 0 (length (firsts modes))) /\
       forall p c, nth_error (out_rots o) p = Some c ->
         let v := excited (nondeg modes ++ firsts modes) p in
         rot_b c + B 1%nat = / 2 * (value v 0%nat + value v 1%nat)).
  Proof.
    intros N n B J w g2 g3 g4 Hr HN Hn Hw Ax HB J01 Hi S2 S3 S4 AS Ho Hf Sv Eh TM Dw HK HJ BJ Hrep.
    destruct (run_linear_core eig2 eig label A m axes iatom order buddy fc2 f3x f4x freq l0 Hr HN Hn Hw Ax HB Hi S2 S3 S4 AS Sv Eh TM Dw)
      as (f0 & lx & V & h & Q1 & Q2 & Q3 & Q4 & Lf & Ef & SA & ES & ESV & ML & Z & Q).
    assert (Pw : forall i, (i < n)%nat -> 0 < w i) by (intros i Hi'; pose proof (lm_w _ _ _ _ _ TM i Hi'); lra).
    assert (Eck : forall k, (k < n)%nat -> eckart N (m_geom m) (m_w m) V k).
    { intros k Hk. destruct (nth_error h k) as [x|] eqn:Ex.
      2:{ apply nth_error_None in Ex. rewrite <- Ef, map_length in Lf. lia. }
      apply (eigen_eckart N axes fc2 (m_w m) (m_geom m) h V S2 Hw Ho Hf ESV k x Ex).
      intros ->. pose proof (Pw k Hk) as P. unfold w in P. rewrite <- Ef in P.
      rewrite (nth_error_nth _ _ 0 (map_nth_error to_wavenumber _ _ Ex)) in P.
      assert (to_wavenumber 0 = 0) by now apply wavenumber_0. lra. }
    exists f0, lx. cbv zeta. split; [exact Q1|]. split; [exact Q2|]. split; [exact Q3|]. split; [exact Q4|].
    intros fuel Hfu. destruct (Q fuel Hfu) as (o & f3l & f4l & irreps & Er & Eo & HD & HS & BV & X3 & X4 & Et & TF). clear Q.
    exists o. split; [exact Er|]. split; [exact HD|]. split; [exact HS|].
    split. { exact (finish_far_any eig2 m freq f3l f4l irreps V lx o (or_intror (or_intror Hr)) Eo TF HD). }
    intros Nc a Ha.
    set (modes := rs_modes (out_resonances o)) in *.
    set (F3 := cubic_spec (3 * N) g3 lx w) in *.
    set (zeta := zeta_of N (fun a i => sqrt (m_w m (a / 3)%nat) * lx a i)) in *.
    assert (K0 : K <> 0) by (intros ->; lra).
    pose proof (linear_axial N (m_w m) (nondeg modes) (degs modes) V (m_geom m) J Ax J01 BV) as AI.
    assert (LI : linear_inertia (degs modes) (wila N (m_geom m) (m_w m) V) (zeta_of N V)).
    { split.
      - intros s t c H. apply (linear_slope N (m_w m) _ _ V _ Ax BV s t c H).
      - intros s t s' t' x H H' Hx. exact (linear_zeta N (m_w m) _ _ V BV s t s' t' x H H' Hx). }
    assert (Wa : forall k y z, (k < n)%nat -> (y < 3)%nat -> (z < 3)%nat -> wila N (m_geom m) (m_w m) V k (acol y z) = a k y z).
    { intros k y z Hk Hy Hz. symmetry. apply (slope_wila N (m_w m) (m_geom m) V k lx y z); auto.
      intros b Hb. apply ML; lia. }
    assert (Hap : forall i j, (i < n)%nat -> (j < n)%nat -> i <> j -> ~ In (i, j) (degs modes) -> ~ In (j, i) (degs modes) -> w i <> w j).
    { intros i j Hi' Hj Ne N1 N2 Ew. destruct (Nat.lt_trichotomy i j) as [L|[L|L]]; [apply N1, HD; auto|contradiction|apply N2, HD; auto]. }
    assert (Hr2 : forall i j, rep i j = true <-> In (i, j) (degs modes) \/ In (j, i) (degs modes)).
    { intros i j. rewrite Hrep, !HD. split.
      - intros (Hi' & Hj & Ne & Ew). destruct (Nat.lt_trichotomy i j) as [L|[L|L]]; [left; auto|contradiction|right; auto].
      - intros [[L E]|[L E]]; repeat split; auto; lia. }
    destruct (finish_rot_linear eig2 m freq f3l f4l irreps V lx o K lam rep Hr Eo Et TF AI LI Hap Nc HK HJ BJ Hr2) as [St Cs].
    fold modes n in St. split; [exact St|].
    intros p c Hp. pose proof (Cs p c Hp) as C1. cbv beta zeta in C1. fold modes N n w B J in C1.
    set (v := excited (nondeg modes ++ firsts modes) p) in *.
    assert (RC : forall x, (x < 3)%nat ->
      rot_const n w (fun i j k => nth (find3 i j k) f3l 0) (zeta_of N V) (fun k y z => wila N (m_geom m) (m_w m) V k (acol y z)) J K lam rep x v
      = rot_const n w F3 zeta a J K lam rep x v).
    { intros x Hx. apply rot_const_ext; auto. intros. symmetry. now apply X3. }
    assert (RT : forall x, (x < 3)%nat ->
      rounding_term n B w (fun k y z => wila N (m_geom m) (m_w m) V k (acol y z)) (fun i j k => nth (find3 i j k) f3l 0) lam x v
      = rounding_term n B w a F3 lam x v).
    { intros x Hx. unfold rounding_term. f_equal. apply Rsum_ext. intros i Hi'%in_seq. apply Rsum_ext. intros l Hl%in_seq.
      rewrite Wa by lia. rewrite X3 by lia. reflexivity. }
    rewrite !RC, !RT in C1 by lia. exact C1.
  Qed.
End RunConst.
