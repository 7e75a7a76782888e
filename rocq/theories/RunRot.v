(** The rotational constants reported by a run on an asymmetric top. *)
From Coq Require Import Reals Lra List ZArith Arith Lia Bool Permutation Sorted FunctionalExtensionality.
From Verif Require Import Num Loops ListFacts Index IndexFacts LoadFacts Modes ModesFacts StatesFacts ResFacts Anharm AnharmFacts
  VibRot VibRotFacts Distort DistortFacts Transform TransformFacts RotFacts NormalFacts HarmFacts ModeFacts ZeroFacts
  InertiaFacts EckartFacts Report Polyads Geom IrrepFacts Finish FinishFacts RunFacts PerturbFacts PerturbSum PerturbLevels
  VanVleck VibPerturb SymE0 RunSecond ReportFacts.
Import ListNotations.
Open Scope nat_scope.
Local Open Scope R_scope.

Lemma mixed_ext n w skip op op' v u : op (ket n v) u = op' (ket n v) u ->
  mixed n w skip op v u = mixed n w skip op' v u.
Proof. intros E. unfold mixed. now rewrite E. Qed.
Lemma cubic_psi n f3 psi psi' u : (forall u, psi u = psi' u) -> cubic n f3 psi u = cubic n f3 psi' u.
Proof. intros E. assert (psi = psi') as -> by (extensionality q; apply E). reflexivity. Qed.

Lemma rot_const_ext n w f3 f3' zeta zeta' a a' I K lam rep x v :
  (x < 3)%nat ->
  (forall i j k, (i < n)%nat -> (j < n)%nat -> (k < n)%nat -> f3 i j k = f3' i j k) ->
  (forall i j a, (i < n)%nat -> (j < n)%nat -> zeta i j a = zeta' i j a) ->
  (forall k y z, (k < n)%nat -> (y < 3)%nat -> (z < 3)%nat -> a k y z = a' k y z) ->
  rot_const n w f3 zeta a I K lam rep x v = rot_const n w f3' zeta' a' I K lam rep x v.
Proof.
  intros Hx E3 Ez Ea.
  assert (M1 : forall k, (k < n)%nat -> mu1 a I x k = mu1 a' I x k) by (intros; unfold mu1; now rewrite Ea by lia).
  assert (M2 : forall k l, (k < n)%nat -> (l < n)%nat -> mu2 a I x k l = mu2 a' I x k l)
    by (intros; unfold mu2; now rewrite !Ea by lia).
  assert (T : forall psi psi' u, (forall u, psi u = psi' u) -> tilt n w a I K lam x psi u = tilt n w a' I K lam x psi' u).
  { intros psi psi' u P. assert (psi = psi') as -> by (extensionality q; apply P). unfold tilt. apply Rsum_ext. intros k Hk%in_seq.
    now rewrite M1 by lia. }
  assert (Bd : forall psi u, bend n w a I K lam x psi u = bend n w a' I K lam x psi u).
  { intros psi u. unfold bend. apply Rsum_ext. intros k Hk%in_seq. apply Rsum_ext. intros l Hl%in_seq. now rewrite M2 by lia. }
  unfold rot_const. rewrite Bd.
  rewrite (cubic_ext n f3 f3') by exact E3.
  rewrite (cubic_psi n f3' _ (mixed n w every (tilt n w a' I K lam x) v)) by (intros; apply mixed_ext, T; reflexivity).
  rewrite (T _ (mixed n w every (cubic n f3') v)) by (intros; apply mixed_ext, cubic_ext, E3).
  rewrite (angular_ext n w zeta zeta' x _ (mixed n w (exchanged n rep v) (angular n w zeta' x) v)); [reflexivity|exact Ez|].
  intros u. apply mixed_ext, angular_ext; [exact Ez|reflexivity].
Qed.

Lemma zeta_of_anti N l i j a : zeta_of N l i j a = - zeta_of N l j i a.
Proof.
  unfold zeta_of. transitivity (-1 * Sum N (fun q => match a with
    | 0%nat => l (3 * q + 1)%nat j * l (3 * q + 2)%nat i - l (3 * q + 2)%nat j * l (3 * q + 1)%nat i
    | 1%nat => l (3 * q + 2)%nat j * l (3 * q)%nat i - l (3 * q)%nat j * l (3 * q + 2)%nat i
    | _ => l (3 * q)%nat j * l (3 * q + 1)%nat i - l (3 * q + 1)%nat j * l (3 * q)%nat i
    end)); [|ring].
  rewrite <- Rsum_scal. apply Rsum_ext. intros q _. destruct a as [|[|a]]; ring.
Qed.

(** the states of the reported constants: no quantum, then one quantum in each mode *)
Definition reported_state (k : nat) : occ := match k with O => ground | S p => one p end.

(** what the rounding of the constant 0.086112 adds *)
Definition rounding_term (n : nat) (B w : nat -> R) (a : nat -> nat -> nat -> R) (f3 : nat -> nat -> nat -> R) (lam : R) (x : nat) (v : occ) : R :=
  (2 * (86112 / 1000000) - lam) * B x ^ 2 * Sum n (fun i => Sum n (fun k =>
    a k x x * f3 i i k / (w k * sqrt (w k)) * (INR (v i) + / 2))).

Section Rot.
  Context {I : Type}.
  Variable eig2 : R -> R -> R -> R * R * (R * R).

  Lemma finish_rots m freql f3l f4l (irreps : list I) lxm lx o : m_rotor m = AsymmTop -> (2 < nth 7 (m_header m) 4)%Z ->
    finish eig2 false m freql f3l f4l irreps lxm lx = Some o -> length (out_rots o) = (m_nvib m + 1)%nat.
  Proof.
    intros Hr Hd E.
    destruct (finish_inv _ _ _ _ _ _ _ _ _ E) as (sym & xm & g & e0 & lev & eng & rows & _ & Er & Es & _ & _ & _ & _ & _ & Ea & Eo & _).
    rewrite Hr in *. cbn in Es. injection Es as <-. cbn [orb is_diatomic] in Ea, Eo.
    set (n := m_nvib m) in *. set (rs := out_resonances o) in *.
    assert (Em : rs_modes rs = singles n /\ restst_tables n (ioff (n + 1)) (singles n) = Some (rs_tables rs)).
    { unfold restst_new in Er. rewrite deg_modes_asym_lemma in Er by auto. cbn [obind] in Er.
      do 4 (match type of Er with obind ?a _ = _ => destruct a; [|discriminate] end; cbn [obind] in Er).
      match type of Er with obind ?a _ = _ => destruct a as [t|] eqn:Et; [|discriminate] end. cbn [obind] in Er.
      injection Er as <-. split; [reflexivity|exact Et]. }
    destruct Em as [Em Et]. rewrite Em in *.
    destruct (states_asym_lemma n) as (t & vs & Et' & Hs & _ & Hin & Hl & Hv).
    rewrite Et in Et'. injection Et' as <-. rewrite Hs in *.
    assert (Ln : (n + 1 <= length vs)%nat) by (rewrite Hl; lia).
    assert (Lv : forall v, In v vs -> length v = n) by (intros v Q; now apply Hin in Q).
    rewrite alphaa_R in Ea by assumption. injection Ea as <-.
    rewrite rota_R in Eo by assumption. injection Eo as Eo.
    rewrite <- Eo. now rewrite map_length, seq_length.
  Qed.

  Lemma finish_rot m freql f3l f4l (irreps : list I) lxm lx o F3 K lam :
    let n := m_nvib m in
    let w := fun i => nth i freql 0 in
    let zeta := zeta_of (m_natom m) lxm in
    let a := fun k y z => wila (m_natom m) (m_geom m) (m_w m) lxm k (acol y z) in
    let B := m_rotcon m in
    let J := m_primat m in
    let cor := rs_coriolis (out_resonances o) in
    let q := out_quartic o in
    m_rotor m = AsymmTop -> (2 < nth 7 (m_header m) 4)%Z ->
    finish eig2 false m freql f3l f4l irreps lxm lx = Some o ->
    (forall i j k, (i < n)%nat -> (j < n)%nat -> (k < n)%nat -> f3qcm_get f3l i j k = Some (F3 i j k)) ->
    (forall i, (i < n)%nat -> 0 < w i) ->
    (forall y, (y < 3)%nat -> 0 < J y) -> (forall y, (y < 3)%nat -> B y = K / J y) -> 2 * K * lam ^ 2 = 1 ->
    forall x rep, (x < 3)%nat ->
    (forall i j, (i < n)%nat -> (j < n)%nat -> one_axis cor i j) ->
    (forall i j, rep i j = true <-> VibRotFacts.listed cor i j x) ->
    (forall i j, (i < n)%nat -> (j < n)%nat -> i <> j -> rep i j = false -> w i <> w j) ->
    length (out_rots o) = (n + 1)%nat /\
    forall k r, nth_error (out_rots o) k = Some r ->
      (exists v, rot_state r = I1st v /\ length v = n /\ (fun i => nth i v 0%nat) = reported_state k) /\
      nth x [rot_a r; rot_b r; rot_c r] 0
      = nth x [bza q; bxa q; bya q] 0
        + (rot_const n w F3 zeta a J K lam rep x (reported_state k) - B x)
        + rounding_term n B w a F3 lam x (reported_state k).
  Proof.
    intros n w zeta a B J cor q Hr Hd E HF3 Hw HJ HB HK x rep Hx Hone Hrep Hap.
    destruct (finish_inv _ _ _ _ _ _ _ _ _ E) as (sym & xm & g & e0 & lev & eng & rows & _ & Er & Es & _ & _ & _ & _ & _ & Ea & Eo & _).
    rewrite Hr in *. cbn in Es. injection Es as <-. cbn [orb is_diatomic] in Ea, Eo.
    set (rs := out_resonances o) in *.
    assert (Em : rs_modes rs = singles n /\ restst_tables n (ioff (n + 1)) (singles n) = Some (rs_tables rs)).
    { unfold restst_new in Er. rewrite deg_modes_asym_lemma in Er by auto. cbn [obind] in Er.
      do 4 (match type of Er with obind ?a _ = _ => destruct a; [|discriminate] end; cbn [obind] in Er).
      match type of Er with obind ?a _ = _ => destruct a as [t|] eqn:Et; [|discriminate] end. cbn [obind] in Er.
      injection Er as <-. split; [reflexivity|exact Et]. }
    destruct Em as [Em Et]. rewrite Em in *.
    destruct (states_asym_lemma n) as (t & vs & Et' & Hs & _ & Hin & Hl & Hv).
    rewrite Et in Et'. injection Et' as <-.
    set (f3 := fun i j k => nth (find3 i j k) f3l (nz 0)) in *.
    assert (Wf : (fun i => nth i freql (nz 0)) = w) by (unfold w; rewrite nz_R; reflexivity).
    rewrite Wf in *.
    assert (Z : zmat (m_natom m) lxm = zeta).
    { unfold zeta. extensionality i. extensionality j. extensionality b. apply zeta_of_zmat. }
    rewrite Z in *. rewrite Hs in *.
    assert (Ln : (n + 1 <= length vs)%nat) by (rewrite Hl; lia).
    assert (Lv : forall v, In v vs -> length v = n) by (intros v Q; now apply Hin in Q).
    fold n B J in Ea, Eo. rewrite alphaa_R in Ea by assumption. injection Ea as <-.
    rewrite rota_R in Eo by assumption. injection Eo as Eo.
    split. { rewrite <- Eo. now rewrite map_length, seq_length. }
    intros k r Hk. rewrite <- Eo in Hk.
    assert (Kn : (k < n + 1)%nat).
    { assert (Q : nth_error (map (fun m0 => const_rot n B J w (wila (m_natom m) (m_geom m) (m_w m) lxm) zeta f3 (rs_coriolis rs)
        (bxa (out_quartic o)) (bya (out_quartic o)) (bza (out_quartic o)) (nth m0 vs [])) (seq 0 (n + 1))) k <> None) by congruence.
      apply nth_error_Some in Q. now rewrite map_length, seq_length in Q. }
    rewrite nth_error_map_seq in Hk by exact Kn. injection Hk as <-.
    assert (Vk : (fun i => nth i (nth k vs []) 0%nat) = reported_state k).
    { rewrite Hv. destruct k as [|p]; cbn [app nth reported_state].
      - extensionality i. unfold ground. destruct (Nat.lt_ge_cases i n) as [L|L].
        + apply nth_repeat.
        + apply nth_overflow. rewrite repeat_length. lia.
      - rewrite app_nth1 by (rewrite map_length, seq_length; lia).
        rewrite (nth_indep _ [] (unit1 n 0 1)) by (rewrite map_length, seq_length; lia).
        rewrite (map_nth (fun i => unit1 n i 1)), seq_nth by lia. apply unit1_one. lia. }
    split.
    { exists (nth k vs []). unfold const_rot. cbn [rot_state]. split; [reflexivity|]. split; [|exact Vk].
      apply Lv, nth_In. lia. }
    assert (F3f : forall i j k, (i < n)%nat -> (j < n)%nat -> (k < n)%nat -> f3 i j k = F3 i j k).
    { intros i j l Hi Hj Hl'. specialize (HF3 i j l Hi Hj Hl'). unfold f3qcm_get in HF3. unfold f3.
      now apply nth_error_nth. }
    assert (f3a : forall i j k, f3 i j k = f3 j i k).
    { intros i j l. unfold f3. f_equal. apply find3_perm. apply perm_swap. }
    assert (f3b : forall i j k, f3 i j k = f3 i k j).
    { intros i j l. unfold f3. f_equal. apply find3_perm. apply perm_skip, perm_swap. }
    pose proof (state_constant n B J w (wila (m_natom m) (m_geom m) (m_w m) lxm) zeta f3 (rs_coriolis rs) K lam x rep Hx Hw HJ HB HK
      f3a f3b (zeta_of_anti (m_natom m) lxm) Hone Hrep Hap (reported_state k)) as SC.
    assert (RE : rounding n B w (wila (m_natom m) (m_geom m) (m_w m) lxm) f3 lam x (reported_state k)
      = rounding_term n B w a F3 lam x (reported_state k)).
    { unfold rounding, rounding_term, a. f_equal. apply Rsum_ext. intros i Hi%in_seq. apply Rsum_ext. intros l Hl'%in_seq.
      now rewrite F3f by lia. }
    rewrite RE in SC. fold a in SC.
    rewrite (rot_const_ext n w f3 F3 zeta zeta _ a) in SC by (auto; reflexivity).
    assert (VS : vib_sum n (fun i => alpha n B J w (wila (m_natom m) (m_geom m) (m_w m) lxm) zeta f3 (rs_coriolis rs) i x) (nth k vs [])
      = Sum n (fun i => alpha n B J w (wila (m_natom m) (m_geom m) (m_w m) lxm) zeta f3 (rs_coriolis rs) i x * (INR (reported_state k i) + / 2))).
    { rewrite <- Vk. reflexivity. }
    rewrite <- VS in SC.
    transitivity (nth x [bza q; bxa q; bya q] 0 + vib_sum n (fun i => alpha n B J w (wila (m_natom m) (m_geom m) (m_w m) lxm) zeta f3 (rs_coriolis rs) i x) (nth k vs [])).
    - unfold const_rot. cbn [rot_a rot_b rot_c]. destruct x as [|[|[|x]]]; [reflexivity..|lia].
    - lra.
  Qed.
End Rot.

(** the geometry displaced by [t] along column [k] of the normal modes *)
Definition displaced (geom : nat -> R * R * R) (lx : nat -> nat -> R) (k : nat) (t : R) (i : nat) : R * R * R :=
  (comp (geom i) 0 + t * lx (3 * i)%nat k, comp (geom i) 1 + t * lx (3 * i + 1)%nat k,
   comp (geom i) 2 + t * lx (3 * i + 2)%nat k).
(** [a k y z]: derivative of the element [y], [z] of the inertia tensor along mode [k] *)
Definition inertia_slope (N n : nat) (mw : nat -> R) (geom : nat -> R * R * R) (lx : nat -> nat -> R)
  (a : nat -> nat -> nat -> R) : Prop :=
  forall k y z, (k < n)%nat -> (y < 3)%nat -> (z < 3)%nat ->
    derivable_pt_lim (fun t => inertia N mw (displaced geom lx k t) y z) 0 (a k y z).

Lemma parabola_slope c b d : derivable_pt_lim (fun t => c + t * b + t ^ 2 * d) 0 b.
Proof.
  intros eps He. assert (P : 0 < eps / (Rabs d + 1)).
  { apply Rdiv_lt_0_compat; [exact He|]. pose proof (Rabs_pos d). lra. }
  exists (mkposreal _ P). intros h Hh Hl. cbn in Hl.
  replace ((c + (0 + h) * b + (0 + h) ^ 2 * d - (c + 0 * b + 0 ^ 2 * d)) / h - b) with (h * d) by (field; exact Hh).
  rewrite Rabs_mult. pose proof (Rabs_pos d) as Pd. pose proof (Rabs_pos h) as Ph.
  apply Rle_lt_trans with (Rabs h * (Rabs d + 1)); [nra|].
  apply (Rmult_lt_compat_r (Rabs d + 1)) in Hl; [|lra]. replace (eps / (Rabs d + 1) * (Rabs d + 1)) with eps in Hl by (field; lra).
  exact Hl.
Qed.

Lemma slope_wila N mw geom lxm k lx y z s :
  (forall i, (i < N)%nat -> 0 < mw i) -> eckart N geom mw lxm k -> (y < 3)%nat -> (z < 3)%nat ->
  (forall b, (b < 3 * N)%nat -> lx b k = lxm b k / sqrt (mw (b / 3)%nat)) ->
  derivable_pt_lim (fun t => inertia N mw (displaced geom lx k t) y z) 0 s ->
  s = wila N geom mw lxm k (acol y z).
Proof.
  intros Hm Ek Hy Hz Hlx D.
  assert (Q : (fun t => inertia N mw (displaced geom lx k t) y z)
    = (fun t => inertia N mw geom y z + t * wila N geom mw lxm k (acol y z) + t ^ 2 * quadratic N lxm k y z)).
  { extensionality t. rewrite <- inertia_lemma by assumption. unfold inertia. apply Rsum_ext. intros i Hi%in_seq.
    assert (E : displaced geom lx k t i = along geom mw lxm k t i).
    { unfold displaced, along. rewrite !Hlx by lia.
      replace (3 * i / 3)%nat with i by (rewrite Nat.mul_comm, Nat.div_mul; lia).
      replace ((3 * i + 1) / 3)%nat with i by (rewrite Nat.mul_comm, Nat.div_add_l by lia; cbn; lia).
      replace ((3 * i + 2) / 3)%nat with i by (rewrite Nat.mul_comm, Nat.div_add_l by lia; cbn; lia).
      unfold Rdiv. now rewrite !Rmult_assoc. }
    now rewrite E. }
  rewrite Q in D. eapply uniqueness_limite; [exact D|apply parabola_slope].
Qed.

Section RunRot.
  Context {I : Type}.
  Variables (eig2 : R -> R -> R -> R * R * (R * R))
    (eig : (nat -> nat -> R) -> list R * (nat -> nat -> R))
    (label : (nat -> R * R * R) -> (nat -> nat -> R) -> nat -> R -> option I) (A : I)
    (buddy : option nat).
  Context `{Trig R}.

  Lemma run_rot_full m axes iatom order fc2 f3x f4x K lam :
    let N := m_natom m in
    let n := m_nvib m in
    let B := m_rotcon m in
    let J := m_primat m in
    m_rotor m = AsymmTop -> (2 < nth 7 (m_header m) 4)%Z ->
    (0 < N)%nat -> (0 < n <= 3 * N)%nat ->
    (forall q, (q < N)%nat -> 0 < m_w m q) ->
    sym2 (3 * N) fc2 -> tsym3 (3 * N) f3x -> tsym4 (3 * N) f4x ->
    orth 3 axes -> rotation_free N fc2 (input_position axes (m_geom m)) ->
    solves (3 * N) eig (secular N axes fc2 (m_w m)) ->
    (forall y, (y < 3)%nat -> 0 < J y) -> (forall y, (y < 3)%nat -> B y = K / J y) -> 2 * K * lam ^ 2 = 1 ->
    exists fuel0 freq lx,
      let w := fun i => nth i freq 0 in
      let hess := fun a b => FACT2 * con2 (3 * N) (every_atom axes) fc2 a b in
      let F3 := cubic_spec (3 * N) (con3 (3 * N) (every_atom axes) f3x) lx w in
      let zeta := zeta_of N (fun a i => sqrt (m_w m (a / 3)%nat) * lx a i) in
      (forall i j, (i < 3 * N)%nat -> (j < 3 * N)%nat ->
         Sum (3 * N) (fun a => m_w m (a / 3)%nat * lx a i * lx a j) = (if Nat.eqb i j then 1 else 0)) /\
      (forall i j, (i < 3 * N)%nat -> (j < 3 * N)%nat -> i <> j -> con2 (3 * N) lx hess i j = 0) /\
      (forall i, (i < 3 * N)%nat -> nth_error freq i = Some (to_wavenumber (con2 (3 * N) lx hess i i))) /\
      StronglySorted Rge freq /\
      ((forall i, (i < n)%nat -> 0 < w i) ->
       forall fuel, (fuel0 <= fuel)%nat ->
       exists o, run eig2 eig label A fuel buddy false m axes iatom order (Quartic fc2 f3x f4x) = Some (FullResult o) /\
       length (out_rots o) = (n + 1)%nat /\
       (exists wl zm f3, quartic_new AsymmTop n B J w wl = Some (out_quartic o) /\
          sextic_new AsymmTop n (3 * N) B J w wl zm f3 = Some (out_sextic o) /\
          (forall a, inertia_slope N n (m_w m) (m_geom m) lx a ->
             forall k y z, (k < n)%nat -> (y < 3)%nat -> (z < 3)%nat -> wl k (acol y z) = a k y z) /\
          (forall i j b, (i < n)%nat -> (j < n)%nat -> zm i j b = zeta i j b) /\
          (forall u v k, f3 u v k = f3 v u k /\ f3 u v k = f3 u k v) /\
          forall u v k, (u < n)%nat -> (v < n)%nat -> (k < n)%nat -> f3 u v k = F3 u v k) /\
       let cor := rs_coriolis (out_resonances o) in
       let q := out_quartic o in
       forall a, inertia_slope N n (m_w m) (m_geom m) lx a ->
       forall x rep, (x < 3)%nat ->
       (forall i j, (i < n)%nat -> (j < n)%nat -> one_axis cor i j) ->
       (forall i j, rep i j = true <-> VibRotFacts.listed cor i j x) ->
       (forall i j, (i < n)%nat -> (j < n)%nat -> i <> j -> rep i j = false -> w i <> w j) ->
       forall k r, nth_error (out_rots o) k = Some r ->
         (exists v, rot_state r = I1st v /\ length v = n /\ (fun i => nth i v 0%nat) = reported_state k) /\
         nth x [rot_a r; rot_b r; rot_c r] 0
         = nth x [bza q; bxa q; bya q] 0
           + (rot_const n w F3 zeta a J K lam rep x (reported_state k) - B x)
           + rounding_term n B w a F3 lam x (reported_state k)).
  Proof.
    intros N n B J Hr Hd HN Hn Hw S2 S3 S4 Ho Hf Sv HJ HB HK.
    destruct labels_end_R as (f0 & Hf0).
    destruct (normal_modes_lemma N axes fc2 (m_w m) eig S2 Hw Sv) as (freq & lxm & Eh & Lf & M1 & M2 & M3 & M4).
    destruct (eckart_lemma N axes fc2 (m_w m) (m_geom m) eig S2 Hw Ho Sv Hf) as (freq' & lxm' & Eh' & Eck).
    rewrite Eh in Eh'. injection Eh' as <- <-.
    set (lx := make_lx (3 * N) (make_sqm (m_w m)) lxm) in *.
    exists f0, freq, lx. cbv zeta.
    split; [exact M1|]. split; [exact M2|]. split; [exact M3|]. split; [exact M4|].
    set (w := fun i => nth i freq 0). intros Pw fuel Hfu.
    assert (Wf : (fun i => nth i freq (nz 0)) = w) by (unfold w; rewrite nz_R; reflexivity).
    destruct (run_prefix eig2 eig label A fuel buddy false m axes iatom order (Quartic fc2 f3x f4x)
      freq lxm lxm lx) as (irreps & Li & _ & Er).
    { rewrite Hr; discriminate. } { rewrite Hr; discriminate. } { now apply Hf0. } { exact Eh. }
    { unfold aligned. rewrite Hr. split; reflexivity. }
    rewrite Wf in Er.
    destruct (force3_lemma (3 * N) (rot3rd N (3 * N) axes f3x) lx n w (proj1 Hn) (proj1 (proj2 (rot_sym_lemma N axes)) f3x S3))
      as (f3l & E3 & _ & G3).
    destruct (force4_lemma (3 * N) (rot4th N (3 * N) axes f4x) lx n w (proj1 Hn) (proj2 (proj2 (rot_sym_lemma N axes)) f4x S4))
      as (f4l & E4 & _ & G4).
    fold N n in Er. rewrite E3 in Er. cbn [obind] in Er. rewrite E4 in Er. cbn [obind] in Er.
    destruct (finish_total_lemma eig2 m freq f3l f4l irreps lxm lx (singles n)) as (o & Eo & _).
    { rewrite Hr; discriminate. } { rewrite Hr; discriminate. }
    { rewrite Hr. apply deg_modes_asym_lemma; auto. } { apply singles_part. } { apply comparable_R. }
    { fold n. lia. } { exact HN. } { intros _. exact Hd. }
    rewrite Eo in Er. cbn [obind] in Er. exists o. split; [exact Er|].
    set (F3 := cubic_spec (3 * N) (con3 (3 * N) (every_atom axes) f3x) lx w).
    assert (HF3 : forall i j k, (i < n)%nat -> (j < n)%nat -> (k < n)%nat -> f3qcm_get f3l i j k = Some (F3 i j k)).
    { intros i j k Hi Hj Hk. unfold F3. rewrite G3 by assumption. f_equal. unfold cubic_spec. f_equal.
      apply con3_g. intros. now apply rot3rd_lemma. }
    pose proof (finish_rot eig2 m freq f3l f4l irreps lxm lx o F3 K lam Hr Hd Eo HF3 Pw HJ HB HK) as Q. cbv zeta in Q.
    fold N n B J w in Q.
    assert (L : forall a i, (a < 3 * N)%nat -> (i < n)%nat -> lx a i = lxm a i / sqrt (m_w m (a / 3)%nat)).
    { intros a' i' Ha' Hi'. unfold lx. rewrite make_lx_eq by lia. unfold make_sqm. rewrite nz_R.
      cbn [nmul ndiv nsqrt Rnum].
      assert (0 < sqrt (m_w m (a' / 3)%nat)) by (apply sqrt_lt_R0, Hw, Nat.div_lt_upper_bound; lia).
      field. lra. }
    assert (Wa : forall a, inertia_slope N n (m_w m) (m_geom m) lx a -> forall k y z, (k < n)%nat -> (y < 3)%nat -> (z < 3)%nat ->
      wila N (m_geom m) (m_w m) lxm k (acol y z) = a k y z).
    { intros a Ha k' y z Hk' Hy Hz. symmetry. apply (slope_wila N (m_w m) (m_geom m) lxm k' lx y z); auto.
      apply (Eck k' (w k')); [unfold w; apply nth_error_nth'; rewrite Lf; lia|].
      apply Rgt_not_eq, Pw, Hk'. }
    split. { exact (finish_rots eig2 m freq f3l f4l irreps lxm lx o Hr Hd Eo). }
    assert (Z : forall i j b, (i < n)%nat -> (j < n)%nat ->
       zeta_of N lxm i j b = zeta_of N (fun a i => sqrt (m_w m (a / 3)%nat) * lx a i) i j b).
    { intros i j b Hi Hj.
      assert (L' : forall a i, (a < 3 * N)%nat -> (i < n)%nat -> lxm a i = sqrt (m_w m (a / 3)%nat) * lx a i).
      { intros a' i' Ha' Hi'. rewrite L by assumption.
        assert (0 < sqrt (m_w m (a' / 3)%nat)) by (apply sqrt_lt_R0, Hw, Nat.div_lt_upper_bound; lia).
        field. lra. }
      unfold zeta_of. apply Rsum_ext. intros p Hp%in_seq.
      rewrite (L' (3 * p)%nat i), (L' (3 * p + 1)%nat i), (L' (3 * p + 2)%nat i),
        (L' (3 * p)%nat j), (L' (3 * p + 1)%nat j), (L' (3 * p + 2)%nat j) by lia. reflexivity. }
    split.
    { destruct (finish_inv _ _ _ _ _ _ _ _ _ Eo) as (sym & xm & g & e0 & lev & eng & rows & Eq & _ & _ & _ & _ & _ & _ & _ & _ & _ & Es & _).
      rewrite Wf, Hr in Eq, Es. rewrite Lf in Es. do 3 eexists. split; [exact Eq|]. split; [exact Es|]. split; [exact Wa|].
      split; [intros; rewrite zeta_of_zmat; now apply Z|]. split.
      - intros u v k'. split; f_equal; apply find3_perm; [apply perm_swap|apply perm_skip, perm_swap].
      - intros u v k' Hu Hv Hk'. apply nth_error_nth. now apply HF3. }
    intros a Ha x rep Hx Hone Hrep Hap k r Hk.
    destruct (Q x rep Hx Hone Hrep Hap) as [_ Q1]. destruct (Q1 k r Hk) as [Q2 Q3]. split; [exact Q2|]. rewrite Q3.
    pose proof (Wa a Ha) as Wa'. clear Wa. rename Wa' into Wa.
    rewrite (rot_const_ext n w F3 F3 _ (zeta_of N (fun a i => sqrt (m_w m (a / 3)%nat) * lx a i)) _ a) by (auto; reflexivity).
    f_equal. unfold rounding_term. f_equal. apply Rsum_ext. intros i Hi%in_seq. apply Rsum_ext. intros l Hl%in_seq.
    now rewrite Wa by lia.
  Qed.
  Lemma run_rot_lemma m axes iatom order fc2 f3x f4x K lam :
    let N := m_natom m in
    let n := m_nvib m in
    let B := m_rotcon m in
    let J := m_primat m in
    m_rotor m = AsymmTop -> (2 < nth 7 (m_header m) 4)%Z ->
    (0 < N)%nat -> (0 < n <= 3 * N)%nat ->
    (forall q, (q < N)%nat -> 0 < m_w m q) ->
    sym2 (3 * N) fc2 -> tsym3 (3 * N) f3x -> tsym4 (3 * N) f4x ->
    orth 3 axes -> rotation_free N fc2 (input_position axes (m_geom m)) ->
    solves (3 * N) eig (secular N axes fc2 (m_w m)) ->
    (forall y, (y < 3)%nat -> 0 < J y) -> (forall y, (y < 3)%nat -> B y = K / J y) -> 2 * K * lam ^ 2 = 1 ->
    exists fuel0 freq lx,
      let w := fun i => nth i freq 0 in
      let hess := fun a b => FACT2 * con2 (3 * N) (every_atom axes) fc2 a b in
      let F3 := cubic_spec (3 * N) (con3 (3 * N) (every_atom axes) f3x) lx w in
      let zeta := zeta_of N (fun a i => sqrt (m_w m (a / 3)%nat) * lx a i) in
      (forall i j, (i < 3 * N)%nat -> (j < 3 * N)%nat ->
         Sum (3 * N) (fun a => m_w m (a / 3)%nat * lx a i * lx a j) = (if Nat.eqb i j then 1 else 0)) /\
      (forall i j, (i < 3 * N)%nat -> (j < 3 * N)%nat -> i <> j -> con2 (3 * N) lx hess i j = 0) /\
      (forall i, (i < 3 * N)%nat -> nth_error freq i = Some (to_wavenumber (con2 (3 * N) lx hess i i))) /\
      StronglySorted Rge freq /\
      ((forall i, (i < n)%nat -> 0 < w i) ->
       forall fuel, (fuel0 <= fuel)%nat ->
       exists o, run eig2 eig label A fuel buddy false m axes iatom order (Quartic fc2 f3x f4x) = Some (FullResult o) /\
       length (out_rots o) = (n + 1)%nat /\
       let cor := rs_coriolis (out_resonances o) in
       let q := out_quartic o in
       forall a, inertia_slope N n (m_w m) (m_geom m) lx a ->
       forall x rep, (x < 3)%nat ->
       (forall i j, (i < n)%nat -> (j < n)%nat -> one_axis cor i j) ->
       (forall i j, rep i j = true <-> VibRotFacts.listed cor i j x) ->
       (forall i j, (i < n)%nat -> (j < n)%nat -> i <> j -> rep i j = false -> w i <> w j) ->
       forall k r, nth_error (out_rots o) k = Some r ->
         (exists v, rot_state r = I1st v /\ length v = n /\ (fun i => nth i v 0%nat) = reported_state k) /\
         nth x [rot_a r; rot_b r; rot_c r] 0
         = nth x [bza q; bxa q; bya q] 0
           + (rot_const n w F3 zeta a J K lam rep x (reported_state k) - B x)
           + rounding_term n B w a F3 lam x (reported_state k)).
  Proof.
    intros N n B J Hr Hd HN Hn Hw S2 S3 S4 Ho Hf Sv HJ HB HK.
    destruct (run_rot_full m axes iatom order fc2 f3x f4x K lam Hr Hd HN Hn Hw S2 S3 S4 Ho Hf Sv HJ HB HK)
      as (f0 & freq & lx & M1 & M2 & M3 & M4 & M5).
    exists f0, freq, lx. cbv zeta. split; [exact M1|]. split; [exact M2|]. split; [exact M3|]. split; [exact M4|].
    intros Pw fuel Hfu. destruct (M5 Pw fuel Hfu) as (o & Eo & Lo & _ & Q). exists o. split; [exact Eo|]. split; [exact Lo|exact Q].
  Qed.
End RunRot.

(** two atoms on an axis, for the examples *)
Definition axis_geom (q : nat) : R * R * R := (0, 0, match q with O => 1 | _ => -1 end).
Lemma axis_free : rotation_free 2 good_f (input_position qturn axis_geom).
Proof.
  intros W HW a Ha. change (3 * 2)%nat with 6%nat in *.
  assert (E : W 2%nat 2%nat = 0) by (specialize (HW 2%nat 2%nat); lra).
  unfold Sum, good_f, input_position.
  six a; cbn -[Rplus Rmult Ropp]; rewrite E; ring.
Qed.
Lemma axis_centre x : (x < 3)%nat -> Sum 2 (fun q => bad_w q * comp (axis_geom q) x) = 0.
Proof. intros Hx. unfold Sum, bad_w. do 3 (destruct x as [|x]; [cbn; ring|]). lia. Qed.
Lemma axis_inertia x y : (x < 3)%nat -> (y < 3)%nat -> x <> y -> inertia 2 bad_w axis_geom x y = 0.
Proof.
  intros Hx Hy D. unfold inertia, bad_w.
  do 3 (destruct x as [|x]; [do 3 (destruct y as [|y]; [try (exfalso; lia); cbn; ring|]); lia|]). lia.
Qed.
Lemma axis_about x : In x [0%nat; 1%nat] -> (x < 3)%nat /\ 0 < inertia 2 bad_w axis_geom x x.
Proof.
  intros [<-|[<-|[]]]; (split; [lia|]); unfold inertia, bad_w; cbn; lra.
Qed.
