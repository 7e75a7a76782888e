(** Molecules with a threefold axis and a mirror plane: the whole run. *)
From Coq Require Import Reals Lra List ZArith Arith Lia Bool Permutation Sorted.
From Verif Require Import Num Loops ListFacts Index LoadFacts Modes ModesFacts ResFacts ResWitness
  StatesFacts IndexFacts Anharm AnharmFacts EnergyFacts VibRot Distort Transform TransformFacts
  RotFacts NormalFacts HarmFacts ModeFacts DistortFacts GeomFacts ZeroFacts SymAnharm
  Polyads Report OutputFacts VibRotFacts SymRotFacts Geom AlignFacts AlignExact IrrepFacts Finish FinishFacts
  PerturbFacts PerturbSum PerturbLevels SymE0 SymExact SymVib SameRun SymPerturb SymLevels SymFacts RunFacts RunSecond RunRot TopRun
  Threefold ThreeForm ThreeModes.
Import ListNotations.
Open Scope nat_scope.
Local Open Scope R_scope.

Lemma behaves_mass N m s sg mu h ns ts (V L : nat -> nat -> R) : c3v N m s sg mu ->
  (forall k, In k ns -> (k < 3 * N)%nat) -> (forall i j, In (i, j) ts -> (i < 3 * N)%nat /\ (j < 3 * N)%nat) ->
  mass_weighted N m V L -> behaves (3 * N) (op sg (third s)) (op mu flip) h ns ts V ->
  behaves (3 * N) (op sg (third s)) (op mu flip) h ns ts L.
Proof.
  intros C Bn Bt HL BH.
  assert (Pm : forall k b, (k < 3 * N)%nat -> (b < 3 * N)%nat ->
    act (3 * N) (op sg (third s)) (fun a => L a k) b = act (3 * N) (op sg (third s)) (fun a => V a k) b / sqrt (m (b / 3)%nat)).
  { intros k b Hk Hb. rewrite (act_ext _ _ _ (fun a => V a k / sqrt (m (a / 3)%nat))) by (intros a Ha; now apply HL).
    apply (act_mass N sg (fun i => sg (sg i)) (third s)) with (m := m); try assumption.
    - apply (c3_sg _ _ _ _ _ C).
    - intros i Hi. now apply (c3_sg _ _ _ _ _ C), (c3_sg _ _ _ _ _ C).
    - intros i Hi. now apply (c3_sg3 _ _ _ _ _ C).
    - intros i Hi. now apply (c3_sg3 _ _ _ _ _ C).
    - intros i Hi. rewrite !(c3_msg _ _ _ _ _ C); auto. now apply (c3_sg _ _ _ _ _ C). }
  assert (Mm : forall k b, (k < 3 * N)%nat -> (b < 3 * N)%nat ->
    act (3 * N) (op mu flip) (fun a => L a k) b = act (3 * N) (op mu flip) (fun a => V a k) b / sqrt (m (b / 3)%nat)).
  { intros k b Hk Hb. rewrite (act_ext _ _ _ (fun a => V a k / sqrt (m (a / 3)%nat))) by (intros a Ha; now apply HL).
    apply (act_mass N mu mu flip) with (m := m); try assumption.
    - apply (c3_mu _ _ _ _ _ C).
    - apply (c3_mu _ _ _ _ _ C).
    - intros i Hi. now apply (c3_mu2 _ _ _ _ _ C).
    - intros i Hi. now apply (c3_mu2 _ _ _ _ _ C).
    - intros i Hi. now apply (c3_mmu _ _ _ _ _ C). }
  constructor.
  - intros k Hk b Hb. pose proof (Bn k Hk). destruct (bh_single _ _ _ _ _ _ _ BH k Hk b Hb) as [H1 H2].
    rewrite Pm, Mm, H1, H2, HL by assumption. auto.
  - intros i j Hij b Hb. destruct (Bt i j Hij). destruct (bh_pair _ _ _ _ _ _ _ BH i j Hij b Hb) as (H1 & H2 & H3 & H4).
    rewrite !Pm, !Mm, H1, H2, H3, H4, !HL by assumption. unfold Rdiv. repeat split; ring.
Qed.

(** ** the force field in normal coordinates *)
Section Field.
  Variables (N : nat) (m : nat -> R) (s : R) (sg mu : nat -> nat) (ns : list nat) (ts : list (nat * nat))
    (w B : nat -> R) (V L : nat -> nat -> R) (g3 : nat -> nat -> nat -> R) (g4 : nat -> nat -> nat -> nat -> R).
  Hypothesis C : c3v N m s sg mu.
  Hypothesis BV : behaves (3 * N) (op sg (third s)) (op mu flip) (sqrt 3 / 2) ns ts V.
  Hypothesis BL : behaves (3 * N) (op sg (third s)) (op mu flip) (sqrt 3 / 2) ns ts L.
  Hypothesis S4 : tsym4 (3 * N) g4.
  Hypothesis P3 : same3 (3 * N) (op sg (third s)) g3.
  Hypothesis M3 : same3 (3 * N) (op mu flip) g3.
  Hypothesis P4 : same4 (3 * N) (op sg (third s)) g4.
  Hypothesis M4 : same4 (3 * N) (op mu flip) g4.
  Hypothesis Ww : forall a b, In (a, b) ts -> w a = w b.
  Hypothesis HB : B 0%nat = B 1%nat.

  Lemma h3 : sqrt 3 / 2 * (sqrt 3 / 2) = 3 / 4.
  Proof. pose proof (sqrt_sqrt 3 ltac:(lra)). lra. Qed.

  Lemma axial_three : axial ns ts w (cubic_spec (3 * N) g3 L w) (quartic_spec (3 * N) g4 L w) (zeta_of N V) B 1.
  Proof.
    assert (E4a : forall i j k l, con4 (3 * N) L g4 i j k l = con4 (3 * N) L g4 j i k l) by (intros; apply con4_12; intros; now apply S4).
    assert (E4b : forall i j k l, con4 (3 * N) L g4 i j k l = con4 (3 * N) L g4 i j l k) by (intros; apply con4_34; intros; now apply S4).
    assert (E4c : forall i j k l, con4 (3 * N) L g4 i j k l = con4 (3 * N) L g4 i k j l) by (intros; apply con4_23; intros; now apply S4).
    constructor; try assumption; try lia; unfold cubic_spec, quartic_spec.
    - intros p p' a b Hp Hp' Hab. destruct (cubic_nn (3 * N) _ _ (sqrt 3 / 2) ns ts L g3 h3 BL P3 p p' a b Hp Hp' Hab) as [-> ->]. split; ring.
    - intros p a b c d Hp Hab Hcd. destruct (cubic_n (3 * N) _ _ (sqrt 3 / 2) ns ts L g3 h3 BL P3 M3 p a b c d Hp Hab Hcd) as [-> ->].
      rewrite (Ww a b Hab), (Ww c d Hcd). split; ring.
    - intros a b c d e g Hab Hcd Heg. destruct (cubic_d (3 * N) _ _ (sqrt 3 / 2) ns ts L g3 h3 BL P3 M3 a b c d e g Hab Hcd Heg) as (-> & -> & ->).
      rewrite (Ww c d Hcd), (Ww e g Heg). repeat split; ring.
    - intros p a b Hp Hab. rewrite (quartic_n (3 * N) _ _ (sqrt 3 / 2) ns ts L g4 h3 BL P4 M4 p a b Hp Hab), (Ww a b Hab). reflexivity.
    - intros a b Hab. rewrite (quartic_d (3 * N) _ _ (sqrt 3 / 2) ns ts L g4 h3 BL P4 M4 E4a E4b E4c a b Hab), (Ww a b Hab). ring.
    - intros a b c d Hab Hcd. destruct (quartic_dd (3 * N) _ _ (sqrt 3 / 2) ns ts L g4 h3 BL P4 M4 E4a E4b a b c d Hab Hcd) as (E1 & E2 & _).
      rewrite (Ww a b Hab), (Ww c d Hcd). split; [now rewrite E1|now rewrite E2].
    - intros. now apply (zeta_nn N m s sg mu C (sqrt 3 / 2) ns ts V).
    - intros i a b Hi Hab. now apply (zeta_n N m s sg mu C (sqrt 3 / 2) ns ts V h3 BV).
    - intros a b c d Hab Hcd. destruct (zeta_dd N m s sg mu C (sqrt 3 / 2) ns ts V h3 BV a b c d Hab Hcd) as (Q & _). exact Q.
    - intros a b c d Hab Hcd. destruct (zeta_dd N m s sg mu C (sqrt 3 / 2) ns ts V h3 BV a b c d Hab Hcd) as (_ & Q & _). exact Q.
    - intros a b c d Hab Hcd. destruct (zeta_dd N m s sg mu C (sqrt 3 / 2) ns ts V h3 BV a b c d Hab Hcd) as (_ & _ & Q). exact Q.
  Qed.
End Field.

Lemma axial_ext n ns ts w f3 f3' f4 f4' zeta B ax :
  (forall k, In k ns -> (k < n)%nat) -> (forall i j, In (i, j) ts -> (i < n)%nat /\ (j < n)%nat) ->
  (forall i j k, (i < n)%nat -> (j < n)%nat -> (k < n)%nat -> f3 i j k = f3' i j k) ->
  (forall i j k l, (i < n)%nat -> (j < n)%nat -> (k < n)%nat -> (l < n)%nat -> f4 i j k l = f4' i j k l) ->
  axial ns ts w f3 f4 zeta B ax -> axial ns ts w f3' f4' zeta B ax.
Proof.
  intros Bn Bt E3 E4 [].
  constructor; try assumption.
  - intros p p' a b Hp Hp' Hab. destruct (Bt a b Hab). pose proof (Bn p Hp). pose proof (Bn p' Hp'). rewrite <- !E3 by assumption. now apply axial_nn.
  - intros p a b c d Hp Hab Hcd. destruct (Bt a b Hab), (Bt c d Hcd). pose proof (Bn p Hp). rewrite <- !E3 by assumption. now apply axial_n.
  - intros a b c d e g Hab Hcd Heg. destruct (Bt a b Hab), (Bt c d Hcd), (Bt e g Heg). rewrite <- !E3 by assumption. now apply axial_d.
  - intros p a b Hp Hab. destruct (Bt a b Hab). pose proof (Bn p Hp). rewrite <- !E4 by assumption. now apply axial_q1.
  - intros a b Hab. destruct (Bt a b Hab). rewrite <- !E4 by assumption. now apply axial_q2.
  - intros a b c d Hab Hcd. destruct (Bt a b Hab), (Bt c d Hcd). rewrite <- !E4 by assumption. now apply axial_q3.
Qed.

Lemma lost_ext n modes w f3 f3' :
  (forall k, In k (nondeg modes) -> (k < n)%nat) -> (forall i j, In (i, j) (degs modes) -> (i < n)%nat /\ (j < n)%nat) ->
  (forall i j k, (i < n)%nat -> (j < n)%nat -> (k < n)%nat -> f3 i j k = f3' i j k) ->
  lost modes w f3 = lost modes w f3'.
Proof.
  intros Bn Bt E3.
  assert (Bf : forall k, In k (firsts modes) -> (k < n)%nat).
  { intros k ([i j] & <- & Hij)%in_map_iff. now apply (Bt i j). }
  assert (Bb : forall k q, In k (below q (firsts modes)) -> (k < n)%nat).
  { intros k q [Hk _]%filter_In. now apply Bf. }
  unfold lost. f_equal.
  - destruct (rev (firsts modes)) as [|x t] eqn:Er; [reflexivity|]. apply Rsum_ext. intros k Hk.
    assert (Hk' : In k (firsts modes)) by (apply in_rev; rewrite Er; now right).
    unfold se_ddn. apply Rsum_ext. intros l Hl%Bb. apply Rsum_ext. intros p Hp%Bn. apply Bf in Hk'. now rewrite E3.
  - unfold se_ddd. apply Rsum_ext. intros k Hk%Bf. apply Rsum_ext. intros l Hl%Bb. apply Rsum_ext. intros p Hp%Bb. now rewrite E3.
Qed.

(** eigenvectors divided by the square roots of the masses are normal modes *)
Lemma eigen_normal N axes f (w : nat -> R) h (V lx : nat -> nat -> R) : sym2 (3 * N) f -> (forall q, (q < N)%nat -> 0 < w q) ->
  eigen_system (3 * N) (secular N axes f w) h V -> mass_weighted N w V lx ->
  let hess := fun a b => FACT2 * con2 (3 * N) (every_atom axes) f a b in
  (forall i j, (i < 3 * N)%nat -> (j < 3 * N)%nat ->
     Sum (3 * N) (fun a => w (a / 3)%nat * lx a i * lx a j) = (if Nat.eqb i j then 1 else 0)) /\
  (forall i j, (i < 3 * N)%nat -> (j < 3 * N)%nat -> i <> j -> con2 (3 * N) lx hess i j = 0) /\
  (forall i, (i < 3 * N)%nat -> nth_error (map to_wavenumber h) i = Some (to_wavenumber (con2 (3 * N) lx hess i i))).
Proof.
  intros Sy Hw (Hl & HO & He) Lx. cbv zeta. set (n := (3 * N)%nat) in *.
  assert (Sp : forall x, (x < n)%nat -> 0 < sqrt (w (x / 3)%nat)).
  { intros x Hx. apply sqrt_lt_R0, Hw. now apply block_lt. }
  assert (G : forall i j x, (i < n)%nat -> (j < n)%nat -> nth_error h j = Some x ->
    con2 n lx (fun a b => FACT2 * con2 n (every_atom axes) f a b) i j = x * delta i j).
  { intros i j x Hi Hj Ex. unfold con2 at 1.
    transitivity (Sum n (fun a => V a i * (x * V a j))).
    - apply sum_g. intros a Ha. rewrite <- (He a j x Ha Ex). rewrite (Lx a i Ha Hi).
      unfold Rdiv. rewrite Rmult_assoc. f_equal. unfold con1. rewrite <- Rsum_scal. apply sum_g. intros b Hb.
      rewrite (Lx b j Hb Hj). rewrite secular_R by assumption. unfold weighted. fold n. unfold Rdiv.
      rewrite Rinv_mult. ring.
    - rewrite <- (proj2 HO i j Hi Hj), <- Rsum_scal. apply sum_g. intros. ring. }
  split; [|split].
  - intros i j Hi Hj. transitivity (delta i j); [|reflexivity]. rewrite <- (proj2 HO i j Hi Hj).
    apply sum_g. intros a Ha. rewrite (Lx a i Ha Hi), (Lx a j Ha Hj).
    pose proof (Sp a Ha). rewrite <- (sqrt_sqrt (w (a / 3)%nat)) at 1.
    + field. lra.
    + apply Rlt_le, Hw. now apply block_lt.
  - intros i j Hi Hj Ne. destruct (nth_error h j) as [x|] eqn:Ex; [|apply nth_error_None in Ex; lia].
    rewrite (G i j x Hi Hj Ex). unfold delta. destruct (Nat.eqb_spec i j); [contradiction|ring].
  - intros i Hi. destruct (nth_error h i) as [x|] eqn:Ex; [|apply nth_error_None in Ex; lia].
    rewrite nth_error_map, Ex. cbn [option_map]. rewrite (G i i x Hi Hi Ex). unfold delta.
    rewrite Nat.eqb_refl. now rewrite Rmult_1_r.
Qed.

Lemma some_eq3 {A} (x y : A) : Some x = Some y -> x = y.
Proof. congruence. Qed.

(** ** the whole run *)
Section Run3.
  Context {I : Type}.
  Variables (eig2 : R -> R -> R -> R * R * (R * R))
    (eig : (nat -> nat -> R) -> list R * (nat -> nat -> R))
    (label : (nat -> R * R * R) -> (nat -> nat -> R) -> nat -> R -> option I) (A : I).

  Lemma run_three_core m axes iatom s sg mu fc2 f3x f4x freq l0 :
    let N := m_natom m in
    let n := m_nvib m in
    let B := m_rotcon m in
    let w := fun i => nth i freq 0 in
    let turn := op sg (third s) in
    let mirror := op mu flip in
    let g2 := con2 (3 * N) (every_atom axes) fc2 in
    let g3 := con3 (3 * N) (every_atom axes) f3x in
    let g4 := con4 (3 * N) (every_atom axes) f4x in
    m_rotor m = OblateSymmTop \/ m_rotor m = ProlateSymmTop ->
    (0 < N)%nat -> (0 < n <= 3 * N)%nat ->
    (forall q, (q < N)%nat -> 0 < m_w m q) ->
    c3v N (m_w m) s sg mu -> placed N s sg mu (m_geom m) -> B 0%nat = B 1%nat ->
    (iatom < N)%nat -> mu iatom = iatom ->
    sym2 (3 * N) fc2 -> tsym3 (3 * N) f3x -> tsym4 (3 * N) f4x ->
    same2 (3 * N) turn g2 -> same2 (3 * N) mirror g2 ->
    same3 (3 * N) turn g3 -> same3 (3 * N) mirror g3 ->
    same4 (3 * N) turn g4 -> same4 (3 * N) mirror g4 ->
    solves (3 * N) eig (secular N axes fc2 (m_w m)) ->
    harmonic N axes fc2 (m_w m) eig = Some (freq, l0) ->
    threefold_modes N n iatom s sg mu w l0 ->
    (forall i j k, (i < n)%nat -> (j < n)%nat -> (k < n)%nat -> w i + w j <> w k) ->
    exists fuel0 lx V h,
      let hess := fun a b => FACT2 * g2 a b in
      let F3 := cubic_spec (3 * N) g3 lx w in
      let F4 := quartic_spec (3 * N) g4 lx w in
      let zeta := zeta_of N (fun a i => sqrt (m_w m (a / 3)%nat) * lx a i) in
      (forall i j, (i < 3 * N)%nat -> (j < 3 * N)%nat ->
         Sum (3 * N) (fun a => m_w m (a / 3)%nat * lx a i * lx a j) = (if Nat.eqb i j then 1 else 0)) /\
      (forall i j, (i < 3 * N)%nat -> (j < 3 * N)%nat -> i <> j -> con2 (3 * N) lx hess i j = 0) /\
      (forall i, (i < 3 * N)%nat -> nth_error freq i = Some (to_wavenumber (con2 (3 * N) lx hess i i))) /\
      StronglySorted Rge freq /\
      length freq = (3 * N)%nat /\ map to_wavenumber h = freq /\ sym2 (3 * N) (secular N axes fc2 (m_w m)) /\
      eigen_system (3 * N) (secular N axes fc2 (m_w m)) h l0 /\ eigen_system (3 * N) (secular N axes fc2 (m_w m)) h V /\
      mass_weighted N (m_w m) V lx /\
      (forall i j a, (i < n)%nat -> (j < n)%nat -> zeta_of N V i j a = zeta i j a) /\
      forall fuel, (fuel0 <= fuel)%nat ->
      exists o f3l f4l irreps,
      run eig2 eig label A fuel (Some (sg iatom)) false m axes iatom 3 (Quartic fc2 f3x f4x) = Some (FullResult o) /\
      finish eig2 false m freq f3l f4l irreps V lx = Some o /\
      let modes := rs_modes (out_resonances o) in
      let f3 := fun i j k => nth (find3 i j k) f3l 0 in
      let f4 := fun i j k l => nth (find4 i j k l) f4l 0 in
      (forall i j, In (i, j) (degs modes) <-> (i < j < n)%nat /\ w i = w j) /\
      (forall i, In i (nondeg modes) <-> (i < n)%nat /\ forall j, (j < n)%nat -> j <> i -> w j <> w i) /\
      behaves (3 * N) turn mirror (sqrt 3 / 2) (nondeg modes) (degs modes) V /\
      (forall i j k, (i < n)%nat -> (j < n)%nat -> (k < n)%nat -> F3 i j k = f3 i j k) /\
      (forall i j k l, (i < n)%nat -> (j < n)%nat -> (k < n)%nat -> (l < n)%nat -> F4 i j k l = f4 i j k l) /\
      restst_tables n (ioff (n + 1)) modes = Some (rs_tables (out_resonances o)) /\
      top_field n modes w f3 f4 (zeta_of N V) B (m_rotor m) (wila N (m_geom m) (m_w m) V).
  Proof.
    intros N n B w turn mirror g2 g3 g4 Hr HN Hn Hw C G HB Hi Mi S2 S3 S4 T2 M2 T3 M3 T4 M4 Sv Eh TM Dw.
    assert (Hs : is_sym_top (m_rotor m) = Some true) by (destruct Hr as [-> | ->]; reflexivity).
    assert (Hl : is_linear (m_rotor m) = false) by (destruct Hr as [-> | ->]; reflexivity).
    assert (Hq1 : m_rotor m <> SphericalTop) by (destruct Hr as [-> | ->]; discriminate).
    assert (Hq2 : m_rotor m <> NoRotor) by (destruct Hr as [-> | ->]; discriminate).
    destruct labels_end_R as (f0 & Hf0).
    destruct (harmonic_run N axes fc2 (m_w m) eig Sv) as (h & l0' & Eh' & ES & Hsrt).
    pose proof Eh as Eh2. rewrite Eh' in Eh2. apply some_eq3, pair_equal_spec in Eh2 as [Efr El]. subst l0'.
    pose proof ES as (Lh & _ & _).
    assert (Lf : length freq = (3 * N)%nat) by (rewrite <- Efr, map_length; exact Lh).
    assert (Wf : (fun i => nth i freq (nz 0)) = w) by (unfold w; rewrite nz_R; reflexivity).
    assert (Wv : forall i, (i < 3 * N)%nat -> w i = to_wavenumber (nth i h 0)).
    { intros i Hi'. unfold w. rewrite <- Efr. rewrite (nth_indep _ 0 (to_wavenumber 0)) by (rewrite map_length; lia). apply map_nth. }
    assert (Wh : forall i j, (i < 3 * N)%nat -> (j < 3 * N)%nat -> w i = w j <-> nth i h 0 = nth j h 0).
    { intros i j Hi' Hj. rewrite !Wv by assumption. split; [|now intros ->]. intros E0.
      destruct (Rtotal_order (nth i h 0) (nth j h 0)) as [L|[L|L]]; [|exact L|]; apply wavenumber_lemma in L; lra. }
    set (sec := secular N axes fc2 (m_w m)) in *.
    assert (Sg2 : sym2 (3 * N) g2) by (intros a b Ha Hb; now apply con2_sym).
    assert (Sec : forall a b, (a < 3 * N)%nat -> (b < 3 * N)%nat -> sec a b = weighted (m_w m) g2 a b) by (intros; now apply secular_R).
    assert (SA : sym2 (3 * N) sec).
    { intros a b Ha Hb. rewrite !Sec by assumption. unfold weighted. rewrite (Sg2 a b) by assumption. f_equal. apply Rmult_comm. }
    assert (Ssame : forall Q, same2 (3 * N) Q (weighted (m_w m) g2) -> same2 (3 * N) Q sec).
    { intros Q HQ a b Ha Hb. rewrite Sec, <- HQ by assumption. apply con2_g. intros. now apply Sec. }
    assert (PA : same2 (3 * N) turn sec).
    { apply Ssame, weighted_same; [apply (c3_msg _ _ _ _ _ C)|exact T2]. }
    assert (MA : same2 (3 * N) mirror sec).
    { apply Ssame, weighted_same; [apply (c3_mmu _ _ _ _ _ C)|exact M2]. }
    set (lx0 := make_lx (3 * N) (make_sqm (m_w m)) l0).
    destruct (align_total N n iatom (sg iatom) w (m_w m) l0 lx0 (proj1 Hn) Hi (tm_apart _ _ _ _ _ _ _ _ TM) (tm_two _ _ _ _ _ _ _ _ TM) (tm_big _ _ _ _ _ _ _ _ TM))
      as (V & lx & Ea).
    destruct (three_modes n w (tm_w _ _ _ _ _ _ _ _ TM) (tm_apart _ _ _ _ _ _ _ _ TM) (tm_two _ _ _ _ _ _ _ _ TM) (m_rotor m) Hs)
      as (modes & Ed & Hp & N3 & Hf & HD & HS).
    pose proof (after_eigen N n iatom (m_w m) s sg mu w h sec l0 lx0 V lx (nondeg modes) (degs modes) (proj2 Hn) Hi Mi ES Wh TM Ea HS HD) as ESV.
    pose proof (after_behaves N n iatom (m_w m) s sg mu w h sec l0 lx0 V lx (nondeg modes) (degs modes) C (proj2 Hn) Hi Mi SA PA MA ES Wh TM Ea HS HD) as BV.
    assert (ML : mass_weighted N (m_w m) V lx) by (apply (weighted_kept _ _ _ _ _ _ _ _ _ _ _ _ (make_lx_weighted _ _ _) Ea)).
    assert (Bn : forall k, In k (nondeg modes) -> (k < n)%nat) by (intros k Hk%HS; tauto).
    assert (Bt : forall i j, In (i, j) (degs modes) -> (i < n)%nat /\ (j < n)%nat) by (intros i j Hij%HD; lia).
    assert (BL : behaves (3 * N) turn mirror (sqrt 3 / 2) (nondeg modes) (degs modes) lx).
    { apply (behaves_mass N (m_w m) s sg mu) with (V := V); try assumption.
      - intros k Hk%Bn. lia.
      - intros i j Hij%Bt. lia. }
    destruct (eigen_normal N axes fc2 (m_w m) h V lx S2 Hw ESV ML) as (Q1 & Q2 & Q3). rewrite Efr in Q3.
    exists f0, lx, V, h. cbv zeta. split; [exact Q1|]. split; [exact Q2|]. split; [exact Q3|].
    split.
    { rewrite <- Efr. clear - Hsrt. induction Hsrt as [|x l Hl IH Hx]; cbn [map]; constructor; [exact IH|].
      apply Forall_map. eapply Forall_impl; [|exact Hx]. intros y Hy. cbv beta.
      destruct (Rle_lt_or_eq_dec y x (Rge_le _ _ Hy)) as [L|E]; [apply wavenumber_lemma in L; lra|rewrite E; lra]. }
    split; [exact Lf|]. split; [exact Efr|]. split; [exact SA|]. split; [exact ES|]. split; [exact ESV|]. split; [exact ML|].
    set (F3 := cubic_spec (3 * N) g3 lx w). set (F4 := quartic_spec (3 * N) g4 lx w).
    set (zeta := zeta_of N (fun a i => sqrt (m_w m (a / 3)%nat) * lx a i)) in *.
    assert (Z : forall i j a, (i < n)%nat -> (j < n)%nat -> zeta_of N V i j a = zeta i j a).
    { intros i j a Hi' Hj.
      assert (L : forall a i, (a < 3 * N)%nat -> (i < n)%nat -> V a i = sqrt (m_w m (a / 3)%nat) * lx a i).
      { intros a' i' Ha' Hi2. rewrite ML by lia.
        assert (0 < sqrt (m_w m (a' / 3)%nat)).
        { apply sqrt_lt_R0, Hw. apply Nat.div_lt_upper_bound; lia. }
        field. lra. }
      unfold zeta, zeta_of. apply Rsum_ext. intros q Hq%in_seq.
      rewrite (L (3 * q)%nat i), (L (3 * q + 1)%nat i), (L (3 * q + 2)%nat i),
        (L (3 * q)%nat j), (L (3 * q + 1)%nat j), (L (3 * q + 2)%nat j) by lia. reflexivity. }
    split; [exact Z|].
    intros fuel Hfu.
    destruct (run_prefix eig2 eig label A fuel (Some (sg iatom)) false m axes iatom 3 (Quartic fc2 f3x f4x)
      freq l0 V lx) as (irreps & Li & _ & Er).
    { exact Hq1. } { exact Hq2. } { now apply Hf0. } { exact Eh. }
    { unfold aligned. rewrite Hl, Wf. destruct Hr as [-> | ->]; exact Ea. }
    rewrite Wf in Er.
    destruct (force3_lemma (3 * N) (rot3rd N (3 * N) axes f3x) lx n w (proj1 Hn) (proj1 (proj2 (rot_sym_lemma N axes)) f3x S3))
      as (f3l & E3 & _ & G3).
    destruct (force4_lemma (3 * N) (rot4th N (3 * N) axes f4x) lx n w (proj1 Hn) (proj2 (proj2 (rot_sym_lemma N axes)) f4x S4))
      as (f4l & E4 & _ & G4).
    fold N n in Er. rewrite E3 in Er. cbn [obind] in Er. rewrite E4 in Er. cbn [obind] in Er.
    destruct (finish_total_lemma eig2 m freq f3l f4l irreps V lx modes) as (o & Eo & Em & _); try assumption.
    { fold n. rewrite Wf. exact Ed. } { apply comparable_R. } { fold n. lia. } { intros Ha. destruct Hr; congruence. }
    rewrite Eo in Er. cbn [obind] in Er. exists o, f3l, f4l, irreps. split; [exact Er|]. split; [exact Eo|].
    rewrite Em. split; [exact HD|]. split; [exact HS|]. split; [exact BV|].
    set (f3 := fun i j k => nth (find3 i j k) f3l 0). set (f4 := fun i j k l => nth (find4 i j k l) f4l 0).
    assert (X3 : forall i j k, (i < n)%nat -> (j < n)%nat -> (k < n)%nat -> F3 i j k = f3 i j k).
    { intros i j k Hi' Hj Hk. unfold f3. pose proof (G3 i j k Hi' Hj Hk) as G3'. unfold f3qcm_get in G3'. rewrite (nth_error_nth _ _ 0 G3').
      unfold F3, cubic_spec. f_equal. apply con3_g. intros. symmetry. now apply rot3rd_lemma. }
    assert (X4 : forall i j k l, (i < n)%nat -> (j < n)%nat -> (k < n)%nat -> (l < n)%nat -> F4 i j k l = f4 i j k l).
    { intros i j k l Hi' Hj Hk Hl'. unfold f4. pose proof (G4 i j k l Hi' Hj Hk Hl') as G4'. unfold f4qcm_get in G4'. rewrite (nth_error_nth _ _ 0 G4').
      unfold F4, quartic_spec. f_equal. apply con4_g. intros. symmetry. now apply rot4th_lemma. }
    assert (Ws : forall a b, In (a, b) (degs modes) -> w a = w b) by (intros a b Hab%HD; tauto).
    assert (TF : top_field n modes w f3 f4 (zeta_of N V) B (m_rotor m) (wila N (m_geom m) (m_w m) V)).
    { constructor.
      - exact Hp.
      - exact N3.
      - exact Hf.
      - intros i Hi'. pose proof (tm_w _ _ _ _ _ _ _ _ TM i Hi'). lra.
      - intros i j k Hi' Hj Hk E0. apply (Dw i j k Hi' Hj Hk). lra.
      - intros; unfold f3; f_equal; apply find3_perm, perm_swap.
      - intros; unfold f3; f_equal; apply find3_perm, perm_skip, perm_swap.
      - intros; unfold f4; f_equal; apply find4_perm, perm_swap.
      - intros; unfold f4; f_equal; apply find4_perm, perm_skip, perm_swap.
      - intros; unfold f4; f_equal; apply find4_perm, perm_skip, perm_skip, perm_swap.
      - intros. apply zeta_of_anti.
      - exists 1%nat. split.
        + now apply (cor_axis_3 N (m_w m) s sg mu C (m_geom m) G (sqrt 3 / 2) (nondeg modes) (degs modes) V h3 BV).
        + apply (axial_ext n _ _ _ F3 f3 F4 f4 _ _ _ Bn Bt X3 X4).
          apply (axial_three N (m_w m) s sg mu (nondeg modes) (degs modes) w B V lx g3 g4); try assumption.
          intros a b c d _ _ _ _. repeat split; [apply con4_12|apply con4_23|apply con4_34]; intros; now apply S4. }
    split; [exact X3|]. split; [exact X4|]. split; [|exact TF].
    destruct (finish_inv _ _ _ _ _ _ _ _ _ Eo) as (sym & x & g & e0 & lev & eng & rows & _ & Ers & _).
      destruct (restst_total (m_rotor m) (m_nvib m) (zmat (m_natom m) V) (fun i j k => nth (find3 i j k) f3l (nz 0)) (fun i => nth i freq (nz 0)) modes)
        as (rs & Ers' & _ & Ert & _); try assumption.
      { fold n. rewrite Wf. exact Ed. } { apply comparable_R. }
      rewrite Ers in Ers'. apply some_eq3 in Ers'. rewrite Ers'. exact Ert.
  Qed.

  Lemma run_three_lemma m axes iatom s sg mu fc2 f3x f4x freq l0 :
    let N := m_natom m in
    let n := m_nvib m in
    let B := m_rotcon m in
    let w := fun i => nth i freq 0 in
    let turn := op sg (third s) in
    let mirror := op mu flip in
    let g2 := con2 (3 * N) (every_atom axes) fc2 in
    let g3 := con3 (3 * N) (every_atom axes) f3x in
    let g4 := con4 (3 * N) (every_atom axes) f4x in
    m_rotor m = OblateSymmTop \/ m_rotor m = ProlateSymmTop ->
    (0 < N)%nat -> (0 < n <= 3 * N)%nat ->
    (forall q, (q < N)%nat -> 0 < m_w m q) ->
    c3v N (m_w m) s sg mu -> placed N s sg mu (m_geom m) -> B 0%nat = B 1%nat ->
    (iatom < N)%nat -> mu iatom = iatom ->
    sym2 (3 * N) fc2 -> tsym3 (3 * N) f3x -> tsym4 (3 * N) f4x ->
    same2 (3 * N) turn g2 -> same2 (3 * N) mirror g2 ->
    same3 (3 * N) turn g3 -> same3 (3 * N) mirror g3 ->
    same4 (3 * N) turn g4 -> same4 (3 * N) mirror g4 ->
    solves (3 * N) eig (secular N axes fc2 (m_w m)) ->
    harmonic N axes fc2 (m_w m) eig = Some (freq, l0) ->
    threefold_modes N n iatom s sg mu w l0 ->
    (forall i j k, (i < n)%nat -> (j < n)%nat -> (k < n)%nat -> w i + w j <> w k) ->
    exists fuel0 lx,
      let hess := fun a b => FACT2 * g2 a b in
      let F3 := cubic_spec (3 * N) g3 lx w in
      let F4 := quartic_spec (3 * N) g4 lx w in
      let zeta := zeta_of N (fun a i => sqrt (m_w m (a / 3)%nat) * lx a i) in
      (forall i j, (i < 3 * N)%nat -> (j < 3 * N)%nat ->
         Sum (3 * N) (fun a => m_w m (a / 3)%nat * lx a i * lx a j) = (if Nat.eqb i j then 1 else 0)) /\
      (forall i j, (i < 3 * N)%nat -> (j < 3 * N)%nat -> i <> j -> con2 (3 * N) lx hess i j = 0) /\
      (forall i, (i < 3 * N)%nat -> nth_error freq i = Some (to_wavenumber (con2 (3 * N) lx hess i i))) /\
      StronglySorted Rge freq /\
      forall fuel, (fuel0 <= fuel)%nat ->
      exists o, run eig2 eig label A fuel (Some (sg iatom)) false m axes iatom 3 (Quartic fc2 f3x f4x) = Some (FullResult o) /\
      let modes := rs_modes (out_resonances o) in
      (forall i j, In (i, j) (degs modes) <-> (i < j < n)%nat /\ w i = w j) /\
      (forall i, In i (nondeg modes) <-> (i < n)%nat /\ forall j, (j < n)%nat -> j <> i -> w j <> w i) /\
      (rs_fermi1 (out_resonances o) = [] -> rs_fermi2 (out_resonances o) = [] ->
       let listed := nondeg modes ++ firsts modes in
       o_harms (out_lists o) = map w listed /\ o_funds (out_lists o) = o_corrs (out_lists o) /\
       length (o_corrs (out_lists o)) = length listed /\
       forall us0, intermediate n F3 ground us0 ->
         out_zpt o = perturbed n w F3 F4 zeta B none ground us0 + angular_shift n zeta B
           - / 2 * Rsum (degs modes) (fun p => B 2%nat * Rsqr (zeta (fst p) (snd p) 2%nat)) + lost modes w F3 /\
         forall p k us, nth_error listed p = Some k -> intermediate n F3 (one k) us ->
           nth_error (o_corrs (out_lists o)) p
           = Some (perturbed n w F3 F4 zeta B none (one k) us - perturbed n w F3 F4 zeta B none ground us0)).
  Proof.
    intros N n B w turn mirror g2 g3 g4 Hr HN Hn Hw C G HB Hi Mi S2 S3 S4 T2 M2 T3 M3 T4 M4 Sv Eh TM Dw.
    destruct (run_three_core m axes iatom s sg mu fc2 f3x f4x freq l0 Hr HN Hn Hw C G HB Hi Mi S2 S3 S4 T2 M2 T3 M3 T4 M4 Sv Eh TM Dw)
      as (f0 & lx & V & h & Q1 & Q2 & Q3 & Q4 & _ & _ & _ & _ & _ & _ & Z & Q).
    exists f0, lx. cbv zeta. split; [exact Q1|]. split; [exact Q2|]. split; [exact Q3|]. split; [exact Q4|].
    intros fuel Hfu. destruct (Q fuel Hfu) as (o & f3l & f4l & irreps & Er & Eo & HD & HS & _ & X3 & X4 & Et & TF). clear Q.
    exists o. split; [exact Er|]. split; [exact HD|]. split; [exact HS|]. intros N1 N2.
    assert (Hs : is_sym_top (m_rotor m) = Some true) by (destruct Hr as [-> | ->]; reflexivity).
    assert (Hl : is_linear (m_rotor m) = false) by (destruct Hr as [-> | ->]; reflexivity).
    set (modes := rs_modes (out_resonances o)) in *.
    assert (Bn : forall k, In k (nondeg modes) -> (k < n)%nat) by (intros k Hk%HS; tauto).
    assert (Bt : forall i j, In (i, j) (degs modes) -> (i < n)%nat /\ (j < n)%nat) by (intros i j Hij%HD; lia).
    set (F3 := cubic_spec (3 * N) g3 lx w) in *. set (F4 := quartic_spec (3 * N) g4 lx w) in *.
    set (zeta := zeta_of N (fun a i => sqrt (m_w m (a / 3)%nat) * lx a i)) in *.
    set (f3 := fun i j k => nth (find3 i j k) f3l 0) in *. set (f4 := fun i j k l => nth (find4 i j k l) f4l 0) in *.
    destruct (finish_top eig2 m freq f3l f4l irreps V lx o Hs Eo Et TF N1 N2) as (R1 & R2 & R3 & R4).
    fold modes in R1, R2, R3, R4. change (OutputFacts.listed modes) with (nondeg modes ++ firsts modes) in *.
    split; [exact R1|]. split; [exact R2|]. split; [exact R3|].
    intros us0 H0. destruct (R4 us0) as [R5 R6].
    { apply (intermediate_ext n F3); assumption. }
    fold N n w B f3 f4 in R5, R6.
    rewrite !(perturbed_ext n w f3 F3 f4 F4), (perturbed_zeta n w F3 F4 _ zeta), (angular_shift_ext n _ zeta) in R5
      by (exact Z || (intros; symmetry; now apply X3) || (intros; symmetry; now apply X4)).
    split.
    - rewrite R5. unfold e0_gap. rewrite Hl. f_equal; [|apply (lost_ext n modes w f3 F3 Bn Bt); intros; symmetry; now apply X3].
      f_equal. f_equal. apply Rsum_ext. intros [i j] Hij. destruct (Bt i j Hij). cbn [fst snd]. do 2 f_equal. now apply Z.
    - intros p k us Hpk Hu. rewrite (R6 p k us Hpk) by (apply (intermediate_ext n F3); assumption).
      rewrite !(perturbed_ext n w f3 F3 f4 F4), !(perturbed_zeta n w F3 F4 (zeta_of N V) zeta)
        by (exact Z || (intros; symmetry; now apply X3) || (intros; symmetry; now apply X4)). reflexivity.
  Qed.
End Run3.

(** C121 *)
Lemma alignment_three_lemma N n c m s sg mu w h A V lx V' lx' :
  c3v N m s sg mu -> (n <= 3 * N)%nat -> (c < N)%nat -> mu c = c ->
  sym2 (3 * N) A -> same2 (3 * N) (op sg (third s)) A -> same2 (3 * N) (op mu flip) A ->
  eigen_system (3 * N) A h V ->
  (forall i j, (i < 3 * N)%nat -> (j < 3 * N)%nat -> w i = w j <-> nth i h 0 = nth j h 0) ->
  threefold_modes N n c s sg mu w V ->
  bdegnl false N n c 3 (Some (sg c)) w m V lx = Some (V', lx') ->
  (forall i, (i < n)%nat -> (forall j, (j < n)%nat -> j <> i -> w j <> w i) -> forall b, (b < 3 * N)%nat ->
     act (3 * N) (op sg (third s)) (fun a => V' a i) b = V' b i /\
     act (3 * N) (op mu flip) (fun a => V' a i) b = V' b i) /\
  (forall i j, (i < j < n)%nat -> w i = w j -> forall b, (b < 3 * N)%nat ->
     act (3 * N) (op sg (third s)) (fun a => V' a i) b = - (1 / 2) * V' b i + sqrt 3 / 2 * V' b j /\
     act (3 * N) (op sg (third s)) (fun a => V' a j) b = - (sqrt 3 / 2) * V' b i + - (1 / 2) * V' b j /\
     act (3 * N) (op mu flip) (fun a => V' a i) b = V' b i /\
     act (3 * N) (op mu flip) (fun a => V' a j) b = - V' b j).
Proof.
  intros C Hn Hc Mc SA PA MA ES Wh TM E.
  destruct (three_modes n w (tm_w _ _ _ _ _ _ _ _ TM) (tm_apart _ _ _ _ _ _ _ _ TM) (tm_two _ _ _ _ _ _ _ _ TM) OblateSymmTop eq_refl)
    as (modes & _ & _ & _ & _ & HD & HS).
  pose proof (after_behaves N n c m s sg mu w h A V lx V' lx' (nondeg modes) (degs modes) C Hn Hc Mc SA PA MA ES Wh TM E HS HD) as BV.
  split.
  - intros i Hi Hs b Hb. apply (bh_single _ _ _ _ _ _ _ BV i); [|exact Hb]. apply HS. auto.
  - intros i j Hij Ew b Hb. apply (bh_pair _ _ _ _ _ _ _ BV i j); [|exact Hb]. apply HD. auto.
Qed.
