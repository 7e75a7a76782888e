(** Linear molecules: from the texts of the files to the report. *)
From Coq Require Import FunctionalExtensionality Reals Lra List ZArith NArith Arith Lia Bool Ascii String Permutation Sorted.
From Verif Require Import Num Loops ListFacts Index IndexFacts LoadFacts Modes ModesFacts ResFacts ResWitness StatesFacts
  Anharm AnharmFacts VibRot VibRotFacts Distort Transform TransformFacts RotFacts NormalFacts HarmFacts ModeFacts EckartFacts InertiaFacts
  SymAnharm Polyads Report ReportFacts OutputFacts Geom GeomFacts IrrepFacts Finish FinishFacts RunFacts RunSecond OutText OutFacts OutTables OutRun
  PerturbFacts PerturbSum PerturbLevels VibPerturb SymE0 SymPerturb SymLevels RunRot AlignExact
  Text TextFacts SpacingFacts Program ProgramFacts ProgramRun FrameFacts ZeroFacts RotFiles
  Threefold ThreeForm ThreeModes ThreeConst LinearModes LinearRun LinearConst SameRun.
Import ListNotations.
Open Scope list_scope.
Open Scope nat_scope.
Local Open Scope R_scope.

(** ** printing *)
Lemma modes_few modes : (n1dm modes + n2dm modes <= List.length (flat_map members modes))%nat.
Proof.
  rewrite n1dm_eq, n2dm_eq, i1mode_eq, i2mode_eq. induction modes as [|md k IH]; [apply le_n|].
  destruct md; cbn [flat_map members get1 get2 List.app List.length]; lia.
Qed.

(** no Fermi resonance is found when sums of two frequencies keep clear of the frequencies *)
Definition clear_of (n : nat) (w : nat -> R) : Prop := forall i j k, (i < n)%nat -> (j < n)%nat -> (k < n)%nat ->
  200 < Rabs (w i + w j - w k).
Lemma four_large a b c d : 200 < Rabs a -> 200 < Rabs b -> 200 < Rabs c -> 200 < Rabs d -> 1000 < Rabs (a * b * c * d).
Proof.
  intros A B C D. rewrite !Rabs_mult.
  assert (Q : 200 * 200 < Rabs a * Rabs b) by (apply Rmult_le_0_lt_compat; lra).
  assert (Q2 : 200 * 200 < Rabs c * Rabs d) by (apply Rmult_le_0_lt_compat; lra).
  rewrite Rmult_assoc.
  assert (Q3 : 200 * 200 * (200 * 200) < Rabs a * Rabs b * (Rabs c * Rabs d)) by (apply Rmult_le_0_lt_compat; lra). lra.
Qed.
Lemma clear_diffs n w i j k : clear_of n w -> (forall p, (p < n)%nat -> 0 < w p) -> (i < n)%nat -> (j < n)%nat -> (k < n)%nat ->
  200 < Rabs (w i - w j - w k) /\ 200 < Rabs (- w i + w j - w k) /\ 200 < Rabs (- w i - w j + w k) /\ 200 < Rabs (w i + w j + w k).
Proof.
  intros C P Hi Hj Hk. repeat split.
  - rewrite <- Rabs_Ropp. replace (- (w i - w j - w k)) with (w j + w k - w i) by ring. now apply C.
  - rewrite <- Rabs_Ropp. replace (- (- w i + w j - w k)) with (w i + w k - w j) by ring. now apply C.
  - rewrite <- Rabs_Ropp. replace (- (- w i - w j + w k)) with (w i + w j - w k) by ring. now apply C.
  - pose proof (C i i i Hi Hi Hi) as Q. pose proof (P i Hi). pose proof (P j Hj). pose proof (P k Hk).
    replace (w i + w i - w i) with (w i) in Q by ring. rewrite Rabs_pos_eq in Q by lra. rewrite Rabs_pos_eq by lra. lra.
Qed.
Lemma nleb_far x y : x < y -> nleb (F := R) y x = false.
Proof. intros L. destruct (nleb y x) eqn:E; [|reflexivity]. apply Rleb_true in E. lra. Qed.
Lemma clear_fermi r n modes w f3 r1 r2 : r <> SphericalTop -> r <> NoRotor -> r <> AsymmTop -> r <> Diatomic ->
  Permutation (flat_map members modes) (seq 0 n) -> clear_of n w -> (forall p, (p < n)%nat -> 0 < w p) ->
  fermi1 r modes w f3 = Some r1 -> fermi2 r modes w f3 = Some r2 -> r1 = [] /\ r2 = [].
Proof.
  intros N1 N2 N3 N4 Hp C P E1 E2. split.
  - destruct r1 as [|[i j] r1]; [reflexivity|]. exfalso.
    destruct (fermi1_bound n modes Hp r w f3 _ i j N1 N2 E1 (or_introl eq_refl)) as [Hi Hj].
    assert (Z : forall a b, (a < n)%nat -> (b < n)%nat -> ferm1_test w f3 a b = []).
    { intros a b Ha Hb. unfold ferm1_test. change (@nabs R _) with Rabs. rewrite nleb_far; [reflexivity|].
      unfold FTOL1. rewrite !nz_R. pose proof (C a a b Ha Ha Hb) as Q. replace (w a + w a - w b) with (2 * w a - w b) in Q by ring. exact Q. }
    assert (X : In (i, j) (ferm1_test w f3 i j)).
    { assert (Hin : In (i, j) ((i, j) :: r1)) by now left.
      assert (T : forall a b, In (i, j) (ferm1_test w f3 a b) -> In (i, j) (ferm1_test w f3 i j)).
      { intros a b Q. pose proof Q as Q'. apply in_ferm1_test in Q' as [Q' _]. injection Q' as -> ->. exact Q. }
      destruct r; try contradiction; cbn [fermi1] in E1; injection E1 as E1; rewrite <- E1 in Hin; unfold collect in Hin;
      repeat match goal with
      | X : In _ (_ ++ _) |- _ => apply in_app_or in X as [X|X]
      | X : In _ (flat_map _ _) |- _ => apply in_flat_map in X as (? & ? & X)
      | p : (_ * _)%type |- _ => destruct p
      end; eauto. }
    rewrite Z in X by assumption. destruct X.
  - destruct r2 as [|[[i j] k] r2]; [reflexivity|]. exfalso.
    destruct (fermi2_bound n modes Hp r w f3 _ i j k N1 N2 E2 (or_introl eq_refl)) as (Hi & Hj & Hk).
    destruct (clear_diffs n w i j k C P Hi Hj Hk) as (D1 & D2 & D3 & D4).
    pose proof (four_large _ _ _ _ D1 D2 D3 D4) as D.
    assert (Hs : r = OblateSymmTop \/ r = ProlateSymmTop \/ r = Linear) by (destruct r; tauto).
    assert (Hin : In (i, j, k) ((i, j, k) :: r2)) by now left.
    apply (fermi2_sym_lemma r modes w f3 _ Hs E2 i j k) in Hin.
    destruct Hin as [[Hh _]|[Hh _]].
    + unfold hit, ferm2_test in Hh. unfold aminjm in Hh.
      repeat match type of Hh with context [partial_cmp ?a ?b] => destruct (partial_cmp_R a b) as (? & Ec); rewrite Ec in Hh; clear Ec; cbn [obind] in Hh end.
      assert (G : forall da, 200 < Rabs da -> nleb (nabs da) DFTOL = false).
      { intros da L. apply nleb_far. unfold DFTOL. rewrite nz_R. exact L. }
      assert (F1 : nleb (nabs (nmul (nmul (nmul (w i - w j - w k) (- w i + w j - w k)) (- w i - w j + w k)) (w i + w j + w k))) DLTOL = false).
      { apply nleb_far. unfold DLTOL. rewrite nz_R. exact D. }
      match type of Hh with context [nltb ?x ?y] => destruct (nltb x y) end;
      match type of Hh with context [nltb ?x ?y] => destruct (nltb x y) end;
      cbn [obind] in Hh;
      apply some_eq in Hh;
      match type of Hh with context [nleb (nabs ?d) DFTOL] => assert (X : nleb (nabs d) DFTOL = false)
        by (apply G; exact D1 || exact D2 || exact D3) end; rewrite X in Hh;
      match type of Hh with context [nleb (nabs ?d) DLTOL] => assert (Y : nleb (nabs d) DLTOL = false) by exact F1 end;
      rewrite Y, andb_false_r in Hh; discriminate.
    + unfold hit', ferm2_test' in Hh.
      match type of Hh with context [nleb (nabs ?d) DLTOL] => assert (F1 : nleb (nabs d) DLTOL = false) end.
      { apply nleb_far. unfold DLTOL. rewrite nz_R. exact D. }
      rewrite F1 in Hh.
      rewrite !nleb_far in Hh by (unfold DFTOL; rewrite nz_R; assumption).
      rewrite andb_false_r in Hh. discriminate.
Qed.

Section Prints.
  Context {I : Type}.
  Variables (eig2 : R -> R -> R -> R * R * (R * R)) (eig : (nat -> nat -> R) -> list R * (nat -> nat -> R)).

  (** the result of a run of a linear molecule can be printed *)
  Lemma linear_prints label (A : I) fuel buddy m axes iatom order fc2 f3x f4x freq l0 o :
    let N := m_natom m in
    let n := m_nvib m in
    m_rotor m = Linear -> (0 < N)%nat -> (0 < n <= 3 * N)%nat -> (iatom < N)%nat ->
    labels_end (F := R) fuel ->
    solves (3 * N) eig (secular N axes fc2 (m_w m)) ->
    harmonic N axes fc2 (m_w m) eig = Some (freq, l0) ->
    linear_modes N n iatom (fun i => nth i freq 0) l0 ->
    run eig2 eig label A fuel buddy false m axes iatom order (Quartic fc2 f3x f4x) = Some (FullResult o) ->
    (clear_of n (fun i => nth i freq 0) -> rs_fermi1 (out_resonances o) = [] /\ rs_fermi2 (out_resonances o) = []) /\
    out_linear o = true /\ out_rot_equil o = m_rotcon m /\
    out_rots o <> [] /\ Forall (fun r => small_state n (rot_state r)) (out_rots o) /\
    forall (T : FText R) eprint ishow geo rotcon ogeo, write_output eprint ishow geo rotcon ogeo o <> None.
  Proof.
    intros N n Hr HN Hn Hi Hl Sv Eh TM E.
    assert (Hs : is_sym_top (m_rotor m) = Some true) by (rewrite Hr; reflexivity).
    destruct (harmonic_run N axes fc2 (m_w m) eig Sv) as (h & l0' & Eh' & (Lh & _) & _).
    pose proof Eh as Eh2. rewrite Eh' in Eh2. apply some_eq, pair_equal_spec in Eh2 as [Efr El]. subst l0'.
    assert (Lf : List.length freq = (3 * N)%nat) by (rewrite <- Efr, map_length; exact Lh).
    set (w := fun i => nth i freq 0) in *.
    assert (Wf : (fun i => nth i freq (nz 0)) = w) by (unfold w; rewrite nz_R; reflexivity).
    set (lx0 := make_lx (3 * N) (make_sqm (m_w m)) l0).
    destruct (align_total1 N n iatom order buddy w (m_w m) l0 lx0 (proj1 Hn) Hi (lm_apart _ _ _ _ _ TM) (lm_two _ _ _ _ _ TM) (lm_big _ _ _ _ _ TM))
      as (V & lx & Ea).
    assert (Ap : forall i j, (i < j)%nat -> (j < n)%nat -> w i = w j \/ 1 / 10 <= Rabs (w i - w j)).
    { intros i j H1 H2. destruct (lm_apart _ _ _ _ _ TM i j H1 H2); [now left|right; lra]. }
    destruct (three_modes n w (lm_w _ _ _ _ _ TM) Ap (lm_two _ _ _ _ _ TM) (m_rotor m) Hs)
      as (modes & Ed & Hp & _).
    destruct (run_prefix eig2 eig label A fuel buddy false m axes iatom order (Quartic fc2 f3x f4x)
      freq l0 V lx) as (irreps & Li & _ & Er).
    { rewrite Hr; discriminate. } { rewrite Hr; discriminate. } { exact Hl. } { exact Eh. }
    { unfold RunFacts.aligned. rewrite Hr, Wf. exact Ea. }
    rewrite E in Er. symmetry in Er.
    match type of Er with obind ?a _ = _ => destruct a as [f3l|]; [|discriminate] end. cbn [obind] in Er.
    match type of Er with obind ?a _ = _ => destruct a as [f4l|]; [|discriminate] end. cbn [obind] in Er.
    destruct (finish_prints eig2 m freq f3l f4l irreps V lx modes) as (o' & Eo & P1 & P2 & P3).
    { rewrite Hr; discriminate. } { rewrite Hr; discriminate. }
    { fold n. rewrite Wf. exact Ed. } { exact Hp. } { apply comparable_R. }
    { rewrite Lf. exact (proj2 Hn). } { exact HN. } { intros Q. rewrite Hr in Q. discriminate. }
    { rewrite Li. fold n N. pose proof (modes_few modes) as F. rewrite (Permutation_length Hp), seq_length in F. fold n in F. lia. }
    rewrite Eo in Er. cbn [obind] in Er. apply some_eq in Er. assert (o' = o) as -> by congruence.
    destruct (finish_inv eig2 m freq f3l f4l irreps V lx o Eo)
      as (sym & x & g & e0 & lev & eng & rows & _ & Rr & _ & _ & _ & _ & _ & _ & _ & _ & _ & _ & Re & Rl & _).
    split; [|split; [rewrite Rl, Hr; reflexivity|]; split; [exact Re|]; auto].
    intros Cl. rewrite Wf in Rr. fold n in Rr. unfold restst_new in Rr. rewrite Ed in Rr. cbn [obind] in Rr.
    match type of Rr with obind ?a _ = _ => destruct a; [|discriminate] end. cbn [obind] in Rr.
    match type of Rr with obind ?a _ = _ => destruct a as [q1|] eqn:F1; [|discriminate] end. cbn [obind] in Rr.
    match type of Rr with obind ?a _ = _ => destruct a as [q2|] eqn:F2; [|discriminate] end. cbn [obind] in Rr.
    do 2 (match type of Rr with obind ?a _ = _ => destruct a; [|discriminate] end; cbn [obind] in Rr).
    apply some_eq in Rr. rewrite <- Rr. cbn [rs_fermi1 rs_fermi2].
    apply (clear_fermi (m_rotor m) n modes w _ q1 q2) in F2; try exact F1; try exact F2; try exact Hp; try exact Cl; try (rewrite Hr; discriminate).
    intros p Hp'. pose proof (lm_w _ _ _ _ _ TM p Hp'). lra.
  Qed.
End Prints.

(** ** the loaded geometry *)
Section Load.
  Context {I : Type}.
  Variables (sy : symm R I) (s : R) (mu : N -> option R -> R).
  Context `{T0 : FText R}.

  Lemma linear_places infile (l : loaded R) s0 : load_input sy infile = Some l -> l_rotor l = Linear -> read infile = Some s0 ->
    l_iatom l = 0%nat /\
    exists pr axes ats', normalize sy (to_angstrom sy (atoms s0)) = (pr, axes, Linear, ats') /\
      map where_ (atoms (l_input l)) = map (fun v => vsub v (centre_of_mass sy ats')) (map where_ ats').
  Proof.
    intros El Hr Er. unfold load_input in El. rewrite Er in El. cbn [obind] in El. unfold process_molecule in El.
    destruct (normalize sy (to_angstrom sy (atoms s0))) as [[[pr axes] r] at1] eqn:En. cbv zeta in El.
    destruct (is_sym_top r) as [sym|] eqn:Es; [|discriminate]. cbn [obind] in El.
    destruct (orient_geom sym (is_linear r) _ _ _ axes) as [[[vs axes'] top]|] eqn:Eo in El; [|discriminate]. cbn [obind] in El.
    destruct (match top with Some x => x | None => (0%nat, 0%nat, axis_default sy) end) as [[iatom order] ax0] eqn:Et.
    match type of El with context [make_sizes (List.length ?x)] => set (at3 := x) in * end.
    destruct (make_sizes (List.length at3) (is_linear r)) as [sz|]; [|discriminate]. cbn [obind] in El. apply some_eq in El. subst l.
    cbn [l_rotor] in Hr. subst r. cbn [is_sym_top] in Es. cbn [is_linear] in Eo.
    unfold orient_geom in Eo. rewrite andb_false_r in Eo. cbn [obind] in Eo. apply some_eq in Eo.
    apply pair_equal_spec in Eo as [Eo <-]. apply pair_equal_spec in Eo as [<- <-].
    cbn [l_iatom]. split. { apply pair_equal_spec in Et as [Et _]. apply pair_equal_spec in Et as [<- _]. reflexivity. }
    exists pr, axes, at1.
    split; [reflexivity|]. cbn [l_input atoms]. unfold at3.
    rewrite map_map. generalize (centre_of_mass sy at1). intros c. clear. induction at1 as [|a k IH]; [reflexivity|].
    cbn [map combine]. rewrite <- IH. f_equal. destruct c as [[x y] z], a. reflexivity.
  Qed.

  Lemma linear_on_axis infile (l : loaded R) s0 : load_input sy infile = Some l -> l_rotor l = Linear -> read infile = Some s0 ->
    symm_ok sy s mu (atoms s0) -> total sy (atoms s0) <> 0 ->
    on_axis (List.length (atoms s0)) (place_of (atoms (l_input l))).
  Proof.
    intros El Hr Er Ok Ht q Hq. destruct (linear_places infile l s0 El Hr Er) as (_ & pr & axes & ats' & En & Eg).
    destruct (load_frame_lemma sy s mu infile l El) as (s1 & Er' & _ & Fl). assert (s1 = s0) as -> by congruence. clear Er'.
    destruct (Fl Ok Ht) as (_ & Em & _ & Hc & _). clear Fl. rewrite Em in Hc.
    destruct (ok_rigid _ _ _ _ Ok _ _ _ _ En) as (_ & c1 & E1).
    assert (La : List.length ats' = List.length (atoms s0)).
    { rewrite E1, map_length, (ok_scale _ _ _ _ Ok), map_length. reflexivity. }
    assert (Ll : List.length (atoms (l_input l)) = List.length (atoms s0)).
    { rewrite <- La, <- (map_length where_ (atoms (l_input l))), Eg, !map_length. reflexivity. }
    rewrite Ll in Hc. set (n := List.length (atoms s0)) in *.
    assert (P : forall p y, (p < n)%nat -> (y < 2)%nat -> comp (place_of (atoms (l_input l)) p) y = comp (place_of (atoms (l_input l)) q) y).
    { intros p y Hp Hy. unfold place_of. rewrite Eg. set (cm := centre_of_mass sy ats').
      assert (D : forall k, (k < n)%nat -> exists a, In a ats' /\ nth k (map (fun v => vsub v cm) (map where_ ats')) (0, 0, 0) = vsub (where_ a) cm).
      { intros k Hk. destruct (nth_error ats' k) as [a|] eqn:Ek; [|apply nth_error_None in Ek; lia].
        exists a. split; [now apply nth_error_In in Ek|]. apply nth_error_nth. now rewrite !nth_error_map, Ek. }
      destruct (D p Hp) as (a & Ha & ->). destruct (D q Hq) as (b & Hb & ->).
      destruct (ok_linear _ _ _ _ Ok _ _ _ _ En eq_refl ltac:(discriminate) a b Ha Hb) as [Ya Za].
      destruct cm as [[cx cy] cz], y as [|[|y]]; try lia; cbn [where_ vsub comp fst snd]; lra. }
    assert (Z : forall y, (y < 2)%nat -> comp (place_of (atoms (l_input l)) q) y = 0).
    { intros y Hy. specialize (Hc y ltac:(lia)).
      rewrite (sum_g n _ (fun p => nth p (masses sy (atoms s0)) 0 * comp (place_of (atoms (l_input l)) q) y)) in Hc
        by (intros p Hp; now rewrite (P p y Hp)).
      rewrite Rsum_scal_r in Hc. pose proof Ht as Ht'. rewrite (total_sum sy s mu (atoms s0) Ok) in Ht'. fold n in Ht'.
      apply Rmult_integral in Hc as [Hc|Hc]; [contradiction|exact Hc]. }
    pose proof (Z 0%nat ltac:(lia)) as Z0. pose proof (Z 1%nat ltac:(lia)) as Z1.
    destruct (place_of (atoms (l_input l)) q) as [[gx gy] gz]. cbn [comp fst snd] in Z0, Z1. subst. now exists gz.
  Qed.
End Load.

(** ** the report *)
Lemma perturbed_B n w f3 f4 zeta B B' res v us : (forall x, (x < 3)%nat -> B x = B' x) ->
  perturbed n w f3 f4 zeta B res v us = perturbed n w f3 f4 zeta B' res v us.
Proof. intros E. unfold perturbed. now rewrite !E by lia. Qed.
Lemma angular_shift_B n zeta B B' : (forall x, (x < 3)%nat -> B x = B' x) -> angular_shift n zeta B = angular_shift n zeta B'.
Proof. intros E. unfold angular_shift. now rewrite !E by lia. Qed.

Section Files.
  Context {I : Type}.
  Variables (T0 : FText R) (sy : symm R I) (s : R) (mu : N -> option R -> R) (eig2 : R -> R -> R -> R * R * (R * R))
    (eig : (nat -> nat -> R) -> list R * (nat -> nat -> R)) (eprint : nat -> R -> text) (name : I -> text)
    (infile t15 t30 t40 : text) (s0 : spectro R) (l : loaded R) (d2 d3 d4 : list R).
  Hypothesis Pr : prints eprint (irrep_text sy) name.
  Hypothesis Ei : read infile = Some s0.
  Hypothesis El : load_input sy infile = Some l.
  Hypothesis E15 : numbers t15 = Some d2.
  Hypothesis E30 : load_vec t30 = Some d3.
  Hypothesis E40 : load_vec t40 = Some d4.
  Hypothesis Ok : symm_ok sy s mu (atoms s0).
  Let N := List.length (atoms s0).
  Let mass q := nth q (masses sy (atoms s0)) 0.
  Let n := (3 * N - 5)%nat.
  Let geom := place_of (atoms (l_input l)).
  (** the moment of inertia about an axis through the centre of mass, across the molecule *)
  Let J := Sum N (fun q => mass q * comp (geom q) 2 ^ 2).
  Let b := ROTCONST / J.
  Hypothesis Hr : l_rotor l = Linear.
  Hypothesis HN : (2 < N)%nat.
  Hypothesis Pm : forall q, (q < N)%nat -> 0 < mass q.
  Hypothesis HJ : / 100 < J.
  Hypothesis Hg : Forall plain (molecule_lines sy (atoms (l_input l))).
  Hypothesis L2 : List.length d2 = (3 * N * (3 * N))%nat.
  Hypothesis Hs : symmetric_list (3 * N) d2.
  Hypothesis L3 : List.length d3 = (3 * N * (3 * N + 1) * (3 * N + 2) / 6)%nat.
  Hypothesis L4 : List.length d4 = (3 * N * (3 * N + 1) * (3 * N + 2) * (3 * N + 3) / 24)%nat.
  Hypothesis Sv : forall fc2, lists2 (3 * N) d2 fc2 -> solves (3 * N) eig (secular N (l_axes l) fc2 mass).
  Hypothesis Ax : forall fc2 f3x f4x, lists2 (3 * N) d2 fc2 -> lists3 (3 * N) d3 f3x -> lists4 (3 * N) d4 f4x ->
    axially_symmetric N (con2 (3 * N) (every_atom (l_axes l)) fc2) (con3 (3 * N) (every_atom (l_axes l)) f3x)
      (con4 (3 * N) (every_atom (l_axes l)) f4x).
  Hypothesis Lm : forall fc2 freq l0, lists2 (3 * N) d2 fc2 -> harmonic N (l_axes l) fc2 mass eig = Some (freq, l0) ->
    linear_modes N n 0 (fun i => nth i freq 0) l0 /\
    forall i j k, (i < n)%nat -> (j < n)%nat -> (k < n)%nat -> nth i freq 0 + nth j freq 0 <> nth k freq 0.

  Let m := molecule_of sy l.
  Let label := (fun _ : nat -> R * R * R => irrep_of sy (atoms (l_input l))).
  Let buddy := find_buddy sy (atoms (l_input l)) (l_axis l) (l_order l) (l_iatom l).

  Lemma linear_total : total sy (atoms s0) <> 0.
  Proof.
    rewrite (total_sum sy s mu (atoms s0) Ok). fold N mass.
    apply Rgt_not_eq. apply (sum_pos N mass); [lia|exact Pm].
  Qed.
  Lemma linear_loaded :
    m_rotor m = Linear /\ m_natom m = N /\ m_nvib m = n /\ m_w m = mass /\ m_geom m = geom /\
    on_axis N geom /\ orth 3 (l_axes l) /\ l_iatom l = 0%nat /\
    (forall x, (x < 3)%nat -> Sum N (fun q => mass q * comp (geom q) x) = 0) /\
    m_primat m 0%nat = J /\ m_primat m 1%nat = J /\ m_primat m 2%nat = 0 /\
    m_rotcon m 0%nat = b /\ m_rotcon m 1%nat = b /\ m_rotcon m 2%nat = 0 /\
    (exists c, forall q, (q < N)%nat -> geom q = in_frame (l_axes l) (vsub (vscale s (place_of (atoms s0) q)) c)) /\
    inertia N mass geom 0 0 = J.
  Proof.
    destruct (load_frame_lemma sy s mu infile l El) as (s1 & Ei' & Hh & Fl).
    assert (s1 = s0) as -> by congruence. clear Ei'. destruct (Fl Ok linear_total) as (Ho & Em & Ex & Hc & In_). clear Fl.
    destruct (Ex ltac:(intros Dia; rewrite Hr in Dia; discriminate)) as (c & Ec). clear Ex.
    assert (Ln : List.length (atoms (l_input l)) = N) by (rewrite Ec, map_length; reflexivity).
    rewrite Ln, Em in In_, Hc. specialize (In_ ltac:(right; right; rewrite Hr; reflexivity)). fold mass geom in In_, Hc.
    pose proof (linear_on_axis sy s mu infile l s0 El Hr Ei Ok linear_total) as Oa. fold N geom in Oa.
    destruct (load_sizes sy infile l El) as (Z1 & _ & Z3). rewrite Ln in Z1, Z3. rewrite Hr in Z3. cbn [is_linear] in Z3.
    assert (Mp : forall a, (a < 3)%nat -> m_primat m a = inertia N mass geom a a).
    { intros a Ha. rewrite In_ by assumption. unfold kron. rewrite Nat.eqb_refl. unfold m, molecule_of. cbn [m_primat].
      destruct (l_primat l) as [[? ?] ?]. destruct a as [|[|[|a]]]; try lia; cbn [Program.at3 comp fst snd]; ring. }
    assert (Ia : forall a, (a < 3)%nat -> inertia N mass geom a a = match a with 2%nat => 0 | _ => J end).
    { intros a Ha. unfold inertia, J. destruct a as [|[|[|a]]]; try lia; [| |apply Rsum_0]; [apply sum_g|apply sum_g|];
        intros q Hq; try apply in_seq in Hq; destruct (Oa q ltac:(lia)) as (z & ->); unfold kron; cbn [Nat.eqb comp fst snd]; ring. }
    assert (Rc : forall a, (a < 3)%nat -> m_rotcon m a = match a with 2%nat => 0 | _ => b end).
    { intros a Ha. change (m_rotcon m a) with (Geom.rot_const (m_primat m a)). rewrite Mp, Ia by exact Ha.
      unfold Geom.rot_const, ngtb. cbn [nltb nlit Rnum ndiv]. rewrite nz_R. clearbody J.
      destruct a as [|[|[|a]]]; try lia.
      - replace (Rltb _ _) with true; [reflexivity|]. symmetry. apply Rltb_true. lra.
      - replace (Rltb _ _) with true; [reflexivity|]. symmetry. apply Rltb_true. lra.
      - replace (Rltb _ _) with false; [reflexivity|]. symmetry. apply Rltb_false. lra. }
    split; [exact Hr|]. split; [exact Ln|]. split; [unfold m, molecule_of, n; cbn [m_nvib]; lia|].
    split; [unfold m, molecule_of, mass; cbn [m_w]; rewrite nz_R, Em; reflexivity|].
    split; [unfold m, molecule_of, geom, place_of; cbn [m_geom]; rewrite nz_R; reflexivity|].
    split; [exact Oa|]. split; [exact Ho|]. split; [exact (proj1 (linear_places sy infile l s0 El Hr Ei))|].
    split; [exact Hc|].
    split; [now rewrite Mp, Ia by lia|]. split; [now rewrite Mp, Ia by lia|]. split; [now rewrite Mp, Ia by lia|].
    split; [now rewrite Rc by lia|]. split; [now rewrite Rc by lia|]. split; [now rewrite Rc by lia|].
    split; [|now rewrite Ia by lia].
    exists c. intros q Hq. unfold geom. rewrite Ec. apply (place_moved (fun a => in_frame (l_axes l) (vsub (vscale s (where_ a)) c))
          (fun v => in_frame (l_axes l) (vsub (vscale s v) c))); [exact Hq|reflexivity].
  Qed.
  Lemma linear_tables : exists fc2 f3x f4x,
    lists2 (3 * N) d2 fc2 /\ lists3 (3 * N) d3 f3x /\ lists4 (3 * N) d4 f4x /\
    sym2 (3 * N) fc2 /\ tsym3 (3 * N) f3x /\ tsym4 (3 * N) f4x /\
    exists freq l0, harmonic N (l_axes l) fc2 mass eig = Some (freq, l0) /\
    forall fuel o, labels_end (F := R) fuel ->
    run eig2 eig label (irrep_A sy) fuel buddy false m (l_axes l) (l_iatom l) (l_order l) (Quartic fc2 f3x f4x) = Some (FullResult o) ->
    exists t, program sy eig2 eig fuel eprint false infile t15 t30 t40 = Some t /\
      write_output eprint (irrep_text sy) (molecule_lines sy (atoms (l_input l))) (m_rotcon m) (molecule_lines sy (atoms (l_input l))) o = Some t /\
      out_linear o = true /\ out_rot_equil o = m_rotcon m /\ out_rots o <> [] /\ Forall (fun r => small_state n (rot_state r)) (out_rots o) /\
      (clear_of n (fun i => nth i freq 0) -> rs_fermi1 (out_resonances o) = [] /\ rs_fermi2 (out_resonances o) = []).
  Proof.
    destruct (read_fc2_listed (3 * N) t15 d2 E15 L2 Hs) as (fc2 & R2 & Q2).
    destruct (read_fc3_listed (3 * N) t30 d3 E30 L3) as (f3x & R3 & Q3).
    destruct (read_fc4_listed (3 * N) t40 d4 E40 L4) as (f4x & R4 & Q4).
    exists fc2, f3x, f4x. split; [exact Q2|]. split; [exact Q3|]. split; [exact Q4|].
    split. { intros i j Hi Hj. apply some_eq. rewrite <- (Q2 i j), <- (Q2 j i) by assumption. now apply Hs. }
    split; [exact (lists3_tsym _ _ _ Q3)|]. split; [exact (lists4_tsym _ _ _ Q4)|].
    destruct (harmonic_run N (l_axes l) fc2 mass eig (Sv fc2 Q2)) as (h & l0 & Eh & _ & _).
    set (freq := map to_wavenumber h) in Eh. exists freq, l0. split; [exact Eh|]. intros fuel o Hf Eo.
    destruct linear_loaded as (M1 & Mn & Mv & Mw & _ & _ & _ & Mi & _).
    destruct (linear_prints eig2 eig label (irrep_A sy) fuel buddy m (l_axes l) (l_iatom l) (l_order l) fc2 f3x f4x freq l0 o) as (P0 & P1 & P2 & P3 & P4 & P5).
    { exact M1. } { rewrite Mn; lia. } { rewrite Mn, Mv; unfold n; lia. } { rewrite Mn, Mi; lia. } { exact Hf. }
    { rewrite Mn, Mw. exact (Sv fc2 Q2). } { rewrite Mn, Mw. exact Eh. }
    { rewrite Mn, Mv, Mi. exact (proj1 (Lm fc2 _ l0 Q2 Eh)). } { exact Eo. }
    set (geo := molecule_lines sy (atoms (l_input l))) in *.
    destruct (write_output eprint (irrep_text sy) geo (m_rotcon m) geo o) as [t|] eqn:Et; [|now elim (P5 T0 eprint (irrep_text sy) geo (m_rotcon m) geo)].
    exists t. split.
    - destruct (load_sizes sy infile l El) as (Z1 & _ & Z3).
      assert (Ln : List.length (atoms (l_input l)) = N) by exact Mn. rewrite Ln in Z1.
      unfold program. rewrite El. cbn [obind]. unfold run_files. rewrite Z1, R2, R3, R4. cbn [obind].
      fold m label buddy. rewrite Eo. cbn [obind]. exact Et.
    - split; [reflexivity|]. split; [exact P1|]. split; [exact P2|]. split; [exact P3|]. rewrite <- Mv. split; [exact P4|exact P0].
  Qed.

  Lemma linear_from_files_lemma : exists fc2 f3x f4x freq l0 fuel0 lx,
    lists2 (3 * N) d2 fc2 /\ lists3 (3 * N) d3 f3x /\ lists4 (3 * N) d4 f4x /\
    harmonic N (l_axes l) fc2 mass eig = Some (freq, l0) /\
    let w := fun i => nth i freq 0 in
    let hess := fun a b => FACT2 * con2 (3 * N) (every_atom (l_axes l)) fc2 a b in
    let F3 := cubic_spec (3 * N) (con3 (3 * N) (every_atom (l_axes l)) f3x) lx w in
    let F4 := quartic_spec (3 * N) (con4 (3 * N) (every_atom (l_axes l)) f4x) lx w in
    let zeta := zeta_of N (fun a i => sqrt (mass (a / 3)%nat) * lx a i) in
    let B x := match x with 0%nat | 1%nat => b | _ => 0 end in
    let E v us := perturbed n w F3 F4 zeta B none v us + angular_shift n zeta B in
    (forall i j, (i < 3 * N)%nat -> (j < 3 * N)%nat ->
       Sum (3 * N) (fun a => mass (a / 3)%nat * lx a i * lx a j) = (if Nat.eqb i j then 1 else 0)) /\
    (forall i j, (i < 3 * N)%nat -> (j < 3 * N)%nat -> i <> j -> con2 (3 * N) lx hess i j = 0) /\
    (forall i, (i < 3 * N)%nat -> nth_error freq i = Some (to_wavenumber (con2 (3 * N) lx hess i i))) /\
    StronglySorted Rge freq /\
    forall fuel, (fuel0 <= fuel)%nat ->
    exists t single pairs cor fermi1 fermi2,
      program sy eig2 eig fuel eprint false infile t15 t30 t40 = Some t /\
      (forall i, In i single <-> (i < n)%nat /\ forall j, (j < n)%nat -> j <> i -> w j <> w i) /\
      (forall i j, In (i, j) pairs <-> (i < j < n)%nat /\ w i = w j) /\
      (Forall (narrow 12 20) [0; b] ->
       exists head row after,
         block (lines t) (lit "Equilibrium Rotational Constants (cm-1):") [head; row] after /\
         words head = [lit "B"] /\ words row = [fprint 12 b]) /\
      (Forall (fun '(i, j, x) => short i /\ short j) cor -> Forall (fun '(i, j) => short i /\ short j) fermi1 ->
       Forall (fun '(i, j, k) => short i /\ short j /\ short k) fermi2 ->
       exists cs f1 f2 after1 after2 after3,
         block (lines t) (lit "Coriolis Resonances:") cs after1 /\
         map words cs = map (fun '(i, j, x) => [show i; show j; nth x (map lit ["A"; "B"; "C"]%string) []]) cor /\
         block (lines t) (lit "Type 1 Fermi Resonances:") f1 after2 /\
         map words f1 = map (fun '(i, j) => [show i; show j]) fermi1 /\
         block (lines t) (lit "Type 2 Fermi Resonances:") f2 after3 /\
         map words f2 = map (fun '(i, j, k) => [show i; show j; show k]) fermi2) /\
      ((forall i j k, (i < n)%nat -> (j < n)%nat -> (k < n)%nat -> 200 < Rabs (w i + w j - w k)) -> fermi1 = [] /\ fermi2 = []) /\
      (fermi1 = [] -> fermi2 = [] ->
       let listed := single ++ map fst pairs in
       forall us0 us, intermediate n F3 ground us0 -> (forall k, In k listed -> intermediate n F3 (one k) (us k)) ->
       let fund k := E (one k) (us k) - E ground us0 in
       Forall (fun k => narrow 1 8 (w k) /\ narrow 1 8 (fund k)) listed ->
       exists head rows z after,
         block (lines t) (lit "Vibrational Frequencies (cm-1):") (head :: rows) (z :: after) /\
         words head = map lit ["Mode"; "Symm"; "Harm"; "Fund"; "Corr"]%string /\
         words z = [lit "ZPT"; lit "="; fprint 1 (E ground us0
           + Rsum (map fst pairs) (se_ddn w F3 none single (map fst pairs)))] /\
         (List.length pairs = 1%nat -> words z = [lit "ZPT"; lit "="; fprint 1 (E ground us0)]) /\
         List.length rows = List.length listed /\
         forall p row, nth_error rows p = Some row -> exists k i, nth_error listed p = Some k /\
           words row = [show (p + 1); name i; fprint 1 (w k); fprint 1 (fund k); fprint 1 (fund k)]).
  Proof.
    destruct linear_tables as (fc2 & f3x & f4x & Q2 & Q3 & Q4 & S2 & S3 & S4 & freq & l0 & Eh & Wr).
    destruct linear_loaded as (M1 & Mn & Mv & Mw & Mg & Oa & Ho & Mi & Hc & J0 & J1 & J2 & B0 & B1 & B2 & Fr & In_).
    destruct (Lm fc2 freq l0 Q2 Eh) as [TM Dw].
    destruct (run_linear_lemma eig2 eig label (irrep_A sy) m (l_axes l) (l_iatom l) (l_order l) buddy fc2 f3x f4x freq l0) as (fuel0 & lx & R1 & R2 & R3 & R4 & R5).
    { exact M1. } { rewrite Mn; lia. } { rewrite Mn, Mv; unfold n; lia. } { rewrite Mn, Mw. exact Pm. }
    { rewrite Mn, Mg. exact Oa. } { now rewrite B0, B1. } { exact B2. } { rewrite Mn, Mi; lia. }
    { now rewrite Mn. } { now rewrite Mn. } { now rewrite Mn. } { rewrite Mn. exact (Ax fc2 f3x f4x Q2 Q3 Q4). }
    { rewrite Mn, Mw. exact (Sv fc2 Q2). } { rewrite Mn, Mw. exact Eh. } { rewrite Mn, Mv, Mi. exact TM. } { rewrite Mv. exact Dw. }
    destruct labels_end_R as (f0 & Hf0).
    exists fc2, f3x, f4x, freq, l0, (Nat.max fuel0 f0), lx.
    split; [exact Q2|]. split; [exact Q3|]. split; [exact Q4|]. split; [exact Eh|]. cbv zeta.
    rewrite Mn, Mw in R1. rewrite Mn in R2, R3. rewrite Mn, Mv, Mw in R5.
    split; [exact R1|]. split; [exact R2|]. split; [exact R3|]. split; [exact R4|].
    intros fuel Hfu. destruct (R5 fuel ltac:(lia)) as (o & Eo & HD & HS & Q). clear R5.
    destruct (Wr fuel o (Hf0 fuel ltac:(lia)) Eo) as (t & Pt & Et & Fl & Fe & Nr & Sm & Cl). clear Wr.
    set (modes := rs_modes (out_resonances o)) in *.
    exists t, (nondeg modes), (degs modes), (rs_coriolis (out_resonances o)), (rs_fermi1 (out_resonances o)), (rs_fermi2 (out_resonances o)).
    split; [exact Pt|]. split; [exact HS|]. split; [exact HD|]. split; [|split; [|split; [exact Cl|]]].
    - intros Nw. destruct (equil_block_lemma _ _ _ Pr _ _ _ _ _ Hg Hg Et) as (head & row & after & T1 & T2 & T3).
      { apply Forall_cons_iff in Nw as [N0 Nw]. apply Forall_cons_iff in Nw as [N1 _].
        repeat (apply Forall_cons || apply Forall_nil); rewrite ?B0, ?B1, ?B2; assumption. }
      exists head, row, after. rewrite Fl in T2, T3. split; [exact T1|]. split; [exact T2|]. rewrite T3. cbn [map]. now rewrite B1.
    - intros H1 H2 H3. exact (resonance_blocks_lemma _ _ _ Pr _ _ _ _ _ Hg Hg Et (conj H1 (conj H2 H3))).
    - intros N1 N2 us0 us I0 Ik Nw. destruct (Q N1 N2) as (O1 & O2 & O3 & O4). clear Q.
      destruct (O4 us0 I0) as (Z1 & Z2 & Z3). clear O4.
      set (w := fun i => nth i freq 0) in *.
      set (F3 := cubic_spec (3 * N) (con3 (3 * N) (every_atom (l_axes l)) f3x) lx w) in *.
      set (F4 := quartic_spec (3 * N) (con4 (3 * N) (every_atom (l_axes l)) f4x) lx w) in *.
      set (zeta := zeta_of N (fun a i => sqrt (mass (a / 3)%nat) * lx a i)) in *.
      set (B := fun x : nat => match x with 0%nat | 1%nat => b | _ => 0 end) in *.
      assert (PB : forall v u, perturbed n w F3 F4 zeta (m_rotcon m) none v u = perturbed n w F3 F4 zeta B none v u).
      { intros v u. apply perturbed_B. intros x Hx. destruct x as [|[|[|x]]]; try lia; assumption. }
      assert (AB : angular_shift n zeta (m_rotcon m) = angular_shift n zeta B).
      { apply angular_shift_B. intros x Hx. destruct x as [|[|[|x]]]; try lia; assumption. }
      rewrite PB, AB in Z1, Z2. setoid_rewrite PB in Z3. change (firsts modes) with (map fst (degs modes)) in *.
      set (listed := nondeg modes ++ map fst (degs modes)) in *.
      set (E := fun v us => perturbed n w F3 F4 zeta B none v us + angular_shift n zeta B).
      set (fund := fun k => E (one k) (us k) - E ground us0).
      change (Forall (fun k => narrow 1 8 (w k) /\ narrow 1 8 (fund k)) listed) in Nw.
      assert (Ec : o_corrs (out_lists o) = map fund listed).
      { apply nth_error_ext. intros p. destruct (nth_error listed p) as [k|] eqn:Ep.
        - rewrite (Z3 p k (us k) Ep (Ik k (nth_error_In _ _ Ep))), (map_nth_error fund p listed Ep). f_equal. unfold fund, E. ring.
        - apply nth_error_None in Ep. transitivity (@None R); [|symmetry]; apply nth_error_None; [rewrite O3|rewrite map_length]; exact Ep. }
      destruct (modes_block_lemma _ _ _ Pr _ _ _ _ _ Hg Hg Et) as (head & rows & z & after & T1 & T2 & T3 & T4 & T5).
      { rewrite O2, O1, Ec. rewrite Forall_forall in Nw.
        intros k Hk. apply Forall_forall. intros x Hx.
        destruct Hk as [<-|[<-|[<-|[]]]]; apply in_map_iff in Hx as (y & <- & Hy); now apply Nw. }
      exists head, rows, z, after. split; [exact T1|]. split; [exact T3|]. split; [rewrite T2, Z1; reflexivity|].
      split; [intros L1; rewrite T2, (Z2 L1); reflexivity|]. split; [rewrite T4, O1; apply map_length|].
      intros p row Hp. destruct (T5 p row Hp) as (i & h & f & c & I1 & I2 & I3 & I4 & ->).
      rewrite O1 in I2. rewrite O2, Ec in I3. rewrite Ec in I4. rewrite nth_error_map in I2, I3, I4.
      destruct (nth_error listed p) as [k|]; [|discriminate]. cbn [option_map] in I2, I3, I4.
      apply some_eq in I2, I3, I4. subst h f c. exists k, i. split; reflexivity.
  Qed.

  Hypothesis Tf : forall fc2, lists2 (3 * N) d2 fc2 ->
    translation_free N fc2 /\ rotation_free N fc2 (fun q x => comp (place_of (atoms s0) q) x).

  Lemma linear_rotation_lemma lam : 2 * ROTCONST * lam ^ 2 = 1 -> exists fc2 f3x f4x freq l0 fuel0 lx a,
    lists2 (3 * N) d2 fc2 /\ lists3 (3 * N) d3 f3x /\ lists4 (3 * N) d4 f4x /\
    harmonic N (l_axes l) fc2 mass eig = Some (freq, l0) /\
    let w := fun i => nth i freq 0 in
    let hess := fun a b => FACT2 * con2 (3 * N) (every_atom (l_axes l)) fc2 a b in
    let F3 := cubic_spec (3 * N) (con3 (3 * N) (every_atom (l_axes l)) f3x) lx w in
    let zeta := zeta_of N (fun a i => sqrt (mass (a / 3)%nat) * lx a i) in
    let moment x := match x with 0%nat | 1%nat => J | _ => 0 end in
    let B x := match x with 0%nat | 1%nat => b | _ => 0 end in
    (forall i j, (i < 3 * N)%nat -> (j < 3 * N)%nat ->
       Sum (3 * N) (fun a => mass (a / 3)%nat * lx a i * lx a j) = (if Nat.eqb i j then 1 else 0)) /\
    (forall i j, (i < 3 * N)%nat -> (j < 3 * N)%nat -> i <> j -> con2 (3 * N) lx hess i j = 0) /\
    (forall i, (i < 3 * N)%nat -> nth_error freq i = Some (to_wavenumber (con2 (3 * N) lx hess i i))) /\
    StronglySorted Rge freq /\
    inertia_slope N n mass geom lx a /\
    ((forall i j, (i < n)%nat -> (j < n)%nat -> w i = w j \/ 200 < Rabs (w i - w j)) ->
    forall fuel, (fuel0 <= fuel)%nat ->
    exists t single pairs head rows after,
      program sy eig2 eig fuel eprint false infile t15 t30 t40 = Some t /\
      (forall i, In i single <-> (i < n)%nat /\ forall j, (j < n)%nat -> j <> i -> w j <> w i) /\
      (forall i j, In (i, j) pairs <-> (i < j < n)%nat /\ w i = w j) /\
      block (lines t) (lit "Rotational Constants (cm-1):") (head :: rows) after /\
      words head = map lit ["State"; "B"]%string /\
      List.length rows = (1 + List.length single + List.length pairs)%nat /\
      forall rep, (forall i j, rep i j = true <-> (i < n)%nat /\ (j < n)%nat /\ i <> j /\ w i = w j) ->
      let states := I1st (repeat 0%nat n) :: map (fun p => I1st (unit1 n p 1)) (seq 0 (List.length single))
        ++ map (fun p => I2st (punit1 n p (1, 1)%nat)) (seq 0 (List.length pairs)) in
      let value v x := VibPerturb.rot_const n w F3 zeta a moment ROTCONST lam rep x v + rounding_term n B w a F3 lam x v in
      let const p := let v := excited (single ++ map fst pairs) p in / 2 * (value v 0%nat + value v 1%nat) in
      forall p row, nth_error rows p = Some row -> narrow 7 12 (const p) ->
        exists st, nth_error states p = Some st /\ words row = state_words st ++ [fprint 7 (const p)]).
  Proof.
    intros HK.
    destruct linear_tables as (fc2 & f3x & f4x & Q2 & Q3 & Q4 & S2 & S3 & S4 & freq & l0 & Eh & Wr).
    destruct linear_loaded as (M1 & Mn & Mv & Mw & Mg & Oa & Ho & Mi & Hc & J0 & J1 & J2 & B0 & B1 & B2 & (c & Gp) & In_).
    destruct (Lm fc2 freq l0 Q2 Eh) as [TM Dw]. destruct (Tf fc2 Q2) as [Ft Fo].
    assert (Fi : rotation_free N fc2 (input_position (l_axes l) geom)).
    { apply (rotation_free_shift N fc2 (fun q x => comp (place_of (atoms s0) q) x) _ s (comp c) Ft Fo).
      intros q x Hq Hx. rewrite (input_of_frame _ _ _ q x Ho Hx (Gp q Hq)). rewrite vsub_comp.
      destruct (place_of (atoms s0) q) as [[u v] z]. destruct x as [|[|[|x]]]; [| | |lia]; reflexivity. }
    set (w := fun i => nth i freq 0).
    set (rep0 := fun i j => (i <? n)%nat && (j <? n)%nat && negb (i =? j)%nat && (if Req_EM_T (w i) (w j) then true else false)).
    assert (Hrep0 : forall i j, rep0 i j = true <-> (i < n)%nat /\ (j < n)%nat /\ i <> j /\ w i = w j).
    { intros i j. unfold rep0. rewrite !andb_true_iff, !Nat.ltb_lt, negb_true_iff, Nat.eqb_neq. destruct (Req_EM_T (w i) (w j)); intuition discriminate. }
    destruct (run_linear_const eig2 eig label (irrep_A sy) m (l_axes l) (l_iatom l) (l_order l) buddy fc2 f3x f4x freq l0 ROTCONST lam rep0) as (fuel0 & lx & R1 & R2 & R3 & R4 & R5).
    { exact M1. } { rewrite Mn; lia. } { rewrite Mn, Mv; unfold n; lia. } { rewrite Mn, Mw. exact Pm. }
    { rewrite Mn, Mg. exact Oa. } { now rewrite B0, B1. } { now rewrite J0, J1. } { rewrite Mn, Mi; lia. }
    { now rewrite Mn. } { now rewrite Mn. } { now rewrite Mn. } { rewrite Mn. exact (Ax fc2 f3x f4x Q2 Q3 Q4). }
    { exact Ho. } { rewrite Mn, Mg. exact Fi. }
    { rewrite Mn, Mw. exact (Sv fc2 Q2). } { rewrite Mn, Mw. exact Eh. } { rewrite Mn, Mv, Mi. exact TM. } { rewrite Mv. exact Dw. }
    { exact HK. } { rewrite J1. lra. } { rewrite J1, B1. reflexivity. } { rewrite Mv. exact Hrep0. }
    destruct labels_end_R as (f0 & Hf0).
    destruct (slope_exists N n mass geom lx) as (a & Ha).
    exists fc2, f3x, f4x, freq, l0, (Nat.max fuel0 f0), lx, a.
    split; [exact Q2|]. split; [exact Q3|]. split; [exact Q4|]. split; [exact Eh|]. cbv zeta.
    rewrite Mn, Mw in R1. rewrite Mn in R2, R3. rewrite Mn, Mv, Mw, Mg in R5.
    split; [exact R1|]. split; [exact R2|]. split; [exact R3|]. split; [exact R4|]. split; [exact Ha|].
    intros Far fuel Hfu. destruct (R5 fuel ltac:(lia)) as (o & Eo & HD & HS & HC & Q). clear R5.
    specialize (Q (HC Far) a Ha). destruct Q as [Qs Qc].
    destruct (Wr fuel o (Hf0 fuel ltac:(lia)) Eo) as (t & Pt & Et & Fl & Fe & Nr & Sm & Cl). clear Wr.
    set (modes := rs_modes (out_resonances o)) in *. change (firsts modes) with (map fst (degs modes)) in *.
    rewrite map_length in Qs.
    destruct (rots_block_lemma _ _ _ Pr _ _ _ _ _ Hg Hg Et n Nr Sm) as (head & rows & after & T1 & T2 & T3 & T4).
    exists t, (nondeg modes), (degs modes), head, rows, after.
    split; [exact Pt|]. split; [exact HS|]. split; [exact HD|]. split; [exact T1|].
    split. { rewrite T3. unfold constant_names. rewrite Fl. reflexivity. }
    split. { rewrite T2, <- (map_length rot_state), Qs. cbn [List.length]. rewrite app_length, !map_length, !seq_length. lia. }
    intros rep Hrep p row Hp Nk.
    destruct (nth_error (out_rots o) p) as [r|] eqn:Er.
    2: { apply nth_error_None in Er. assert (nth_error rows p <> None) as Z by congruence. apply nth_error_Some in Z. lia. }
    exists (rot_state r). split. { rewrite <- Qs. now apply map_nth_error. }
    destruct (T4 p row r Hp Er) as [T5 _]. unfold printed_constants in T5. rewrite Fl, Fe in T5.
    change (nadd (rot_b r) (m_rotcon m 1%nat)) with (rot_b r + m_rotcon m 1%nat) in T5.
    specialize (Qc p r Er). cbv zeta in Qc. rewrite Qc in T5. clear Qc.
    assert (Er' : rep0 = rep).
    { extensionality i. extensionality j. apply eq_true_iff_eq. now rewrite Hrep0, Hrep. }
    rewrite Er' in T5.
    set (v := excited (nondeg modes ++ map fst (degs modes)) p) in *.
    set (F3 := cubic_spec (3 * N) (con3 (3 * N) (every_atom (l_axes l)) f3x) lx (fun i => nth i freq 0)) in *.
    set (zeta := zeta_of N (fun a i => sqrt (mass (a / 3)%nat) * lx a i)) in *.
    assert (Mj : m_primat m = fun x => match x with 0%nat | 1%nat => J | _ => 0 end).
    { extensionality x. destruct x as [|[|x]]; [exact J0|exact J1|]. rewrite <- J2. unfold m, molecule_of. cbn [m_primat].
      destruct (l_primat l) as [[? ?] ?]. reflexivity. }
    assert (Mb : m_rotcon m = fun x => match x with 0%nat | 1%nat => b | _ => 0 end).
    { extensionality x. destruct x as [|[|x]]; [exact B0|exact B1|]. rewrite <- B2. unfold m, molecule_of, l_rotcon. cbn [m_rotcon].
      destruct (l_primat l) as [[? ?] ?]. reflexivity. }
    rewrite Mj, Mb in T5. apply T5. apply Forall_cons; [exact Nk|apply Forall_nil].
  Qed.
End Files.
