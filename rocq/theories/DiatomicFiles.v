(** Diatomic molecules: from the texts of the files to the report. *)
From Coq Require Import Reals Lra List ZArith NArith Arith Lia Bool Ascii String Permutation Sorted.
From Verif Require Import Num Loops ListFacts Index IndexFacts LoadFacts Modes ModesFacts ResFacts
  Anharm AnharmFacts VibRot VibRotFacts Distort Transform TransformFacts RotFacts NormalFacts HarmFacts ModeFacts InertiaFacts
  SymAnharm Polyads Report ReportFacts OutputFacts Geom GeomFacts IrrepFacts Finish FinishFacts RunFacts RunSecond OutText OutFacts OutTables OutRun
  Text TextFacts SpacingFacts Program ProgramFacts ProgramRun FrameFacts RotFiles ThreeWitness DunhamFacts DiatomicRun.
Import ListNotations.
Open Scope list_scope.
Open Scope nat_scope.
Local Open Scope R_scope.

(** ** specification *)
Definition len3 (e : nat -> R) : R := sqrt (e 0%nat ^ 2 + e 1%nat ^ 2 + e 2%nat ^ 2).
(** the length of the bond grows with the second atom and shrinks with the first *)
Definition end_sign (q : nat) : R := match q with 0%nat => -1 | _ => 1 end.
(** The energy of two atoms depends on the length of the bond alone, with derivatives 0, [p2], [p3]
    and [p4]; [e] is the vector from the first atom to the second.  This is what it says of the
    second derivatives, and of the others when the atoms move along the bond by [u]. *)
Definition bond_energy (e : nat -> R) (f2 : nat -> nat -> R) (f3 : nat -> nat -> nat -> R)
  (f4 : nat -> nat -> nat -> nat -> R) (p2 p3 p4 : R) : Prop :=
  let d c := e c / len3 e in
  (forall i j a b, (i < 2)%nat -> (j < 2)%nat -> (a < 3)%nat -> (b < 3)%nat ->
     f2 (3 * i + a)%nat (3 * j + b)%nat = p2 * (end_sign i * d a) * (end_sign j * d b)) /\
  (forall u, let v q := d (q mod 3)%nat * u (q / 3)%nat in
     Sum 6 (fun a => Sum 6 (fun b => Sum 6 (fun c => f3 a b c * v c) * v b) * v a) = p3 * (u 1%nat - u 0%nat) ^ 3) /\
  (forall u, let v q := d (q mod 3)%nat * u (q / 3)%nat in
     Sum 6 (fun a => Sum 6 (fun b => Sum 6 (fun c => Sum 6 (fun g => f4 a b c g * v g) * v c) * v b) * v a) = p4 * (u 1%nat - u 0%nat) ^ 4).

(** ** contractions *)
Section Contract.
  Variables (n m : nat) (U : nat -> nat -> R) (p : nat -> nat) (u : nat -> R).
  Let V t := Sum m (fun k => U t (p k) * u k).
  Lemma pull1 g : Sum m (fun k => con1 n U g (p k) * u k) = Sum n (fun t => g t * V t).
  Proof.
    unfold con1, V. rewrite (Rsum_ext _ (fun k => Sum n (fun t => U t (p k) * g t * u k))) by (intros; now rewrite Rsum_scal_r).
    rewrite Rsum_swap. apply Rsum_ext. intros t _. rewrite <- Rsum_scal. apply Rsum_ext. intros. ring.
  Qed.
  Lemma pull_in (G : nat -> nat -> R) a : Sum m (fun k => con1 n U (fun r => G r k) a * u k) = con1 n U (fun r => Sum m (fun k => G r k * u k)) a.
  Proof.
    unfold con1. rewrite (Rsum_ext _ (fun k => Sum n (fun t => U t a * G t k * u k))) by (intros; now rewrite Rsum_scal_r).
    rewrite Rsum_swap. apply Rsum_ext. intros t _. rewrite <- Rsum_scal. apply Rsum_ext. intros. ring.
  Qed.
  Lemma pull2 g : Sum m (fun j => Sum m (fun k => con2 n U g (p j) (p k) * u k) * u j) = Sum n (fun s => Sum n (fun t => g s t * V t) * V s).
  Proof.
    unfold con2. rewrite (Rsum_ext _ (fun j => con1 n U (fun r => Sum m (fun k => con1 n U (fun s => g r s) (p k) * u k)) (p j) * u j))
      by (intros; now rewrite pull_in).
    rewrite pull1. apply Rsum_ext. intros s _. now rewrite pull1.
  Qed.
  Lemma pull3 g : Sum m (fun i => Sum m (fun j => Sum m (fun k => con3 n U g (p i) (p j) (p k) * u k) * u j) * u i) =
    Sum n (fun r => Sum n (fun s => Sum n (fun t => g r s t * V t) * V s) * V r).
  Proof.
    unfold con3. rewrite (Rsum_ext _ (fun i => con1 n U (fun r => Sum m (fun j => Sum m (fun k => con2 n U (fun s t => g r s t) (p j) (p k) * u k) * u j)) (p i) * u i)).
    - rewrite pull1. apply Rsum_ext. intros r _. now rewrite pull2.
    - intros i _. f_equal. rewrite <- pull_in. apply Rsum_ext. intros j _. now rewrite <- pull_in.
  Qed.
  Lemma pull4 g : Sum m (fun h => Sum m (fun i => Sum m (fun j => Sum m (fun k => con4 n U g (p h) (p i) (p j) (p k) * u k) * u j) * u i) * u h) =
    Sum n (fun q => Sum n (fun r => Sum n (fun s => Sum n (fun t => g q r s t * V t) * V s) * V r) * V q).
  Proof.
    unfold con4. rewrite (Rsum_ext _ (fun h => con1 n U (fun q => Sum m (fun i => Sum m (fun j => Sum m (fun k => con3 n U (fun r s t => g q r s t) (p i) (p j) (p k) * u k) * u j) * u i)) (p h) * u h)).
    - rewrite pull1. apply Rsum_ext. intros r _. now rewrite pull3.
    - intros i _. f_equal. rewrite <- pull_in. apply Rsum_ext. intros j _. f_equal. rewrite <- pull_in.
      apply Rsum_ext. intros k _. now rewrite <- pull_in.
  Qed.
End Contract.

Lemma atom_con1 axes g a : (a < 6)%nat -> con1 6 (every_atom axes) g a = Sum 3 (fun c => axes c (a mod 3)%nat * g (3 * (a / 3) + c)%nat).
Proof.
  intros Ha. unfold con1. rewrite sum6, sum3. unfold every_atom.
  cases a 6%nat; unfold Nat.div, Nat.modulo; cbn [Nat.divmod fst snd Nat.sub Nat.eqb Nat.mul Nat.add]; ring.
Qed.
Lemma atom_V axes u t : (t < 6)%nat -> Sum 2 (fun k => every_atom axes t (3 * k)%nat * u k) = axes (t mod 3)%nat 0%nat * u (t / 3)%nat.
Proof.
  intros Ht. rewrite sum2. unfold every_atom.
  cases t 6%nat; unfold Nat.div, Nat.modulo; cbn [Nat.divmod fst snd Nat.sub Nat.eqb Nat.mul Nat.add]; ring.
Qed.

(** the force constants in the frame of the bond *)
Lemma bond_turned e axes x sg f2 f3 f4 p2 p3 p4 :
  let d c := e c / len3 e in
  len3 e <> 0 -> (sg = 1 \/ sg = -1) -> (forall c, (c < 3)%nat -> axes c 0%nat = sg * d c) ->
  (forall y, (0 < y < 3)%nat -> Sum 3 (fun c => axes c y * d c) = 0) ->
  (x 1%nat - x 0%nat) / Rabs (x 1%nat - x 0%nat) = sg ->
  bond_energy e f2 f3 f4 p2 p3 p4 ->
  bond_field x (con2 6 (every_atom axes) f2) (con3 6 (every_atom axes) f3) (con4 6 (every_atom axes) f4) p2 p3 p4.
Proof.
  intros d Le Sg A0 Ay Gx (E2 & E3 & E4). fold d in E2, E3, E4.
  assert (Gr : forall u, growth x u = sg * (u 1%nat - u 0%nat)) by (intros u; unfold growth; now rewrite Gx).
  assert (D1 : forall a b, (a < 6)%nat -> (b < 6)%nat -> con2 6 (every_atom axes) f2 a b =
    p2 * (end_sign (a / 3) * Sum 3 (fun c => axes c (a mod 3)%nat * d c)) * (end_sign (b / 3) * Sum 3 (fun c => axes c (b mod 3)%nat * d c))).
  { intros a b Ha Hb. unfold con2. rewrite atom_con1 by assumption.
    assert (a / 3 < 2)%nat by (apply Nat.div_lt_upper_bound; lia). assert (b / 3 < 2)%nat by (apply Nat.div_lt_upper_bound; lia).
    rewrite !sum3. rewrite !atom_con1 by assumption. rewrite !sum3. rewrite !E2 by (assumption || lia). unfold d. ring. }
  assert (Vd : forall u t, (t < 6)%nat -> Sum 2 (fun k => every_atom axes t (3 * k)%nat * u k) = d (t mod 3)%nat * (sg * u (t / 3)%nat)).
  { intros u t Ht. rewrite atom_V, A0 by (assumption || now apply Nat.mod_upper_bound). ring. }
  assert (Ud : d 0%nat ^ 2 + d 1%nat ^ 2 + d 2%nat ^ 2 = 1).
  { assert (L2 : len3 e ^ 2 = e 0%nat ^ 2 + e 1%nat ^ 2 + e 2%nat ^ 2) by (unfold len3; apply pow2_sqrt; nra).
    unfold d. set (L := len3 e) in *. clearbody L. replace 1 with (L ^ 2 / L ^ 2) by (field; exact Le). rewrite L2 at 1. field. exact Le. }
  unfold bond_field. split; [|split; [|split]].
  - intros a b Ha Hb N. rewrite D1 by assumption.
    pose proof (Nat.mod_upper_bound a 3 ltac:(lia)). pose proof (Nat.mod_upper_bound b 3 ltac:(lia)).
    destruct N as [N|N]; rewrite (Ay _ ltac:(split; [apply Nat.neq_0_lt_0; exact N|assumption])); ring.
  - intros u. rewrite Gr. rewrite (Rsum_ext _ (fun i => Sum 2 (fun j => con2 6 (every_atom axes) f2 (3 * i)%nat (3 * j)%nat * u j) * u i)).
    2:{ intros i _. rewrite <- Rsum_scal_r. apply Rsum_ext. intros. ring. }
    rewrite (pull2 6 2 (every_atom axes) (fun k => 3 * k)%nat u).
    rewrite !sum6. rewrite !Vd by lia.
    assert (Qa : forall a b, (a < 6)%nat -> (b < 6)%nat -> f2 a b = p2 * (end_sign (a / 3) * d (a mod 3)%nat) * (end_sign (b / 3) * d (b mod 3)%nat)).
    { intros a b Ha Hb. rewrite (Nat.div_mod a 3) at 1 by lia. rewrite (Nat.div_mod b 3) at 1 by lia.
      apply E2; try (apply Nat.mod_upper_bound; lia); apply Nat.div_lt_upper_bound; lia. }
    rewrite !Qa by lia. unfold Nat.div, Nat.modulo. cbn [Nat.divmod fst snd Nat.sub end_sign].
    match goal with |- ?l = _ => transitivity (p2 * (sg * (d 0%nat ^ 2 + d 1%nat ^ 2 + d 2%nat ^ 2) * (u 1%nat - u 0%nat)) ^ 2); [ring|] end.
    rewrite Ud. ring.
  - intros u. rewrite Gr. rewrite (Rsum_ext _ (fun i => Sum 2 (fun j => Sum 2 (fun k => con3 6 (every_atom axes) f3 (3 * i)%nat (3 * j)%nat (3 * k)%nat * u k) * u j) * u i)).
    2:{ intros i _. rewrite <- Rsum_scal_r. apply Rsum_ext. intros j _. rewrite <- !Rsum_scal_r. apply Rsum_ext. intros. ring. }
    rewrite (pull3 6 2 (every_atom axes) (fun k => 3 * k)%nat u).
    transitivity (p3 * (sg * u 1%nat - sg * u 0%nat) ^ 3); [|ring].
    rewrite <- (E3 (fun i => sg * u i)). apply sum_g. intros a Ha. rewrite Vd by assumption. f_equal. apply sum_g. intros b Hb.
    rewrite Vd by assumption. f_equal. apply sum_g. intros c Hc. now rewrite Vd by assumption.
  - intros u. rewrite Gr. rewrite (Rsum_ext _ (fun h => Sum 2 (fun i => Sum 2 (fun j => Sum 2 (fun k => con4 6 (every_atom axes) f4 (3 * h)%nat (3 * i)%nat (3 * j)%nat (3 * k)%nat * u k) * u j) * u i) * u h)).
    2:{ intros h _. rewrite <- Rsum_scal_r. apply Rsum_ext. intros i _. rewrite <- !Rsum_scal_r. apply Rsum_ext. intros j _.
        rewrite <- !Rsum_scal_r. apply Rsum_ext. intros. ring. }
    rewrite (pull4 6 2 (every_atom axes) (fun k => 3 * k)%nat u).
    transitivity (p4 * (sg * u 1%nat - sg * u 0%nat) ^ 4); [|ring].
    rewrite <- (E4 (fun i => sg * u i)). apply sum_g. intros a Ha. rewrite Vd by assumption. f_equal. apply sum_g. intros b Hb.
    rewrite Vd by assumption. f_equal. apply sum_g. intros c Hc. rewrite Vd by assumption. f_equal. apply sum_g. intros g Hg. now rewrite Vd by assumption.
Qed.

(** ** the loaded geometry *)
Section Load.
  Context {I : Type}.
  Variables (sy : symm R I) (s : R) (mu : N -> option R -> R).
  Context `{T0 : FText R}.

  Lemma diatomic_places infile (l : loaded R) s0 : load_input sy infile = Some l -> l_rotor l = Diatomic -> read infile = Some s0 ->
    exists pr axes ats', normalize sy (to_angstrom sy (atoms s0)) = (pr, axes, Diatomic, ats') /\
      map where_ (atoms (l_input l)) = map (fun v => vsub v (centre_of_mass sy ats')) (map where_ ats').
  Proof.
    intros El Hr Er. unfold load_input in El. rewrite Er in El. cbn [obind] in El. unfold process_molecule in El.
    destruct (normalize sy (to_angstrom sy (atoms s0))) as [[[pr axes] r] at1] eqn:En. cbv zeta in El. exists pr, axes, at1.
    destruct (is_sym_top r) as [sym|] eqn:Es; [|discriminate]. cbn [obind] in El.
    destruct (orient_geom sym (is_linear r) _ _ _ axes) as [[[vs axes'] top]|] eqn:Eo in El; [|discriminate]. cbn [obind] in El.
    destruct (match top with Some x => x | None => (0%nat, 0%nat, axis_default sy) end) as [[iatom order] ax0].
    match type of El with context [make_sizes (List.length ?x)] => set (at3 := x) in * end.
    destruct (make_sizes (List.length at3) (is_linear r)) as [sz|]; [|discriminate]. cbn [obind] in El. apply some_eq in El. subst l.
    cbn [l_rotor] in Hr. subst r. cbn [is_sym_top] in Es. cbn [is_linear] in Eo.
    unfold orient_geom in Eo. rewrite andb_false_r in Eo. cbn [obind] in Eo. apply some_eq in Eo.
    apply pair_equal_spec in Eo as [Eo _]. apply pair_equal_spec in Eo as [<- <-].
    split; [reflexivity|]. cbn [l_input atoms]. unfold at3.
    rewrite map_map. generalize (centre_of_mass sy at1). intros c. clear. induction at1 as [|a k IH]; [reflexivity|].
    cbn [map combine]. rewrite <- IH. f_equal. destruct c as [[x y] z], a. reflexivity.
  Qed.

  Lemma diatomic_on_axis infile (l : loaded R) s0 : load_input sy infile = Some l -> l_rotor l = Diatomic -> read infile = Some s0 ->
    symm_ok sy s mu (atoms s0) -> total sy (atoms s0) <> 0 ->
    forall q y, (q < List.length (atoms s0))%nat -> (0 < y < 3)%nat -> comp (place_of (atoms (l_input l)) q) y = 0.
  Proof.
    intros El Hr Er Ok Ht q y Hq Hy. destruct (diatomic_places infile l s0 El Hr Er) as (pr & axes & ats' & En & Eg).
    destruct (load_frame_lemma sy s mu infile l El) as (s1 & Er' & _ & Fl). assert (s1 = s0) as -> by congruence. clear Er'.
    destruct (Fl Ok Ht) as (_ & Em & _ & Hc & _). clear Fl. specialize (Hc y ltac:(lia)). rewrite Em in Hc.
    destruct (ok_rigid _ _ _ _ Ok _ _ _ _ En) as (_ & c1 & E1).
    assert (La : List.length ats' = List.length (atoms s0)).
    { rewrite E1, map_length, (ok_scale _ _ _ _ Ok), map_length. reflexivity. }
    assert (Ll : List.length (atoms (l_input l)) = List.length (atoms s0)).
    { rewrite <- La, <- (map_length where_ (atoms (l_input l))), Eg, !map_length. reflexivity. }
    rewrite Ll in Hc. set (n := List.length (atoms s0)) in *.
    assert (P : forall p, (p < n)%nat -> comp (place_of (atoms (l_input l)) p) y = comp (place_of (atoms (l_input l)) q) y).
    { intros p Hp. unfold place_of. rewrite Eg. set (cm := centre_of_mass sy ats').
      assert (D : forall k, (k < n)%nat -> exists a, In a ats' /\ nth k (map (fun v => vsub v cm) (map where_ ats')) (0, 0, 0) = vsub (where_ a) cm).
      { intros k Hk. destruct (nth_error ats' k) as [a|] eqn:Ek; [|apply nth_error_None in Ek; lia].
        exists a. split; [now apply nth_error_In in Ek|]. apply nth_error_nth. now rewrite !nth_error_map, Ek. }
      destruct (D p Hp) as (a & Ha & ->). destruct (D q Hq) as (b & Hb & ->).
      destruct (ok_diatomic _ _ _ _ Ok _ _ _ En a b Ha Hb) as [Ya Za].
      destruct cm as [[cx cy] cz], y as [|[|[|y]]]; try lia; cbn [where_ vsub comp fst snd]; lra. }
    rewrite (sum_g n _ (fun p => nth p (masses sy (atoms s0)) 0 * comp (place_of (atoms (l_input l)) q) y)) in Hc
      by (intros p Hp; now rewrite (P p Hp)).
    rewrite Rsum_scal_r in Hc. rewrite (total_sum sy s mu (atoms s0) Ok) in Ht. fold n in Ht.
    apply Rmult_integral in Hc as [Hc|Hc]; [contradiction|exact Hc].
  Qed.
End Load.

Lemma vec_len (axes : nat -> nat -> R) (e : nat -> R) s D : orth 3 axes -> 0 < s -> D <> 0 ->
  Sum 3 (fun c => axes c 0%nat * (s * e c)) = D -> (forall y, (0 < y < 3)%nat -> Sum 3 (fun c => axes c y * (s * e c)) = 0) ->
  let d c := e c / len3 e in
  s * len3 e = Rabs D /\ len3 e <> 0 /\ (D / Rabs D = 1 \/ D / Rabs D = -1) /\
  (forall c, (c < 3)%nat -> axes c 0%nat = D / Rabs D * d c) /\
  (forall y, (0 < y < 3)%nat -> Sum 3 (fun c => axes c y * d c) = 0).
Proof.
  intros Ho Hs HD E0 Ey d.
  assert (Ec : forall c, (c < 3)%nat -> s * e c = axes c 0%nat * D).
  { intros c Hc. destruct Ho as [Hrow _].
    pose proof (Hrow c 0%nat Hc ltac:(lia)) as R0. pose proof (Hrow c 1%nat Hc ltac:(lia)) as R1. pose proof (Hrow c 2%nat Hc ltac:(lia)) as R2.
    pose proof (Ey 1%nat ltac:(lia)) as E1. pose proof (Ey 2%nat ltac:(lia)) as E2. rewrite sum3 in R0, R1, R2, E0, E1, E2.
    transitivity (delta c 0%nat * (s * e 0%nat) + delta c 1%nat * (s * e 1%nat) + delta c 2%nat * (s * e 2%nat)).
    - three c; unfold delta; cbn [Nat.eqb]; ring.
    - rewrite <- R0, <- R1, <- R2, <- E0.
      transitivity (axes c 0%nat * (axes 0%nat 0%nat * (s * e 0%nat) + axes 1%nat 0%nat * (s * e 1%nat) + axes 2%nat 0%nat * (s * e 2%nat))
        + axes c 1%nat * (axes 0%nat 1%nat * (s * e 0%nat) + axes 1%nat 1%nat * (s * e 1%nat) + axes 2%nat 1%nat * (s * e 2%nat))
        + axes c 2%nat * (axes 0%nat 2%nat * (s * e 0%nat) + axes 1%nat 2%nat * (s * e 1%nat) + axes 2%nat 2%nat * (s * e 2%nat))); [ring|].
      rewrite E1, E2. ring. }
  pose proof (orth_cols axes Ho 0 0 ltac:(lia) ltac:(lia)) as C. unfold kron in C. cbn [Nat.eqb] in C.
  assert (Pa : 0 < Rabs D) by (now apply Rabs_pos_lt).
  assert (Ls : s * len3 e = Rabs D).
  { unfold len3. rewrite <- (sqrt_pow2 s) at 1 by lra. rewrite <- sqrt_mult by nra.
    replace (s ^ 2 * (e 0%nat ^ 2 + e 1%nat ^ 2 + e 2%nat ^ 2)) with ((s * e 0%nat) ^ 2 + (s * e 1%nat) ^ 2 + (s * e 2%nat) ^ 2) by ring.
    rewrite !Ec by lia. replace ((axes 0%nat 0%nat * D) ^ 2 + (axes 1%nat 0%nat * D) ^ 2 + (axes 2%nat 0%nat * D) ^ 2) with (D ^ 2 * 1) by (rewrite <- C; ring).
    rewrite Rmult_1_r, <- (pow2_abs D). apply sqrt_pow2. lra. }
  assert (Ln : len3 e <> 0) by (intros Z; rewrite Z in Ls; lra).
  assert (Sq : D / Rabs D = 1 \/ D / Rabs D = -1).
  { destruct (Rlt_le_dec D 0); [right; rewrite Rabs_left by assumption|left; rewrite Rabs_right by lra]; field; lra. }
  assert (Ed : forall c, (c < 3)%nat -> d c = axes c 0%nat * (D / Rabs D)).
  { intros c Hc. unfold d. rewrite <- Ls. apply Rmult_eq_reg_l with s; [|lra]. transitivity (s * e c / len3 e); [field; exact Ln|].
    rewrite Ec by assumption. field. split; [exact Ln|lra]. }
  split; [exact Ls|]. split; [exact Ln|]. split; [exact Sq|]. split.
  - intros c Hc. rewrite Ed by assumption. destruct Sq as [-> | ->]; ring.
  - intros y Hy. rewrite sum3, !Ed by lia. specialize (orth_cols axes Ho y 0 ltac:(lia) ltac:(lia)). unfold kron.
    replace (y =? 0)%nat with false by (symmetry; apply Nat.eqb_neq; lia). intros Q.
    transitivity ((axes 0%nat y * axes 0%nat 0%nat + axes 1%nat y * axes 1%nat 0%nat + axes 2%nat y * axes 2%nat 0%nat) * (D / Rabs D)); [ring|].
    rewrite Q. ring.
Qed.

(** ** the report *)
Section Files.
  Context {I : Type}.
  Variables (sy : symm R I) (s : R) (mu : N -> option R -> R) (eig2 : R -> R -> R -> R * R * (R * R)) (eig : (nat -> nat -> R) -> list R * (nat -> nat -> R))
    (eprint : nat -> R -> text) (name : I -> text).
  Context `{T0 : FText R}.

  Lemma run_linear_flag label (A : I) fuel buddy m axes iatom order fc2 f3x f4x o :
    m_rotor m = Diatomic -> labels_end (F := R) fuel ->
    solves (3 * m_natom m) eig (secular (m_natom m) axes fc2 (m_w m)) ->
    run eig2 eig label A fuel buddy false m axes iatom order (Quartic fc2 f3x f4x) = Some (FullResult o) ->
    out_linear o = true /\ out_rot_equil o = m_rotcon m.
  Proof.
    clear sy s mu eprint name. intros Hr Hl Hs E.
    destruct (harmonic_run (m_natom m) axes fc2 (m_w m) eig Hs) as (h & lxm & Eh & (Lh & _) & _).
    destruct (run_prefix eig2 eig label A fuel buddy false m axes iatom order (Quartic fc2 f3x f4x)
      (map to_wavenumber h) lxm lxm (make_lx (3 * m_natom m) (make_sqm (m_w m)) lxm)) as (irreps & Li & _ & Er).
    { rewrite Hr; discriminate. } { rewrite Hr; discriminate. } { exact Hl. } { exact Eh. }
    { unfold aligned. rewrite Hr. split; reflexivity. }
    rewrite E in Er. symmetry in Er.
    match type of Er with obind ?a _ = _ => destruct a as [f3l|]; [|discriminate] end. cbn [obind] in Er.
    match type of Er with obind ?a _ = _ => destruct a as [f4l|]; [|discriminate] end. cbn [obind] in Er.
    match type of Er with obind ?a _ = _ => destruct a as [o'|] eqn:Eo; [|discriminate] end. cbn [obind] in Er.
    apply some_eq in Er. assert (o' = o) as -> by congruence.
    destruct (finish_inv eig2 m (map to_wavenumber h) f3l f4l irreps lxm _ o Eo)
      as (sym & x & g & e0 & lev & eng & rows & _ & _ & _ & _ & _ & _ & _ & _ & _ & _ & _ & _ & Re & Rl & _).
    rewrite Rl, Hr. split; [reflexivity|exact Re].
  Qed.

  Hypothesis Pr : prints eprint (irrep_text sy) name.
  Hypothesis Ps : 0 < s.

  Lemma diatomic_from_files_lemma infile t15 t30 t40 (s0 : spectro R) (l : loaded R) (d2 d3 d4 : list R) p2 p3 p4 :
    read infile = Some s0 -> load_input sy infile = Some l ->
    numbers t15 = Some d2 -> load_vec t30 = Some d3 -> load_vec t40 = Some d4 ->
    symm_ok sy s mu (atoms s0) ->
    let mass q := nth q (masses sy (atoms s0)) 0 in
    let e c := comp (place_of (atoms s0) 1) c - comp (place_of (atoms s0) 0) c in
    let r := s * len3 e in
    let b := ROTCONST / (reduced mass * r ^ 2) in
    let f := WAVE * sqrt (FACT2 * p2 / reduced mass) in
    let a1 := p3 * (r / A0) / (3 * p2) * k_a1 in
    let a2 := p4 * (r / A0) ^ 2 / (12 * p2) * k_a2 in
    let Y20 := 3 / 2 * b * (a2 - 5 / 4 * a1 ^ 2) in
    let Y00 := b / 8 * (3 * a2 - 7 / 4 * a1 ^ 2) in
    let E v := f * (v + / 2) + Y20 * (v + / 2) ^ 2 + Y00 in
    let al := 6 * b ^ 2 / f * (1 + a1 * k_al) in
    l_rotor l = Diatomic -> List.length (atoms s0) = 2%nat ->
    (forall pr axes rot ats', normalize sy (to_angstrom sy (atoms s0)) = (pr, axes, rot, ats') -> first_is_x axes) ->
    0 < mass 0%nat -> 0 < mass 1%nat ->
    Forall plain (molecule_lines sy (atoms (l_input l))) ->
    List.length d2 = 36%nat -> symmetric_list 6 d2 -> List.length d3 = 56%nat -> List.length d4 = 126%nat ->
    (forall fc2, lists2 6 d2 fc2 -> solves 6 eig (secular 2 (l_axes l) fc2 mass)) ->
    (forall fc2 f3x f4x, lists2 6 d2 fc2 -> lists3 6 d3 f3x -> lists4 6 d4 f4x -> bond_energy e fc2 f3x f4x p2 p3 p4) ->
    0 < p2 -> / 100 < reduced mass * r ^ 2 ->
    exists fuel0, forall fuel, (fuel0 <= fuel)%nat ->
    exists t i,
      program sy eig2 eig fuel eprint false infile t15 t30 t40 = Some t /\
      (Forall (narrow 1 8) [f; f + 2 * Y20; E 1 - E 0] ->
       exists head row z after,
         block (lines t) (lit "Vibrational Frequencies (cm-1):") [head; row] (z :: after) /\
         words head = map lit ["Mode"; "Symm"; "Harm"; "Fund"; "Corr"]%string /\
         words row = [show 1; name i; fprint 1 f; fprint 1 (f + 2 * Y20); fprint 1 (E 1 - E 0)] /\
         words z = [lit "ZPT"; lit "="; fprint 1 (E 0)]) /\
      (Forall (narrow 12 20) [0; b] ->
       exists head row after,
         block (lines t) (lit "Equilibrium Rotational Constants (cm-1):") [head; row] after /\
         words head = [lit "B"] /\ words row = [fprint 12 b]) /\
      (exists head row0 row1 after,
         block (lines t) (lit "Rotational Constants (cm-1):") [head; row0; row1] after /\
         words head = map lit ["State"; "B"]%string /\
         (narrow 7 12 (b + al / 2) -> words row0 = [show 0; fprint 7 (b + al / 2)]) /\
         (narrow 7 12 (b + al * (3 / 2)) -> words row1 = [show 1; fprint 7 (b + al * (3 / 2))])) /\
      (exists line, filter (starts (lit "De  :")) (lines t) = [line] /\
         words (skipn 5 line) = [fprint 12 (4 * b ^ 3 / f ^ 2 * k_de)]) /\
      (exists line, filter (starts (lit "He  :")) (lines t) = [line] /\
         words (skipn 5 line) = [eprint 12%nat (16 * b ^ 5 / f ^ 4 * (3 * k_de ^ 2 + a1 * k_he))]) /\
      (exists after1 after2 after3,
         block (lines t) (lit "Coriolis Resonances:") [] after1 /\
         block (lines t) (lit "Type 1 Fermi Resonances:") [] after2 /\
         block (lines t) (lit "Type 2 Fermi Resonances:") [] after3).
  Proof.
    intros Ei El E15 E30 E40 Ok mass e r b f a1 a2 Y20 Y00 E al Hr HN Fx P0 P1 Hg L2 Hs L3 L4 Sv Be K HJ.
    assert (Tm : total sy (atoms s0) <> 0).
    { rewrite (total_sum sy s mu (atoms s0) Ok), HN, sum2. fold (mass 0%nat) (mass 1%nat). lra. }
    destruct (load_frame_lemma sy s mu infile l El) as (s1 & Ei' & Hh & Fl).
    assert (s1 = s0) as -> by congruence. clear Ei'. destruct (Fl Ok Tm) as (Ho & Em & Ex & Hc & In_). clear Fl.
    destruct (Ex (fun _ => Fx)) as (c & Ec). clear Ex.
    assert (Ln : List.length (atoms (l_input l)) = 2%nat) by (rewrite Ec, map_length; exact HN).
    rewrite Ln, Em in In_, Hc. specialize (In_ ltac:(right; right; rewrite Hr; reflexivity)).
    pose proof (diatomic_on_axis sy s mu infile l s0 El Hr Ei Ok Tm) as Ax. rewrite HN in Ax.
    set (geom := place_of (atoms (l_input l))) in *. set (x := fun q => comp (geom q) 0).
    assert (Gx : forall q, (q < 2)%nat -> geom q = (x q, 0, 0)).
    { intros q Hq. pose proof (Ax q 1%nat Hq ltac:(lia)) as Y. pose proof (Ax q 2%nat Hq ltac:(lia)) as Z.
      unfold x. destruct (geom q) as [[gx gy] gz]. cbn [comp fst snd] in *. now subst. }
    assert (Gp : forall q, (q < 2)%nat -> geom q = in_frame (l_axes l) (vsub (vscale s (place_of (atoms s0) q)) c)).
    { intros q Hq. destruct (nth_error (atoms s0) q) as [a|] eqn:Eq; [|apply nth_error_None in Eq; lia].
      unfold geom, place_of. rewrite Ec. rewrite map_map.
      rewrite (nth_error_nth _ _ _ (map_nth_error where_ q (atoms s0) Eq)).
      rewrite (nth_error_nth _ _ _ (map_nth_error _ q (atoms s0) Eq)). apply at_where. }
    assert (Dx : forall y, (y < 3)%nat -> Sum 3 (fun k => l_axes l k y * (s * e k)) = comp (geom 1%nat) y - comp (geom 0%nat) y).
    { intros y Hy. rewrite !Gp by lia. unfold e. rewrite sum3, !frame_comp_v by exact Hy.
      destruct (place_of (atoms s0) 1) as [[u v] w], (place_of (atoms s0) 0) as [[u' v'] w'], c as [[cx cy] cz].
      cbn [vscale vsub comp fst snd]. ring. }
    destruct (Req_dec (x 1%nat - x 0%nat) 0) as [Z|HD].
    { exfalso. assert (Ze : forall k, (k < 3)%nat -> s * e k = 0).
      { assert (Zy : forall y, (y < 3)%nat -> Sum 3 (fun k => l_axes l k y * (s * e k)) = 0).
        { intros y Hy. rewrite Dx by exact Hy. three y; [exact Z| |]; rewrite !Ax by lia; ring. }
        intros k Hk. destruct Ho as [Hrow _].
        pose proof (Hrow k 0%nat Hk ltac:(lia)) as R0. pose proof (Hrow k 1%nat Hk ltac:(lia)) as R1. pose proof (Hrow k 2%nat Hk ltac:(lia)) as R2.
        pose proof (Zy 0%nat ltac:(lia)) as Z0. pose proof (Zy 1%nat ltac:(lia)) as Z1. pose proof (Zy 2%nat ltac:(lia)) as Z2.
        rewrite sum3 in R0, R1, R2, Z0, Z1, Z2.
        transitivity (delta k 0%nat * (s * e 0%nat) + delta k 1%nat * (s * e 1%nat) + delta k 2%nat * (s * e 2%nat)).
        - three k; unfold delta; cbn [Nat.eqb]; ring.
        - rewrite <- R0, <- R1, <- R2.
          transitivity (l_axes l k 0%nat * (l_axes l 0%nat 0%nat * (s * e 0%nat) + l_axes l 1%nat 0%nat * (s * e 1%nat) + l_axes l 2%nat 0%nat * (s * e 2%nat))
            + l_axes l k 1%nat * (l_axes l 0%nat 1%nat * (s * e 0%nat) + l_axes l 1%nat 1%nat * (s * e 1%nat) + l_axes l 2%nat 1%nat * (s * e 2%nat))
            + l_axes l k 2%nat * (l_axes l 0%nat 2%nat * (s * e 0%nat) + l_axes l 1%nat 2%nat * (s * e 1%nat) + l_axes l 2%nat 2%nat * (s * e 2%nat))); [ring|].
          rewrite Z0, Z1, Z2. ring. }
      assert (Z3 : forall k, (k < 3)%nat -> e k = 0).
      { intros k Hk. specialize (Ze k Hk). apply Rmult_integral in Ze as [Ze|Ze]; [lra|exact Ze]. }
      assert (len3 e = 0).
      { unfold len3. rewrite !Z3 by lia. replace (0 ^ 2 + 0 ^ 2 + 0 ^ 2) with 0 by ring. apply sqrt_0. }
      unfold r in HJ. rewrite H in HJ. rewrite Rmult_0_r in HJ. replace (reduced mass * 0 ^ 2) with 0 in HJ by ring. lra. }
    destruct (vec_len (l_axes l) e s (x 1%nat - x 0%nat) Ho Ps HD) as (Ls & Le & Sg & A0' & Ay).
    { rewrite Dx by lia. reflexivity. }
    { intros y Hy. rewrite Dx by lia. rewrite !Ax by lia. ring. }
    fold r in Ls.
    destruct (read_fc2_listed 6 t15 d2 E15 L2 Hs) as (fc2 & R2 & Q2).
    destruct (read_fc3_listed 6 t30 d3 E30 L3) as (f3x & R3 & Q3).
    destruct (read_fc4_listed 6 t40 d4 E40 L4) as (f4x & R4 & Q4).
    destruct (load_sizes sy infile l El) as (Z1 & _ & Z3). rewrite Ln in Z1, Z3. rewrite Hr in Z3. cbn [is_linear Nat.mul Nat.add Nat.sub] in Z1, Z3.
    set (m := molecule_of sy l).
    assert (Mn : m_natom m = 2%nat) by exact Ln.
    assert (Mv : m_nvib m = 1%nat) by exact Z3.
    assert (Mw : m_w m = mass) by (unfold m, molecule_of, mass; cbn [m_w]; rewrite nz_R, Em; reflexivity).
    assert (Mg : m_geom m = geom) by (unfold m, molecule_of; cbn [m_geom]; rewrite nz_R; reflexivity).
    assert (Mp : forall a, (a < 3)%nat -> m_primat m a = inertia 2 mass geom a a).
    { intros a Ha. rewrite In_ by assumption. unfold kron. rewrite Nat.eqb_refl. unfold m, molecule_of. cbn [m_primat].
      destruct (l_primat l) as [[? ?] ?]. three a; cbn [Program.at3 comp fst snd]; ring. }
    assert (Cm : mass 0%nat * x 0%nat + mass 1%nat * x 1%nat = 0).
    { specialize (Hc 0%nat ltac:(lia)). rewrite sum2 in Hc. exact Hc. }
    assert (Jr : mass 0%nat * x 0%nat ^ 2 + mass 1%nat * x 1%nat ^ 2 = reduced mass * r ^ 2).
    { rewrite Ls, pow2_abs. unfold reduced. apply Rmult_eq_reg_l with (mass 0%nat + mass 1%nat); [|lra].
      transitivity (mass 0%nat * mass 1%nat * (x 1%nat - x 0%nat) ^ 2 + (mass 0%nat * x 0%nat + mass 1%nat * x 1%nat) ^ 2); [ring|].
      rewrite Cm. field. lra. }
    assert (Rc : forall a, (a < 3)%nat -> m_rotcon m a = match a with 0%nat => 0 | _ => b end).
    { intros a Ha. change (m_rotcon m a) with (rot_const (m_primat m a)). rewrite Mp by exact Ha.
      assert (Ia : inertia 2 mass geom a a = match a with 0%nat => 0 | _ => reduced mass * r ^ 2 end).
      { rewrite <- Jr. unfold inertia. rewrite sum2, !Gx by lia. three a; unfold kron; cbn [Nat.eqb comp fst snd]; ring. }
      rewrite Ia. unfold rot_const, ngtb. cbn [nltb nlit Rnum ndiv]. rewrite nz_R.
      three a.
      - replace (Rltb _ _) with false; [reflexivity|]. symmetry. apply Rltb_false. lra.
      - replace (Rltb _ _) with true; [reflexivity|]. symmetry. apply Rltb_true. lra.
      - replace (Rltb _ _) with true; [reflexivity|]. symmetry. apply Rltb_true. lra. }
    assert (Rc0 := Rc 0%nat ltac:(lia)). assert (Rc1 := Rc 1%nat ltac:(lia)). assert (Rc2 := Rc 2%nat ltac:(lia)). cbv iota in Rc0, Rc1, Rc2. clear Rc.
    assert (S2 : sym2 6 fc2).
    { intros i j Hi Hj. apply some_eq. rewrite <- (Q2 i j), <- (Q2 j i) by assumption. now apply Hs. }
    assert (Sv' := Sv fc2 Q2).
    destruct (run_diatomic_lemma eig2 eig (fun _ => irrep_of sy (atoms (l_input l))) (irrep_A sy) m (l_axes l) (l_iatom l) (l_order l)
      (find_buddy sy (atoms (l_input l)) (l_axis l) (l_order l) (l_iatom l)) fc2 f3x f4x x p2 p3 p4) as (fuel0 & Run).
    { exact Hr. } { exact Mn. } { exact Mv. } { now rewrite Mw. } { now rewrite Mw. }
    { intros q Hq. rewrite Mg. now apply Gx. } { lra. }
    { rewrite Mw. exact Cm. }
    { intros a Ha. rewrite Mw, Mg. now apply Mp. }
    { reflexivity. }
    { rewrite Mw, <- Ls. exact HJ. }
    { exact S2. } { exact (lists3_tsym _ _ _ Q3). } { exact (lists4_tsym _ _ _ Q4). }
    { exact (bond_turned e (l_axes l) x _ fc2 f3x f4x p2 p3 p4 Le Sg A0' Ay eq_refl (Be fc2 f3x f4x Q2 Q3 Q4)). }
    { exact K. } { rewrite Mw. exact Sv'. }
    destruct labels_end_R as (f0 & Hf0).
    exists (Nat.max fuel0 f0). intros fuel Hfu. destruct (Run fuel) as (o & irreps & Eo & Ol & Li & Oz & _ & Oc & O1 & O2 & Od & Oh & Or); [lia|].
    clear Run. rewrite Mw, <- Ls in Ol, Oz, Od, Oh, Or.
    fold b in Ol, Oz, Od, Oh, Or. fold f in Ol, Oz, Od, Oh, Or.
    fold a1 in Ol, Oz, Oh, Or. fold a2 in Ol, Oz. fold Y20 in Ol, Oz. fold Y00 in Ol, Oz. fold al in Or.
    destruct (run_linear_flag (fun _ => irrep_of sy (atoms (l_input l))) (irrep_A sy) fuel
      (find_buddy sy (atoms (l_input l)) (l_axis l) (l_order l) (l_iatom l)) m (l_axes l) (l_iatom l) (l_order l) fc2 f3x f4x o)
      as (Fl & Fe).
    { exact Hr. } { apply Hf0; lia. } { rewrite Mn, Mw. exact Sv'. } { exact Eo. }
    destruct irreps as [|i [|? ?]]; try discriminate Li. clear Li.
    set (geo := molecule_lines sy (atoms (l_input l))) in *.
    assert (Rows : exists r0 r1, out_rots o = [r0; r1] /\ rot_state r0 = I1st [0%nat] /\ rot_state r1 = I1st [1%nat] /\
      rot_b r0 + out_rot_equil o 1%nat = b + al / 2 /\ rot_b r1 + out_rot_equil o 1%nat = b + al * (3 / 2)).
    { unfold linear_rows in Or. destruct (out_rots o) as [|r0 [|r1 [|? ?]]]; cbn [map] in Or; try discriminate Or.
      exists r0, r1. split; [reflexivity|].
      assert (Q0 := f_equal (fun k => nth 0 k (I1st [], 0)) Or). assert (Q1 := f_equal (fun k => nth 1 k (I1st [], 0)) Or). cbn [nth] in Q0, Q1.
      apply pair_equal_spec in Q0 as [S0 B0]. apply pair_equal_spec in Q1 as [S1 B1].
      split; [exact S0|]. split; [exact S1|]. split; assumption. }
    destruct Rows as (r0 & r1 & Rr & S0 & S1 & B0 & B1).
    assert (Small : Forall (fun r => small_state 1 (rot_state r)) (out_rots o)).
    { rewrite Rr. repeat constructor; rewrite ?S0, ?S1; cbn [small_state]; (split; [reflexivity|]); repeat constructor. }
    assert (Wr : exists t, write_output eprint (irrep_text sy) geo (m_rotcon m) geo o = Some t).
    { unfold write_output, display, mode_lines, rot_lines, coriolis_lines. rewrite Ol, Rr, Fl, Oc, S0. cbn [negb]. unfold linear_rows. cbn [map].
      rewrite S0, S1. eexists. reflexivity. }
    destruct Wr as (t & Et). exists t, i.
    split; [|split; [|split; [|split; [|split; [|split]]]]].
    - unfold program. rewrite El. cbn [obind]. unfold run_files. rewrite Z1, R2, R3, R4. cbn [obind].
      fold m. rewrite Eo. cbn [obind]. exact Et.
    - intros Nw. destruct (modes_block_lemma _ _ _ Pr _ _ _ _ _ Hg Hg Et) as (head & rows & z & after & M1 & M2 & M3 & M4 & M5).
      { apply Forall_cons_iff in Nw as [N0 Nw]. apply Forall_cons_iff in Nw as [N1 Nw]. apply Forall_cons_iff in Nw as [N2 _].
        rewrite Ol. cbn [o_harms o_funds o_corrs]. intros k [<-|[<-|[<-|[]]]]; (apply Forall_cons; [assumption|apply Forall_nil]). }
      rewrite Ol in M4, M5. cbn [o_harms o_funds o_corrs o_irreps List.length] in M4, M5.
      destruct rows as [|row [|? ?]]; try discriminate M4. exists head, row, z, after.
      split; [exact M1|]. split; [exact M3|]. split.
      + destruct (M5 0%nat row eq_refl) as (i' & h & f' & c' & I1 & I2 & I3 & I4 & ->). cbn [nth_error] in I1, I2, I3, I4.
        apply some_eq in I1, I2, I3, I4. subst i' h f' c'. reflexivity.
      + rewrite M2, Oz. reflexivity.
    - intros Nw. destruct (equil_block_lemma _ _ _ Pr _ _ _ _ _ Hg Hg Et) as (head & row & after & M1 & M2 & M3).
      { apply Forall_cons_iff in Nw as [N0 Nw]. apply Forall_cons_iff in Nw as [N1 _].
        repeat (apply Forall_cons || apply Forall_nil); rewrite ?Rc0, ?Rc1, ?Rc2; assumption. }
      exists head, row, after. rewrite Fl in M2, M3. split; [exact M1|]. split; [exact M2|]. rewrite M3. cbn [map]. now rewrite Rc1.
    - destruct (rots_block_lemma _ _ _ Pr _ _ _ _ _ Hg Hg Et 1%nat) as (head & rows & after & M1 & M2 & M3 & M4).
      { rewrite Rr. discriminate. } { exact Small. }
      rewrite Rr in M2, M4. destruct rows as [|row0 [|row1 [|? ?]]]; try discriminate M2. clear M2.
      exists head, row0, row1, after. split; [exact M1|]. split. { rewrite M3. unfold constant_names. rewrite Fl. reflexivity. }
      destruct (M4 0%nat row0 r0 eq_refl eq_refl) as [W0 _]. destruct (M4 1%nat row1 r1 eq_refl eq_refl) as [W1 _].
      unfold printed_constants in W0, W1. rewrite Fl in W0, W1. change (nadd (rot_b r0) (out_rot_equil o 1%nat)) with (rot_b r0 + out_rot_equil o 1%nat) in W0.
      change (nadd (rot_b r1) (out_rot_equil o 1%nat)) with (rot_b r1 + out_rot_equil o 1%nat) in W1. rewrite B0, S0 in W0. rewrite B1, S1 in W1.
      split; intros Nw; [rewrite W0|rewrite W1]; try reflexivity; (apply Forall_cons; [exact Nw|apply Forall_nil]).
    - destruct (labelled_lemma _ _ _ Pr _ _ _ _ _ Hg Hg Et (lit "De  ") (fprint 12 (de (out_quartic o)))) as (line & F1 & F2).
      { unfold labelled. apply in_app_iff. left. apply in_map_iff. exists ("De  "%string, de (out_quartic o)). split; [reflexivity|].
        cbn [In]. tauto. }
      exists line. split; [exact F1|]. rewrite <- Od. exact F2.
    - destruct (labelled_lemma _ _ _ Pr _ _ _ _ _ Hg Hg Et (lit "He  ") (eprint 12%nat (he (out_sextic o)))) as (line & F1 & F2).
      { unfold labelled. apply in_app_iff. right. apply in_map_iff. exists ("He  "%string, he (out_sextic o)). split; [reflexivity|].
        cbn [In]. tauto. }
      exists line. split; [exact F1|]. rewrite <- Oh. exact F2.
    - destruct (resonance_blocks_lemma _ _ _ Pr _ _ _ _ _ Hg Hg Et) as (cor & g1 & g2 & z1 & z2 & z3 & C1 & C2 & C3 & C4 & C5 & C6).
      { unfold short_resonances. rewrite Oc, O1, O2. repeat constructor. }
      rewrite Oc in C2. rewrite O1 in C4. rewrite O2 in C6. destruct cor; [|discriminate C2]. destruct g1; [|discriminate C4]. destruct g2; [|discriminate C6].
      exists z1, z2, z3. auto.
  Qed.
End Files.

Lemma diatomic_from_files_full :
  exists k1 k2 k3 k4 k5,
  1000236 / 1000000 < k1 < 1000237 / 1000000 /\ 1 - / 1000000000000000 < k2 < 1 /\
  10000159 / 10000000 < k3 < 1000016 / 1000000 /\
  1 - / 1000000000000000 < k4 < 1 + / 1000000000000000 /\
  1 - / 1000000000000000 < k5 < 1 + / 1000000000000000 /\
  forall (I : Type) (T0 : FText R) (sy : symm R I) s mu eig2 eig eprint name infile t15 t30 t40 (s0 : spectro R) (l : loaded R)
    (d2 d3 d4 : list R) p2 p3 p4,
  prints eprint (irrep_text sy) name -> 0 < s ->
  read infile = Some s0 -> load_input sy infile = Some l ->
  numbers t15 = Some d2 -> load_vec t30 = Some d3 -> load_vec t40 = Some d4 ->
  symm_ok sy s mu (atoms s0) ->
  let mass q := nth q (masses sy (atoms s0)) 0 in
  let e c := comp (place_of (atoms s0) 1) c - comp (place_of (atoms s0) 0) c in
  let r := s * len3 e in
  let b := ROTCONST / (reduced mass * r ^ 2) in
  let f := WAVE * sqrt (FACT2 * p2 / reduced mass) in
  let a1 := p3 * (r / A0) / (3 * p2) * k4 in
  let a2 := p4 * (r / A0) ^ 2 / (12 * p2) * k5 in
  let Y20 := 3 / 2 * b * (a2 - 5 / 4 * a1 ^ 2) in
  let Y00 := b / 8 * (3 * a2 - 7 / 4 * a1 ^ 2) in
  let E v := f * (v + / 2) + Y20 * (v + / 2) ^ 2 + Y00 in
  let al := 6 * b ^ 2 / f * (1 + a1 * k3) in
  l_rotor l = Diatomic -> List.length (atoms s0) = 2%nat ->
  (forall pr axes rot ats', normalize sy (to_angstrom sy (atoms s0)) = (pr, axes, rot, ats') -> first_is_x axes) ->
  0 < mass 0%nat -> 0 < mass 1%nat ->
  Forall plain (molecule_lines sy (atoms (l_input l))) ->
  List.length d2 = 36%nat -> symmetric_list 6 d2 -> List.length d3 = 56%nat -> List.length d4 = 126%nat ->
  (forall fc2, lists2 6 d2 fc2 -> solves 6 eig (secular 2 (l_axes l) fc2 mass)) ->
  (forall fc2 f3x f4x, lists2 6 d2 fc2 -> lists3 6 d3 f3x -> lists4 6 d4 f4x -> bond_energy e fc2 f3x f4x p2 p3 p4) ->
  0 < p2 -> / 100 < reduced mass * r ^ 2 ->
  exists fuel0, forall fuel, (fuel0 <= fuel)%nat ->
  exists t i,
    program sy eig2 eig fuel eprint false infile t15 t30 t40 = Some t /\
    (Forall (narrow 1 8) [f; f + 2 * Y20; E 1 - E 0] ->
     exists head row z after,
       block (lines t) (lit "Vibrational Frequencies (cm-1):") [head; row] (z :: after) /\
       words head = map lit ["Mode"; "Symm"; "Harm"; "Fund"; "Corr"]%string /\
       words row = [show 1; name i; fprint 1 f; fprint 1 (f + 2 * Y20); fprint 1 (E 1 - E 0)] /\
       words z = [lit "ZPT"; lit "="; fprint 1 (E 0)]) /\
    (Forall (narrow 12 20) [0; b] ->
     exists head row after,
       block (lines t) (lit "Equilibrium Rotational Constants (cm-1):") [head; row] after /\
       words head = [lit "B"] /\ words row = [fprint 12 b]) /\
    (exists head row0 row1 after,
       block (lines t) (lit "Rotational Constants (cm-1):") [head; row0; row1] after /\
       words head = map lit ["State"; "B"]%string /\
       (narrow 7 12 (b + al / 2) -> words row0 = [show 0; fprint 7 (b + al / 2)]) /\
       (narrow 7 12 (b + al * (3 / 2)) -> words row1 = [show 1; fprint 7 (b + al * (3 / 2))])) /\
    (exists line, filter (starts (lit "De  :")) (lines t) = [line] /\
       words (skipn 5 line) = [fprint 12 (4 * b ^ 3 / f ^ 2 * k1)]) /\
    (exists line, filter (starts (lit "He  :")) (lines t) = [line] /\
       words (skipn 5 line) = [eprint 12%nat (16 * b ^ 5 / f ^ 4 * (3 * k1 ^ 2 + a1 * k2))]) /\
    (exists after1 after2 after3,
       block (lines t) (lit "Coriolis Resonances:") [] after1 /\
       block (lines t) (lit "Type 1 Fermi Resonances:") [] after2 /\
       block (lines t) (lit "Type 2 Fermi Resonances:") [] after3).
Proof.
  exists k_de, k_he, k_al, k_a1, k_a2. split; [exact k_de_bounds|]. split; [exact k_he_bounds|]. split; [exact k_al_bounds|].
  split; [exact k_a1_bounds|]. split; [exact k_a2_bounds|]. intros. now apply (diatomic_from_files_lemma sy s mu eig2 eig eprint name) with (s0 := s0) (l := l) (d2 := d2) (d3 := d3) (d4 := d4).
Qed.
