(** Two atoms along the y axis of the input. *)
From Coq Require Import Reals Lra List ZArith NArith Arith Lia Bool Ascii String.
From Verif Require Import Num Loops Index ListFacts Modes ModesFacts ResFacts Anharm AnharmFacts VibRot VibRotFacts Distort Transform TransformFacts
  RotFacts ModeFacts SymAnharm Polyads Report Geom GeomFacts OrientFacts InertiaFacts Finish OutText OutFacts Program ProgramFacts ProgramRun FrameFacts Text BlankFacts FrameWitness.
Import ListNotations.
Open Scope list_scope.
Open Scope nat_scope.
Local Open Scope R_scope.
#[local] Existing Instance Rtext.

Definition pair_in : text := unlines (map lit
  ["# SPECTRO ####"; "1 1 1 1 1 1 1 4"; "# GEOM ####"; "2 0"; "1 0 2 0"; "1 0 -2 0"]%string).
(** the quarter turn that takes y to x *)
Definition pair_axes (i j : nat) : R :=
  match i, j with 1%nat, 0%nat => 1 | 0%nat, 1%nat => -1 | 2%nat, 2%nat => 1 | _, _ => 0 end.
Definition pair_symm : symm R unit := {|
  to_angstrom := map (fun a => atom_at a (vscale (1 / 2) (where_ a)));
  normalize := fun a => ((0, 2, 2), pair_axes, Diatomic, map (fun a => atom_at a (in_frame pair_axes (where_ a))) a);
  centre_of_mass := square_com;
  point_group := fun _ => OtherGroup;
  masses := map (fun _ => 1);
  find_buddy := fun _ _ _ _ => None;
  irrep_of := fun _ _ _ _ => Some tt;
  irrep_A := tt;
  axis_default := AX;
  molecule_lines := fun _ => [];
  irrep_text := fun _ _ => [] |}.
Definition pair_atoms : list (atom R) :=
  map (fun y => {| number := Z.to_N (Int_part 1); ax := 0; ay := y; az := 0; weight := None |}) [2; -2].

Lemma pair_read : exists s0, read pair_in = Some s0 /\ atoms s0 = pair_atoms.
Proof.
  assert (L : lines pair_in = map lit
    ["# SPECTRO ####"; "1 1 1 1 1 1 1 4"; "# GEOM ####"; "2 0"; "1 0 2 0"; "1 0 -2 0"]%string) by (vm_compute; reflexivity).
  unfold read. rewrite L. cbn [map].
  assert (O : forall l, forallb (fun k => negb (contains k l)) keywords = true -> ordinary l).
  { intros l Q k Hk. rewrite forallb_forall in Q. specialize (Q k Hk). now apply negb_true_iff in Q. }
  set (l1 := lit "1 0 2 0"). set (l2 := lit "1 0 -2 0").
  assert (E0 : ofold read_line [lit "# SPECTRO ####"; lit "1 1 1 1 1 1 1 4"; lit "# GEOM ####"; lit "2 0"] (start (F := R)) =
    Some {| coord_map := []; Text.state := InGeom; skip := 0%nat; ret := {| header := [1; 1; 1; 1; 1; 1; 1; 4]%Z; atoms := []; Text.weights := [];
            curvils := []; degmodes := []; dummies := [] |} |}) by reflexivity.
  change [lit "# SPECTRO ####"; lit "1 1 1 1 1 1 1 4"; lit "# GEOM ####"; lit "2 0"; l1; l2]
    with ([lit "# SPECTRO ####"; lit "1 1 1 1 1 1 1 4"; lit "# GEOM ####"; lit "2 0"] ++ [l1; l2]).
  rewrite ofold_app, E0. cbn [obind].
  match goal with |- context [ofold _ _ ?s] => set (s0 := s) end. cbn [ofold].
  assert (NZ : forall z, (0 < z)%Z -> f_to_N (IZR z) <> 0%N) by (intros z Hz; rewrite number_R; lia).
  destruct (read_line_geom s0 l1 (lit "1") (lit "0") (lit "2") (lit "0") (IZR 1) (IZR 0) (IZR 2) (IZR 0)) as (s1 & E1 & K1 & S1 & R1);
    try reflexivity. { apply O. reflexivity. } { apply NZ. lia. }
  rewrite E1. cbn [obind].
  destruct (read_line_geom s1 l2 (lit "1") (lit "0") (lit "-2") (lit "0") (IZR 1) (IZR 0) (IZR (-2)) (IZR 0)) as (s2 & E2 & K2 & S2 & R2);
    try reflexivity; try assumption. { apply O. reflexivity. } { apply NZ. lia. }
  rewrite E2. cbn [obind]. rewrite R2, R1. unfold s0. cbn [ret header atoms Text.weights curvils degmodes dummies List.app].
  unfold apply_weights. cbn [header nth_error obind Z.eqb]. eexists. split; reflexivity.
Qed.

Lemma pair_orth : orth 3 pair_axes.
Proof. split; intros i j Hi Hj; rewrite sum3; three i; three j; unfold pair_axes, delta; cbn [Nat.eqb]; ring. Qed.
Lemma pair_ok : symm_ok pair_symm (1 / 2) (fun _ _ => 1) pair_atoms.
Proof.
  constructor; try reflexivity.
  - intros ats Ht x Hx. assert (W : forall f : nat -> R, Sum (List.length ats) (fun q => nth q (map (fun _ => 1) ats) 0 * f q) = Sum (List.length ats) f).
    { intros f. apply sum_g. intros q Hq. rewrite (nth_indep _ 0 1) by (now rewrite map_length).
      rewrite (map_nth (fun _ : atom R => 1) ats {| number := 0; ax := 0; ay := 0; az := 0; weight := None |}). ring. }
    cbn [masses pair_symm]. rewrite W. unfold total in *. cbn [masses centre_of_mass pair_symm] in *.
    unfold square_com. three x; cbn [comp fst snd]; field; exact Ht.
  - intros pr axes r ats' E. cbn [normalize pair_symm] in E. split4 E. split; [exact pair_orth|].
    exists (0, 0, 0). apply map_ext. intros a. destruct a as [n x y z w].
    cbn [atom_at vsub where_ ax ay az number weight]. now rewrite !Rminus_0_r.
  - intros pr axes r ats' E _ x y Hx Hy. cbn [normalize pair_symm] in E. split4 E.
    cbn [centre_of_mass to_angstrom masses pair_symm].
    unfold square_com, inertia, Rsum, place_of.
    cbn [List.length pair_atoms map seq fold_right nth where_ atom_at vscale ax ay az number weight vsub in_frame pair_axes comp fst snd].
    three x; three y; unfold kron; cbn [comp fst snd Nat.eqb]; field.
  - intros pr axes r ats' E _ N. cbn [normalize pair_symm] in E. apply pair_equal_spec in E as [E _]. apply pair_equal_spec in E as [_ E]. now elim N.
  - intros pr axes ats' E. cbn [normalize pair_symm] in E. apply pair_equal_spec in E as [E <-].
    cbn [to_angstrom pair_symm pair_atoms map In]. intros a b Ha Hb.
    destruct Ha as [<-|[<-|[]]], Hb as [<-|[<-|[]]]; cbn [atom_at vscale where_ in_frame ax ay az pair_axes number weight]; split; ring.
  - intros pr axes r ats' E. cbn [normalize pair_symm] in E. split4 E. discriminate.
Qed.
Lemma pair_total : total pair_symm pair_atoms <> 0.
Proof. unfold total. cbn [masses pair_symm pair_atoms map fold_right]. lra. Qed.
Lemma pair_loaded : exists l, load_input pair_symm pair_in = Some l /\ l_rotor l = Diatomic.
Proof.
  destruct pair_read as (s0 & E & Ha). unfold load_input. rewrite E. cbn [obind]. unfold process_molecule. rewrite Ha.
  cbn [normalize to_angstrom pair_symm atoms is_sym_top obind orient_geom point_group is_linear andb negb].
  set (at_ := map _ (combine _ _)).
  assert (Ln : List.length at_ = 2%nat) by (unfold at_; rewrite map_length, combine_length, !map_length; reflexivity).
  rewrite Ln. assert (Sz : exists sz, make_sizes 2 true = Some sz) by (eexists; reflexivity).
  destruct Sz as (sz & ->). cbn [obind]. eexists. split; reflexivity.
Qed.

Lemma diatomic_refuted_lemma :
  exists (I : Type) (sy : symm R I) s mu (T : FText R) infile (l : loaded R) s0,
    load_input sy infile = Some l /\ read infile = Some s0 /\ symm_ok sy s mu (atoms s0) /\ total sy (atoms s0) <> 0 /\
    l_rotor l = Diatomic /\ List.length (atoms s0) = 2%nat /\
    ~ exists c, atoms (l_input l) = map (fun a => atom_at a (in_frame (l_axes l) (vsub (vscale s (where_ a)) c))) (atoms s0).
Proof.
  destruct pair_loaded as (l & El & Hr). destruct (diatomic_frame_lemma pair_symm (1 / 2) (fun _ _ => 1) pair_in l El Hr) as (s0 & pr & axes & ats' & Er & En & Hf).
  destruct pair_read as (s1 & Er' & Ha). assert (s1 = s0) as -> by congruence.
  exists unit, pair_symm, (1 / 2), (fun _ _ => 1), Rtext, pair_in, l, s0. rewrite Ha in *.
  split; [exact El|]. split; [exact Er|]. split; [exact pair_ok|]. split; [exact pair_total|]. split; [exact Hr|]. split; [reflexivity|].
  intros Hc. assert (Q : exists a b, In a ats' /\ In b ats' /\ ax a <> ax b).
  { cbn [normalize pair_symm] in En. apply pair_equal_spec in En as [_ <-]. cbn [to_angstrom pair_symm pair_atoms map].
    eexists. eexists. split; [left; reflexivity|]. split; [right; left; reflexivity|].
    cbn [atom_at vscale where_ in_frame ax ay az pair_axes number weight]. lra. }
  assert (F := proj1 (Hf pair_ok pair_total Q) Hc).
  cbn [normalize pair_symm] in En. apply pair_equal_spec in En as [En _]. apply pair_equal_spec in En as [En _]. apply pair_equal_spec in En as [_ <-].
  specialize (F eq_refl eq_refl). cbn in F. lra.
Qed.
