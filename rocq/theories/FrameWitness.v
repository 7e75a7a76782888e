(** A square molecule that is loaded and turned. *)
From Coq Require Import Reals Lra List ZArith NArith Arith Lia Bool Ascii String.
From Verif Require Import Num Loops Index ListFacts Modes ModesFacts ResFacts Anharm AnharmFacts VibRot VibRotFacts Distort Transform TransformFacts
  RotFacts ModeFacts SymAnharm Polyads Report Geom GeomFacts OrientFacts InertiaFacts Finish OutText OutFacts Program ProgramFacts ProgramRun FrameFacts Text BlankFacts.
Import ListNotations.
Open Scope list_scope.
Open Scope nat_scope.
Local Open Scope R_scope.
#[local] Existing Instance Rtext.

Definition square_in : text := unlines (map lit
  ["# SPECTRO ####"; "1 1 1 1 1 1 1 4"; "# GEOM ####"; "4 0"; "1 0 2 1"; "1 2 0 1"; "1 0 -2 1"; "1 -2 0 1"]%string).
Definition square_com (ats : list (atom R)) : R * R * R :=
  let s x := Sum (List.length ats) (fun q => comp (place_of ats q) x) / fold_right Rplus 0 (map (fun _ => 1) ats) in
  (s 0%nat, s 1%nat, s 2%nat).
Definition square_symm : symm R unit := {|
  to_angstrom := map (fun a => atom_at a (vscale (1 / 2) (where_ a)));
  normalize := fun a => ((2, 2, 4), delta, OblateSymmTop, a);
  centre_of_mass := square_com;
  point_group := fun _ => D2h AZ (AY, AZ);
  masses := map (fun _ => 1);
  find_buddy := fun _ _ _ _ => None;
  irrep_of := fun _ _ _ _ => Some tt;
  irrep_A := tt;
  axis_default := AX;
  molecule_lines := fun _ => [];
  irrep_text := fun _ _ => [] |}.
Definition square_atoms : list (atom R) :=
  map (fun '(x, y) => {| number := Z.to_N (Int_part 1); ax := x; ay := y; az := 1; weight := None |}) [(0, 2); (2, 0); (0, -2); (-2, 0)].

Lemma square_read : exists s0, read square_in = Some s0 /\ atoms s0 = square_atoms /\ header s0 = [1; 1; 1; 1; 1; 1; 1; 4]%Z.
Proof.
  assert (L : lines square_in = map lit
    ["# SPECTRO ####"; "1 1 1 1 1 1 1 4"; "# GEOM ####"; "4 0"; "1 0 2 1"; "1 2 0 1"; "1 0 -2 1"; "1 -2 0 1"]%string) by (vm_compute; reflexivity).
  unfold read. rewrite L. cbn [map].
  assert (O : forall l, forallb (fun k => negb (contains k l)) keywords = true -> ordinary l).
  { intros l Q k Hk. rewrite forallb_forall in Q. specialize (Q k Hk). now apply negb_true_iff in Q. }
  set (l1 := lit "1 0 2 1"). set (l2 := lit "1 2 0 1"). set (l3 := lit "1 0 -2 1"). set (l4 := lit "1 -2 0 1").
  assert (E0 : ofold read_line [lit "# SPECTRO ####"; lit "1 1 1 1 1 1 1 4"; lit "# GEOM ####"; lit "4 0"] (start (F := R)) =
    Some {| coord_map := []; Text.state := InGeom; skip := 0%nat; ret := {| header := [1; 1; 1; 1; 1; 1; 1; 4]%Z; atoms := []; Text.weights := [];
            curvils := []; degmodes := []; dummies := [] |} |}) by reflexivity.
  change [lit "# SPECTRO ####"; lit "1 1 1 1 1 1 1 4"; lit "# GEOM ####"; lit "4 0"; l1; l2; l3; l4]
    with ([lit "# SPECTRO ####"; lit "1 1 1 1 1 1 1 4"; lit "# GEOM ####"; lit "4 0"] ++ [l1; l2; l3; l4]).
  rewrite ofold_app, E0. cbn [obind].
  match goal with |- context [ofold _ _ ?s] => set (s0 := s) end. cbn [ofold].
  assert (NZ : forall z, (0 < z)%Z -> f_to_N (IZR z) <> 0%N) by (intros z Hz; rewrite number_R; lia).
  destruct (read_line_geom s0 l1 (lit "1") (lit "0") (lit "2") (lit "1") (IZR 1) (IZR 0) (IZR 2) (IZR 1)) as (s1 & E1 & K1 & S1 & R1);
    try reflexivity. { apply O. reflexivity. } { apply NZ. lia. }
  rewrite E1. cbn [obind].
  destruct (read_line_geom s1 l2 (lit "1") (lit "2") (lit "0") (lit "1") (IZR 1) (IZR 2) (IZR 0) (IZR 1)) as (s2 & E2 & K2 & S2 & R2);
    try reflexivity; try assumption. { apply O. reflexivity. } { apply NZ. lia. }
  rewrite E2. cbn [obind].
  destruct (read_line_geom s2 l3 (lit "1") (lit "0") (lit "-2") (lit "1") (IZR 1) (IZR 0) (IZR (-2)) (IZR 1)) as (s3 & E3 & K3 & S3 & R3);
    try reflexivity; try assumption. { apply O. reflexivity. } { apply NZ. lia. }
  rewrite E3. cbn [obind].
  destruct (read_line_geom s3 l4 (lit "1") (lit "-2") (lit "0") (lit "1") (IZR 1) (IZR (-2)) (IZR 0) (IZR 1)) as (s4 & E4 & K4 & S4 & R4);
    try reflexivity; try assumption. { apply O. reflexivity. } { apply NZ. lia. }
  rewrite E4. cbn [obind]. rewrite R4, R3, R2, R1. unfold s0. cbn [ret header atoms Text.weights curvils degmodes dummies List.app].
  unfold apply_weights. cbn [header nth_error obind Z.eqb]. eexists. split; [reflexivity|]. split; reflexivity.
Qed.

Ltac split4 E := apply pair_equal_spec in E as [E <-]; apply pair_equal_spec in E as [E <-]; apply pair_equal_spec in E as [<- <-].
Lemma square_centre : square_com (map (fun a => atom_at a (vscale (1 / 2) (where_ a))) square_atoms) = (0, 0, 1 / 2).
Proof.
  unfold square_com, Rsum, place_of. cbn [List.length square_atoms map seq fold_right nth where_ comp fst snd atom_at vscale ax ay az number weight].
  f_equal; [f_equal|]; field.
Qed.
Lemma square_ok : symm_ok square_symm (1 / 2) (fun _ _ => 1) square_atoms.
Proof.
  constructor; try reflexivity.
  - intros ats Ht x Hx. assert (W : forall f : nat -> R, Sum (List.length ats) (fun q => nth q (map (fun _ => 1) ats) 0 * f q) = Sum (List.length ats) f).
    { intros f. apply sum_g. intros q Hq. rewrite (nth_indep _ 0 1) by (now rewrite map_length).
      rewrite (map_nth (fun _ : atom R => 1) ats {| number := 0; ax := 0; ay := 0; az := 0; weight := None |}). ring. }
    cbn [masses square_symm]. rewrite W. unfold total in *. cbn [masses centre_of_mass square_symm] in *.
    unfold square_com. three x; cbn [comp fst snd]; field; exact Ht.
  - intros pr axes r ats' E. cbn [normalize square_symm] in E. split4 E. split; [exact orth_delta3|].
    exists (0, 0, 0). rewrite <- (map_id (to_angstrom _ _)) at 1. apply map_ext. intros a. rewrite frame_delta. destruct a as [n x y z w].
    cbn [atom_at vsub where_ ax ay az number weight]. now rewrite !Rminus_0_r.
  - intros pr axes r ats' E _ x y Hx Hy. cbn [normalize square_symm] in E. split4 E.
    cbn [centre_of_mass to_angstrom masses square_symm]. rewrite square_centre.
    unfold inertia, Rsum, place_of. cbn [List.length square_atoms map seq fold_right nth where_ atom_at vscale ax ay az number weight vsub].
    three x; three y; unfold kron; cbn [comp fst snd Nat.eqb]; field.
  - intros pr axes r ats' E. cbn [normalize square_symm] in E. split4 E. discriminate.
  - intros pr axes ats' E. cbn [normalize square_symm] in E. apply pair_equal_spec in E as [E _]. apply pair_equal_spec in E as [_ E]. discriminate.
  - intros pr axes r ats' _ _ _. cbn. split; [split; [discriminate|now right]|reflexivity].
Qed.
Lemma square_total : total square_symm square_atoms <> 0.
Proof. unfold total. cbn [masses square_symm square_atoms map fold_right]. lra. Qed.

Lemma square_loaded : exists l, load_input square_symm square_in = Some l /\
  comp (l_primat l) 0 = comp (l_primat l) 1 /\ l_axes l 0%nat 0%nat = 0 /\ l_axes l 1%nat 0%nat = 1.
Proof.
  destruct square_read as (s0 & E & Ha & _). unfold load_input. rewrite E. cbn [obind]. unfold process_molecule. rewrite Ha.
  cbn [normalize to_angstrom centre_of_mass point_group axis_default square_symm is_sym_top obind is_linear]. rewrite square_centre.
  set (at2 := map (shift_back (0, 0, 1 / 2)) _).
  assert (A2 : nth_error (map position at2) 0 = Some (0, 1, 0)).
  { unfold at2. cbn [map square_atoms nth_error]. unfold position, shift_back, place, atom_at, vscale, where_. cbn [ax ay az]. unR.
    f_equal. f_equal; [f_equal|]; field. }
  assert (P0 : exists rest, map position at2 = (0, 1, 0) :: rest).
  { revert A2. generalize (map position at2). intros [|p rest] A2; [discriminate|]. exists rest. cbn [nth_error] in A2. apply some_eq in A2. now subst p. }
  destruct P0 as (rest & P0).
  assert (L2 : List.length at2 = 4%nat) by (unfold at2; now rewrite !map_length).
  unfold orient_geom. cbn [andb negb]. 
  assert (Mi : make_iatl (map position at2) AX (D2h AZ (AY, AZ)) = Some (0%nat, 2%nat, AZ)).
  { cbn [make_iatl]. unfold find_plane_atom. cbn [perp xor_axis obind fst snd axis_eqb]. rewrite P0. cbn [Geom.position].
    cbn [coord]. unfold ngtb. cbn [nltb nabs Rnum]. rewrite GTOL_R, Rabs_R0, Rabs_R1. unfold tol.
    unfold Rltb. destruct (Rlt_dec 0 _); [|lra]. destruct (Rlt_dec _ 1); [|lra]. reflexivity. }
  rewrite Mi. cbn [obind fst]. unfold orient. unfold vec3. rewrite A2. cbn [obind].
  match goal with |- context [make_sizes (List.length ?x)] => assert (Lx : List.length x = 4%nat) end.
  { rewrite map_length, combine_length, !map_length, L2. reflexivity. }
  rewrite Lx. assert (Sz : exists sz, make_sizes 4 false = Some sz).
  { unfold make_sizes. change (3 * 4 <? 6)%nat with false. eexists. reflexivity. }
  destruct Sz as (sz & ->). cbn [obind]. eexists. split; [reflexivity|].
  cbn [l_primat l_axes comp fst snd]. split; [reflexivity|]. rewrite !axes_R. unfold mprod. rewrite !sum3, !egr_eval. cbv zeta.
  replace (0 * 0 + 1 * 1) with (1 * 1) by ring. rewrite sqrt_square by lra. unfold delta. cbn [Nat.eqb]. split; field.
Qed.
