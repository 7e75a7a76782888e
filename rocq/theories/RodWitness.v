(** Three atoms of masses 1, 4 and 4 along the z axis of the input, with the files of their force constants. *)
From Coq Require Import FunctionalExtensionality Reals Lra List ZArith NArith Arith Lia Bool Ascii String Permutation.
From Verif Require Import Num Loops Index ListFacts Modes ModesFacts ResFacts Anharm AnharmFacts VibRot VibRotFacts Distort Transform TransformFacts
  RotFacts HarmFacts ModeFacts DistortFacts EckartFacts ZeroFacts SymAnharm Polyads Report ReportFacts Geom GeomFacts OrientFacts InertiaFacts Finish OutText OutFacts OutTables OutRun
  Program ProgramFacts ProgramRun FrameFacts Text BlankFacts FrameWitness AlignExact Threefold ThreeForm ThreeModes ThreeWitness PyramidWitness
  LinearModes LinearRun LinearWitness FermiWitness VanVleckSum LinearFiles.
Import ListNotations.
Import Text.
Open Scope list_scope.
Open Scope nat_scope.
Local Open Scope R_scope.
#[local] Existing Instance Rtext.

Definition rod_in : text := unlines (map lit
  ["# SPECTRO ####"; "1 1 1 1 1 1 1 4"; "# GEOM ####"; "3 0"; "1 0 0 4"; "2 0 0 1"; "2 0 0 -2"]%string).
Definition rod_mass (n : N) (w : option R) : R := if N.eqb n 1 then 1 else 4.
Definition rod_masses (ats : list (atom R)) : list R := map (fun a => rod_mass (number a) (weight a)) ats.
Definition rod_com (ats : list (atom R)) : R * R * R :=
  let s x := Sum (List.length ats) (fun q => nth q (rod_masses ats) 0 * comp (place_of ats q) x) / fold_right Rplus 0 (rod_masses ats) in
  (s 0%nat, s 1%nat, s 2%nat).
Definition rod_symm : symm R unit := {|
  to_angstrom := map (fun a => atom_at a (vscale (1 / 2) (where_ a)));
  normalize := fun a => ((9, 9, 0), delta, Linear, map (fun a => atom_at a (in_frame delta (where_ a))) a);
  centre_of_mass := rod_com;
  point_group := fun _ => OtherGroup;
  masses := rod_masses;
  find_buddy := fun _ _ _ _ => None;
  irrep_of := fun _ _ _ _ => Some tt;
  irrep_A := tt;
  axis_default := AX;
  molecule_lines := map (fun a => lit "atom " ++ show_N (number a));
  irrep_text := sample_label |}.
Definition rod_atoms : list (atom R) :=
  [ {| number := 1; ax := 0; ay := 0; az := 4; weight := None |}; {| number := 2; ax := 0; ay := 0; az := 1; weight := None |};
    {| number := 2; ax := 0; ay := 0; az := -2; weight := None |} ].

(** three times the vibrations of [lin_V] *)
Definition z_S (a : nat) : Z := nth a [0; 0; 2; 0; 0; -2; 0; 0; 1]%Z 0%Z.
Definition z_T (a : nat) : Z := nth a [0; 0; 2; 0; 0; 1; 0; 0; -2]%Z 0%Z.
Definition z_X (a : nat) : Z := nth a [2; 0; 0; -2; 0; 0; 1; 0; 0]%Z 0%Z.
Definition z_Y (a : nat) : Z := nth a [0; 2; 0; 0; -2; 0; 0; 1; 0]%Z 0%Z.
Definition z_m (a : nat) : Z := nth a [1; 1; 1; 2; 2; 2; 2; 2; 2]%Z 0%Z.
Definition rod_v2 (a b : nat) : Z :=
  (25 * ((z_m a * z_S a) * (z_m b * z_S b)) + 9 * ((z_m a * z_T a) * (z_m b * z_T b))
   + ((z_m a * z_X a) * (z_m b * z_X b) + (z_m a * z_Y a) * (z_m b * z_Y b)))%Z.
Definition rod_v3 (a b c : nat) : Z :=
  (z_S a * z_S b * z_S c
   + (z_S a * z_X b * z_X c + z_X a * z_S b * z_X c + z_X a * z_X b * z_S c
      + (z_S a * z_Y b * z_Y c + z_Y a * z_S b * z_Y c + z_Y a * z_Y b * z_S c)))%Z.
Definition rod_v4 (a b c d : nat) : Z := (z_S a * z_S b * z_S c * z_S d)%Z.
Definition rod_z2 : list Z := flat_map (fun i => map (fun j => rod_v2 i j) (seq 0 9)) (seq 0 9).
Definition rod_z3 : list Z := flat_map (fun i => flat_map (fun j => map (fun k => rod_v3 i j k) (seq 0 (j + 1))) (seq 0 (i + 1))) (seq 0 9).
Definition rod_z4 : list Z := flat_map (fun i => flat_map (fun j => flat_map (fun k =>
  map (fun l => rod_v4 i j k l) (seq 0 (k + 1))) (seq 0 (j + 1))) (seq 0 (i + 1))) (seq 0 9).
(** one wavenumber stands for the root of one unit of force over one unit of mass *)
Definition rod_c : R := @WAVE R Rnum * sqrt (@FACT2 R Rnum).
Definition rod_vals : list R := [@FACT2 R Rnum * 225; @FACT2 R Rnum * 81; @FACT2 R Rnum * 9; @FACT2 R Rnum * 9; 0; 0; 0; 0; 0].
Definition rod_freq : list R := [15 * rod_c; 9 * rod_c; 3 * rod_c; 3 * rod_c; 0; 0; 0; 0; 0].
Definition rod_eig (A : nat -> nat -> R) : list R * (nat -> nat -> R) := (rod_vals, lin_V).

Lemma rod_c_big : 1000 < rod_c.
Proof.
  unfold rod_c. assert (1 < @FACT2 R Rnum) by (unfold FACT2, HE, A0; cbn [ndiv nmul nlit Rnum]; lra).
  assert (1000 < @WAVE R Rnum) by (unfold WAVE, SQRT_AVN, PI64, CL; cbn [ndiv nmul nlit Rnum]; rewrite !nz_R; lra).
  assert (1 < sqrt (@FACT2 R Rnum)) by (rewrite <- sqrt_1 at 1; apply sqrt_lt_1; lra). nra.
Qed.

(** ** the files *)
Lemma rod_read : exists s0, read rod_in = Some s0 /\ atoms s0 = rod_atoms.
Proof.
  assert (L : lines rod_in = map lit
    ["# SPECTRO ####"; "1 1 1 1 1 1 1 4"; "# GEOM ####"; "3 0"; "1 0 0 4"; "2 0 0 1"; "2 0 0 -2"]%string) by (vm_compute; reflexivity).
  unfold read. rewrite L. cbn [map].
  assert (O : forall l, forallb (fun k => negb (contains k l)) keywords = true -> ordinary l).
  { intros l Q k Hk. rewrite forallb_forall in Q. specialize (Q k Hk). now apply negb_true_iff in Q. }
  set (l1 := lit "1 0 0 4"). set (l2 := lit "2 0 0 1"). set (l3 := lit "2 0 0 -2").
  assert (E0 : ofold read_line [lit "# SPECTRO ####"; lit "1 1 1 1 1 1 1 4"; lit "# GEOM ####"; lit "3 0"] (start (F := R)) =
    Some {| coord_map := []; Text.state := InGeom; skip := 0%nat; ret := {| header := [1; 1; 1; 1; 1; 1; 1; 4]%Z; atoms := []; Text.weights := [];
            curvils := []; degmodes := []; dummies := [] |} |}) by reflexivity.
  change [lit "# SPECTRO ####"; lit "1 1 1 1 1 1 1 4"; lit "# GEOM ####"; lit "3 0"; l1; l2; l3]
    with ([lit "# SPECTRO ####"; lit "1 1 1 1 1 1 1 4"; lit "# GEOM ####"; lit "3 0"] ++ [l1; l2; l3]).
  rewrite ofold_app, E0. cbn [obind].
  match goal with |- context [ofold _ _ ?s] => set (s0 := s) end. cbn [ofold].
  assert (NZ : forall z, (0 < z)%Z -> f_to_N (IZR z) <> 0%N) by (intros z Hz; rewrite number_R; lia).
  destruct (read_line_geom s0 l1 (lit "1") (lit "0") (lit "0") (lit "4") (IZR 1) (IZR 0) (IZR 0) (IZR 4)) as (s1 & E1 & K1 & S1 & R1);
    try reflexivity. { apply O. reflexivity. } { apply NZ. lia. }
  rewrite E1. cbn [obind].
  destruct (read_line_geom s1 l2 (lit "2") (lit "0") (lit "0") (lit "1") (IZR 2) (IZR 0) (IZR 0) (IZR 1)) as (s2 & E2 & K2 & S2 & R2);
    try reflexivity; try assumption. { apply O. reflexivity. } { apply NZ. lia. }
  rewrite E2. cbn [obind].
  destruct (read_line_geom s2 l3 (lit "2") (lit "0") (lit "0") (lit "-2") (IZR 2) (IZR 0) (IZR 0) (IZR (-2))) as (s3 & E3 & K3 & S3 & R3);
    try reflexivity; try assumption. { apply O. reflexivity. } { apply NZ. lia. }
  rewrite E3. cbn [obind]. rewrite R3, R2, R1. unfold s0. cbn [ret header atoms Text.weights curvils degmodes dummies List.app].
  rewrite !number_R. unfold apply_weights. cbn [header nth_error obind Z.eqb]. eexists. split; reflexivity.
Qed.
Lemma rod_ok : symm_ok rod_symm (1 / 2) rod_mass rod_atoms.
Proof.
  constructor; try reflexivity.
  - intros ats Ht x Hx. unfold total in *. cbn [masses centre_of_mass rod_symm] in *.
    unfold rod_com. three x; cbn [comp fst snd]; field; exact Ht.
  - intros pr axes r ats' E. cbn [normalize rod_symm] in E. split4 E. split; [exact orth_delta3|].
    exists (0, 0, 0). apply map_ext. intros a. destruct a as [n x y z w].
    cbn [atom_at vsub where_ ax ay az number weight]. now rewrite !Rminus_0_r.
  - intros pr axes r ats' E _ x y Hx Hy. cbn [normalize rod_symm] in E. split4 E.
    cbn [centre_of_mass to_angstrom masses rod_symm].
    unfold rod_com, rod_masses, rod_mass, inertia, Rsum, place_of, delta.
    cbn [List.length rod_atoms map seq fold_right nth where_ atom_at vscale ax ay az number weight vsub in_frame comp fst snd N.eqb Pos.eqb Nat.eqb].
    three x; three y; unfold kron; cbn [comp fst snd Nat.eqb]; field.
  - intros pr axes r ats' E _ _. cbn [normalize rod_symm] in E. split4 E.
    cbn [to_angstrom rod_symm rod_atoms map In]. intros a b Ha Hb. unfold delta in *.
    destruct Ha as [<-|[<-|[<-|[]]]], Hb as [<-|[<-|[<-|[]]]]; cbn [atom_at vscale where_ in_frame ax ay az number weight Nat.eqb]; split; ring.
  - intros pr axes ats' E. cbn [normalize rod_symm] in E. apply pair_equal_spec in E as [E _]. apply pair_equal_spec in E as [_ E]. discriminate.
  - intros pr axes r ats' E. cbn [normalize rod_symm] in E. split4 E. discriminate.
Qed.
Lemma fix_delta : fix_linear delta = delta.
Proof.
  assert (E : forall i j, fix_linear delta i j = delta i j).
  { intros i j. unfold fix_linear. rewrite !nz_R. destruct (_ && _); [|reflexivity].
    destruct j as [|[|j]]; unfold delta; rewrite ?nz_R; reflexivity. }
  extensionality i. extensionality j. apply E.
Qed.
Lemma rod_loaded : exists l, load_input rod_symm rod_in = Some l /\ l_rotor l = Linear /\ l_axes l = delta /\
  map where_ (atoms (l_input l)) = [(0, 0, 2); (0, 0, 1 / 2); (0, 0, -1)].
Proof.
  destruct rod_read as (s0 & E & Ha). unfold load_input. rewrite E. cbn [obind]. unfold process_molecule. rewrite Ha.
  cbn [normalize to_angstrom rod_symm atoms is_sym_top obind orient_geom point_group is_linear andb negb].
  set (at_ := map _ (combine _ _)).
  assert (Ln : List.length at_ = 3%nat) by (unfold at_; rewrite map_length, combine_length, !map_length; reflexivity).
  assert (Gm : map where_ at_ = [(0, 0, 2); (0, 0, 1 / 2); (0, 0, -1)]).
  { unfold at_. cbn [rod_symm centre_of_mass]. unfold shift_back, rod_com, rod_masses, rod_mass, Rsum, place_of, delta, place, Program.position.
    cbn [List.length rod_atoms map combine seq fold_right nth where_ atom_at vscale ax ay az number weight vsub in_frame comp fst snd N.eqb Pos.eqb Nat.eqb nadd nopp Rnum].
    unfold position. cbn [ax ay az]. repeat (apply (f_equal2 cons) || apply f_equal2); try reflexivity; cbn [ax ay az]; field. }
  rewrite Ln. assert (Sz : exists sz, make_sizes 3 true = Some sz) by (eexists; reflexivity).
  destruct Sz as (sz & ->). cbn [obind]. eexists. split; [reflexivity|]. split; [reflexivity|]. split; [exact fix_delta|exact Gm].
Qed.

Lemma rod_numbers :
  numbers (listing rod_z2) = Some (map IZR rod_z2) /\
  load_vec (listing rod_z3) = Some (map IZR rod_z3) /\ load_vec (listing rod_z4) = Some (map IZR rod_z4).
Proof.
  unfold numbers, load_vec. cbn [fparse Rtext].
  split; [|split]; rewrite omap_opt;
  match goal with |- option_map ?f ?a = Some (map _ ?b) => assert (Q : a = Some b) by (vm_compute; reflexivity); rewrite Q end; reflexivity.
Qed.
Ltac look Q i Hi := rewrite forallb_forall in Q; specialize (Q i (proj2 (in_seq _ 0 i) (conj (Nat.le_0_l i) Hi))); cbv beta in Q.
Lemma rod_listed i j : (i < 9)%nat -> (j < 9)%nat -> nth_error rod_z2 (i * 9 + j) = Some (rod_v2 i j).
Proof.
  intros Hi Hj.
  assert (Q : forallb (fun i => forallb (fun j => match nth_error rod_z2 (i * 9 + j) with
    | Some z => (z =? rod_v2 i j)%Z | None => false end) (seq 0 9)) (seq 0 9) = true) by (vm_compute; reflexivity).
  look Q i Hi. look Q j Hj. destruct (nth_error rod_z2 (i * 9 + j)) as [z|]; [|discriminate]. apply Z.eqb_eq in Q. now subst z.
Qed.
Lemma rod_listed3 i j k : (k <= j)%nat -> (j <= i)%nat -> (i < 9)%nat ->
  nth_error rod_z3 (k + j * (j + 1) / 2 + i * (i + 1) * (i + 2) / 6) = Some (rod_v3 i j k).
Proof.
  intros H1 H2 Hi.
  assert (Q : forallb (fun i => forallb (fun j => forallb (fun k => match nth_error rod_z3 (k + j * (j + 1) / 2 + i * (i + 1) * (i + 2) / 6) with
    | Some z => (z =? rod_v3 i j k)%Z | None => false end) (seq 0 (j + 1))) (seq 0 (i + 1))) (seq 0 9) = true) by (vm_compute; reflexivity).
  assert (Hj : (j < i + 1)%nat) by lia. assert (Hk : (k < j + 1)%nat) by lia.
  look Q i Hi. look Q j Hj. look Q k Hk. destruct (nth_error rod_z3 _) as [z|]; [|discriminate]. apply Z.eqb_eq in Q. now subst z.
Qed.
Lemma rod_listed4 i j k l : (l <= k)%nat -> (k <= j)%nat -> (j <= i)%nat -> (i < 9)%nat ->
  nth_error rod_z4 (l + k * (k + 1) / 2 + j * (j + 1) * (j + 2) / 6 + i * (i + 1) * (i + 2) * (i + 3) / 24) = Some (rod_v4 i j k l).
Proof.
  intros H0 H1 H2 Hi.
  assert (Q : forallb (fun i => forallb (fun j => forallb (fun k => forallb (fun l =>
    match nth_error rod_z4 (l + k * (k + 1) / 2 + j * (j + 1) * (j + 2) / 6 + i * (i + 1) * (i + 2) * (i + 3) / 24) with
    | Some z => (z =? rod_v4 i j k l)%Z | None => false end) (seq 0 (k + 1))) (seq 0 (j + 1))) (seq 0 (i + 1))) (seq 0 9) = true) by (vm_compute; reflexivity).
  assert (Hj : (j < i + 1)%nat) by lia. assert (Hk : (k < j + 1)%nat) by lia. assert (Hl : (l < k + 1)%nat) by lia.
  look Q i Hi. look Q j Hj. look Q k Hk. look Q l Hl. destruct (nth_error rod_z4 _) as [z|]; [|discriminate]. apply Z.eqb_eq in Q. now subst z.
Qed.
Lemma rod_two i j : rod_v2 i j = rod_v2 j i.
Proof. unfold rod_v2. ring. Qed.
Lemma rod_symmetric : symmetric_list 9 (map IZR rod_z2).
Proof. intros i j Hi Hj. rewrite !nth_error_map, !rod_listed by assumption. now rewrite rod_two. Qed.

Lemma z_R a : (a < 9)%nat -> IZR (z_S a) = 3 * lin_V a 0 /\ IZR (z_T a) = 3 * lin_V a 1 /\ IZR (z_X a) = 3 * lin_X a /\ IZR (z_Y a) = 3 * lin_Y a /\ IZR (z_m a) = rm a.
Proof. intros Ha. nine a; cbn; lra. Qed.
Definition rod_f2 (a b : nat) : R :=
  225 * ((rm a * lin_V a 0) * (rm b * lin_V b 0)) + 81 * ((rm a * lin_V a 1) * (rm b * lin_V b 1))
   + 9 * ((rm a * lin_X a) * (rm b * lin_X b) + (rm a * lin_Y a) * (rm b * lin_Y b)).
Lemma rod_is2 fc2 : lists2 9 (map IZR rod_z2) fc2 -> forall a b, (a < 9)%nat -> (b < 9)%nat -> fc2 a b = rod_f2 a b.
Proof.
  intros L a b Ha Hb. assert (E : fc2 a b = IZR (rod_v2 a b)).
  { apply some_eq. rewrite <- (L a b Ha Hb). now rewrite nth_error_map, rod_listed. }
  rewrite E. unfold rod_v2, rod_f2. rewrite ?plus_IZR, ?mult_IZR, ?plus_IZR, ?mult_IZR.
  destruct (z_R a Ha) as (-> & -> & -> & -> & ->), (z_R b Hb) as (-> & -> & -> & -> & ->). ring.
Qed.
Lemma rod_is3 f3x : lists3 9 (map IZR rod_z3) f3x -> forall a b c, (a < 9)%nat -> (b < 9)%nat -> (c < 9)%nat -> f3x a b c = 27 * lin_f3 a b c.
Proof.
  intros L a b c Ha Hb Hc. destruct (sorted_triple a b c) as (i & j & k & P & H1 & H2 & H3). assert (Hi : (i < 9)%nat) by lia.
  assert (E : f3x a b c = IZR (rod_v3 i j k)).
  { apply some_eq. rewrite <- (L i j k H1 H2 Hi a b c P). now rewrite nth_error_map, rod_listed3. }
  assert (F : rod_v3 i j k = rod_v3 a b c).
  { destruct (perm3 _ _ _ _ _ _ P) as [Q|[Q|[Q|[Q|[Q|Q]]]]]; destruct Q as (-> & -> & ->); unfold rod_v3; ring. }
  rewrite E, F. unfold rod_v3, lin_f3. cbv zeta. rewrite !plus_IZR, !mult_IZR.
  destruct (z_R a Ha) as (-> & _ & -> & -> & _), (z_R b Hb) as (-> & _ & -> & -> & _), (z_R c Hc) as (-> & _ & -> & -> & _). ring.
Qed.
Lemma rod_is4 f4x : lists4 9 (map IZR rod_z4) f4x ->
  forall a b c d, (a < 9)%nat -> (b < 9)%nat -> (c < 9)%nat -> (d < 9)%nat -> f4x a b c d = 81 * lin_f4 a b c d.
Proof.
  intros L a b c d Ha Hb Hc Hd. destruct (sorted_quadruple a b c d) as (i & j & k & l & P & H1 & H2 & H3 & H4). assert (Hi : (i < 9)%nat) by lia.
  assert (E : f4x a b c d = IZR (rod_v4 i j k l)).
  { apply some_eq. rewrite <- (L i j k l H1 H2 H3 Hi a b c d P). now rewrite nth_error_map, rod_listed4. }
  assert (F : rod_v4 i j k l = rod_v4 a b c d).
  { unfold rod_v4. apply (Permutation_map z_S) in P. cbn [map] in P.
    assert (Q : forall l l', Permutation l l' -> fold_right Z.mul 1%Z l = fold_right Z.mul 1%Z l').
    { clear. intros l l' P. induction P; cbn [fold_right]; lia. }
    apply Q in P. cbn [fold_right] in P. lia. }
  rewrite E, F. unfold rod_v4, lin_f4. rewrite !mult_IZR.
  destruct (z_R a Ha) as (-> & _), (z_R b Hb) as (-> & _), (z_R c Hc) as (-> & _), (z_R d Hd) as (-> & _). ring.
Qed.

(** ** the symmetry of the force constants *)
Lemma rod_con2 U a b : con2 9 U rod_f2 a b =
  225 * (con1 9 U (fun r => rm r * lin_V r 0) a * con1 9 U (fun r => rm r * lin_V r 0) b)
   + 81 * (con1 9 U (fun r => rm r * lin_V r 1) a * con1 9 U (fun r => rm r * lin_V r 1) b)
   + 9 * (con1 9 U (fun r => rm r * lin_X r) a * con1 9 U (fun r => rm r * lin_X r) b
          + con1 9 U (fun r => rm r * lin_Y r) a * con1 9 U (fun r => rm r * lin_Y r) b).
Proof.
  unfold rod_f2. rewrite !con2_add, !con2_scale, con2_add.
  rewrite (con2_prod 9 U (fun r => rm r * lin_V r 0) (fun r => rm r * lin_V r 0)), (con2_prod 9 U (fun r => rm r * lin_V r 1) (fun r => rm r * lin_V r 1)),
    (con2_prod 9 U (fun r => rm r * lin_X r) (fun r => rm r * lin_X r)), (con2_prod 9 U (fun r => rm r * lin_Y r) (fun r => rm r * lin_Y r)).
  reflexivity.
Qed.
Lemma rod_g2 fc2 : lists2 9 (map IZR rod_z2) fc2 -> forall a b, (a < 9)%nat -> (b < 9)%nat -> con2 9 (every_atom delta) fc2 a b = rod_f2 a b.
Proof.
  intros L a b Ha Hb. rewrite (con2_g 9 _ _ rod_f2) by (intros; now apply rod_is2).
  rewrite rod_con2, !lin_axes by assumption. reflexivity.
Qed.
Lemma con3_scale n U k f a b c : con3 n U (fun r s t => k * f r s t) a b c = k * con3 n U f a b c.
Proof. unfold con3. rewrite <- con1_scale. apply con1_ext. intros r _. apply con2_scale. Qed.
Lemma con4_scale n U k f a b c d : con4 n U (fun r s t u => k * f r s t u) a b c d = k * con4 n U f a b c d.
Proof. unfold con4. rewrite <- con1_scale. apply con1_ext. intros r _. apply con3_scale. Qed.
Lemma rod_same2 fc2 P c s g : lists2 9 (map IZR rod_z2) fc2 -> turns P c s g -> c * c + s * s = 1 -> g * g = 1 ->
  same2 9 P (con2 9 (every_atom delta) fc2).
Proof.
  intros L HP Hcs Hg a b Ha Hb. rewrite (con2_g 9 _ _ rod_f2) by (intros; now apply rod_g2). rewrite rod_g2, rod_con2 by assumption.
  destruct (HP a Ha) as (-> & -> & _ & _ & -> & _ & ->), (HP b Hb) as (-> & -> & _ & _ & -> & _ & ->). unfold rod_f2. f_equal. f_equal.
  set (xa := rm a * lin_X a). set (ya := rm a * lin_Y a). set (xb := rm b * lin_X b). set (yb := rm b * lin_Y b).
  transitivity ((c * xa - s * ya) * (c * xb - s * yb) + (g * g) * ((s * xa + c * ya) * (s * xb + c * yb))); [ring|].
  rewrite Hg. transitivity ((c * c + s * s) * (xa * xb + ya * yb)); [ring|]. rewrite Hcs. ring.
Qed.
Lemma rod_g3 f3x : lists3 9 (map IZR rod_z3) f3x -> forall a b c, (a < 9)%nat -> (b < 9)%nat -> (c < 9)%nat ->
  con3 9 (every_atom delta) f3x a b c = 27 * con3 9 (every_atom delta) lin_f3 a b c.
Proof.
  intros L a b c Ha Hb Hc. rewrite (con3_g 9 _ _ (fun r s t => 27 * lin_f3 r s t)) by (intros; now apply rod_is3). apply con3_scale.
Qed.
Lemma rod_g4 f4x : lists4 9 (map IZR rod_z4) f4x -> forall a b c d, (a < 9)%nat -> (b < 9)%nat -> (c < 9)%nat -> (d < 9)%nat ->
  con4 9 (every_atom delta) f4x a b c d = 81 * con4 9 (every_atom delta) lin_f4 a b c d.
Proof.
  intros L a b c d Ha Hb Hc Hd. rewrite (con4_g 9 _ _ (fun r s t u => 81 * lin_f4 r s t u)) by (intros; now apply rod_is4). apply con4_scale.
Qed.
Lemma rod_same3 f3x P : lists3 9 (map IZR rod_z3) f3x -> same3 9 P (con3 9 (every_atom delta) lin_f3) -> same3 9 P (con3 9 (every_atom delta) f3x).
Proof.
  intros L S a b c Ha Hb Hc. rewrite (con3_g 9 _ _ (fun r s t => 27 * con3 9 (every_atom delta) lin_f3 r s t)) by (intros; now apply rod_g3).
  rewrite con3_scale, S, (rod_g3 f3x L) by assumption. reflexivity.
Qed.
Lemma rod_same4 f4x P : lists4 9 (map IZR rod_z4) f4x -> same4 9 P (con4 9 (every_atom delta) lin_f4) -> same4 9 P (con4 9 (every_atom delta) f4x).
Proof.
  intros L S a b c d Ha Hb Hc Hd. rewrite (con4_g 9 _ _ (fun r s t u => 81 * con4 9 (every_atom delta) lin_f4 r s t u)) by (intros; now apply rod_g4).
  rewrite con4_scale, S, (rod_g4 f4x L) by assumption. reflexivity.
Qed.
Lemma rod_axial fc2 f3x f4x : lists2 9 (map IZR rod_z2) fc2 -> lists3 9 (map IZR rod_z3) f3x -> lists4 9 (map IZR rod_z4) f4x ->
  axially_symmetric 3 (con2 9 (every_atom delta) fc2) (con3 9 (every_atom delta) f3x) (con4 9 (every_atom delta) f4x).
Proof.
  intros L2 L3 L4. destruct lin_symmetric as ((_ & _) & (T3 & M3) & (T4 & M4)).
  repeat split; intros.
  - apply (rod_same2 fc2 _ _ _ _ L2 (turns_spin th) (unit_turn th)). lra.
  - apply (rod_same2 fc2 _ _ _ _ L2 turns_mirror); lra.
  - now apply rod_same3.
  - now apply rod_same3.
  - now apply rod_same4.
  - now apply rod_same4.
Qed.

(** ** the normal modes *)
Lemma rod_w q : (q < 3)%nat -> nth q (rod_masses rod_atoms) 0 = lin_w q.
Proof. intros Hq. below3 q; reflexivity. Qed.
Lemma rod_sym2 fc2 : lists2 9 (map IZR rod_z2) fc2 -> sym2 9 fc2.
Proof. intros L a b Ha Hb. rewrite !(rod_is2 _ L) by assumption. unfold rod_f2. ring. Qed.
Lemma rod_secular fc2 w a b : lists2 9 (map IZR rod_z2) fc2 -> (forall q, (q < 3)%nat -> w q = lin_w q) -> (a < 9)%nat -> (b < 9)%nat ->
  secular 3 delta fc2 w a b = @FACT2 R Rnum * (225 * (lin_V a 0 * lin_V b 0) + 81 * (lin_V a 1 * lin_V b 1) + 9 * (lin_V a 2 * lin_V b 2 + lin_V a 3 * lin_V b 3)).
Proof.
  intros L Hw Ha Hb. rewrite (secular_R 3); [|now apply rod_sym2|intros q Hq; rewrite Hw by exact Hq; apply lin_pos|exact Ha|exact Hb].
  change (3 * 3)%nat with 9%nat. unfold weighted. rewrite (rod_g2 _ L) by assumption.
  rewrite !Hw by (apply Nat.div_lt_upper_bound; lia). rewrite !lin_root, lin_bends by assumption. unfold rod_f2.
  pose proof (rm_pos a Ha). pose proof (rm_pos b Hb). field. lra.
Qed.
Lemma rod_solves fc2 w : lists2 9 (map IZR rod_z2) fc2 -> (forall q, (q < 3)%nat -> w q = lin_w q) -> solves 9 rod_eig (secular 3 delta fc2 w).
Proof.
  intros L Hw. unfold solves, rod_eig. cbn [fst snd]. split; [reflexivity|]. split; [exact lin_orth|]. intros a i x Ha Ex.
  assert (Hi : (i < 9)%nat) by (change 9%nat with (List.length rod_vals); apply nth_error_Some; congruence).
  set (F := @FACT2 R Rnum) in *.
  transitivity (Sum 9 (fun b => (F * 225 * lin_V a 0) * (lin_V b 0 * lin_V b i) + (F * 81 * lin_V a 1) * (lin_V b 1 * lin_V b i)
    + ((F * 9 * lin_V a 2) * (lin_V b 2 * lin_V b i) + (F * 9 * lin_V a 3) * (lin_V b 3 * lin_V b i)))).
  - apply sum_g. intros b Hb. rewrite (rod_secular _ _ _ _ L Hw) by assumption. fold F. ring.
  - rewrite !Rsum_plus, !Rsum_scal. rewrite !lin_cols by lia. unfold rod_vals in Ex. fold F in Ex. clearbody F.
    nine i; cbn [nth_error] in Ex; apply some_eq in Ex; subst x; unfold delta; cbn [Nat.eqb]; ring.
Qed.
Lemma rod_wave k x : 0 <= k -> x = k * k -> to_wavenumber (@FACT2 R Rnum * x) = k * rod_c.
Proof.
  intros Hk ->. pose proof FACT2_pos. rewrite wavenumber_R. destruct (Rlt_dec _ 0); [nra|].
  rewrite sqrt_mult by nra. rewrite sqrt_square by exact Hk. unfold rod_c. ring.
Qed.
Lemma rod_harmonic fc2 w : exists l0, harmonic 3 delta fc2 w rod_eig = Some (rod_freq, l0) /\
  forall a i, (i < 9)%nat -> l0 a i = lin_V a i.
Proof.
  unfold harmonic, rod_eig, sort_eigen. change (List.length rod_vals) with 9%nat. change (3 * 3)%nat with 9%nat.
  assert (Ep : sort_pairs true (combine (range 0 9) rod_vals) = combine (range 0 9) rod_vals).
  { pose proof FACT2_pos. unfold rod_vals. cbn [range Nat.sub seq combine sort_pairs fold_right].
    change (insert_pair true (8%nat, 0) []) with [(8%nat, 0)].
    repeat (rewrite insert_front by (cbn [snd]; lra)). reflexivity. }
  assert (Em : map to_wavenumber (map snd (combine (range 0 9) rod_vals)) = rod_freq).
  { cbn [range Nat.sub seq combine rod_vals map snd]. rewrite (rod_wave 15 225), (rod_wave 9 81), (rod_wave 3 9) by lra.
    replace (to_wavenumber 0) with 0 by (rewrite wavenumber_R; destruct (Rlt_dec 0 0); [lra|]; rewrite sqrt_0; ring). reflexivity. }
  rewrite Ep, <- Em. cbn [range Nat.sub seq combine rod_vals ofold nth_error obind fst].
  eexists. split; [reflexivity|].
  intros a i Hi. nine i; reflexivity.
Qed.
Lemma rod_pair i j : (i < j)%nat -> (j < 4)%nat -> nth i rod_freq 0 = nth j rod_freq 0 -> i = 2%nat /\ j = 3%nat.
Proof. pose proof rod_c_big. intros Hi Hj. below4 j; below4 i; cbn [nth rod_freq]; intros; try lia; lra. Qed.
Lemma rod_modes l0 : (forall a i, (i < 9)%nat -> l0 a i = lin_V a i) ->
  linear_modes 3 4 0 (fun i => nth i rod_freq 0) l0.
Proof.
  pose proof rod_c_big. intros E. constructor.
  - intros i Hi. below4 i; cbn [nth rod_freq]; lra.
  - intros i j Hi Hj. below4 j; below4 i; cbn [nth rod_freq]; try lia; (left; reflexivity) || (right; rewrite Rabs_pos_eq; lra).
  - intros i j k Hi Hj Hk E1 E2. destruct (rod_pair i j Hi ltac:(lia) E1), (rod_pair j k Hj Hk E2); lia.
  - intros i k Hi Hk Hk'. change (3 * 3)%nat with 9%nat in Hk'. below4 i; nine k; cbn [nth rod_freq]; try lia; lra.
  - intros i j Hi Hj Ew. left. unfold big, toler. rewrite E by lia.
    destruct (rod_pair i j Hi Hj Ew) as [-> ->]; cbn; rewrite Rabs_pos_eq; lra.
Qed.
Lemma rod_apart i j k : (i < 4)%nat -> (j < 4)%nat -> (k < 4)%nat ->
  nth i rod_freq 0 + nth j rod_freq 0 <> nth k rod_freq 0.
Proof. pose proof rod_c_big. intros Hi Hj Hk. below4 i; below4 j; below4 k; cbn [nth rod_freq]; lra. Qed.
Lemma rod_far i j : (i < 4)%nat -> (j < 4)%nat -> nth i rod_freq 0 = nth j rod_freq 0 \/ 200 < Rabs (nth i rod_freq 0 - nth j rod_freq 0).
Proof.
  pose proof rod_c_big. intros Hi Hj. below4 i; below4 j; cbn [nth rod_freq];
  (left; reflexivity) || (right; (rewrite Rabs_pos_eq by lra; lra) || (rewrite Rabs_left by lra; lra)).
Qed.
(** moving and turning the molecule cost no energy *)
Lemma rod_null fc2 (t : nat -> R) a : lists2 9 (map IZR rod_z2) fc2 -> (a < 9)%nat ->
  Sum 9 (fun b => (rm b * lin_V b 0) * t b) = 0 -> Sum 9 (fun b => (rm b * lin_V b 1) * t b) = 0 ->
  Sum 9 (fun b => (rm b * lin_X b) * t b) = 0 -> Sum 9 (fun b => (rm b * lin_Y b) * t b) = 0 ->
  Sum 9 (fun b => fc2 a b * t b) = 0.
Proof.
  intros L Ha Z0 Z1 Z2 Z3.
  transitivity (Sum 9 (fun b => 225 * (rm a * lin_V a 0) * ((rm b * lin_V b 0) * t b)
    + 81 * (rm a * lin_V a 1) * ((rm b * lin_V b 1) * t b)
    + 9 * (rm a * lin_X a) * ((rm b * lin_X b) * t b)
    + 9 * (rm a * lin_Y a) * ((rm b * lin_Y b) * t b))).
  - apply sum_g. intros b Hb. rewrite (rod_is2 _ L) by assumption. unfold rod_f2. ring.
  - rewrite !Rsum_plus, !Rsum_scal, Z0, Z1, Z2, Z3. ring.
Qed.
Lemma rod_free fc2 : lists2 9 (map IZR rod_z2) fc2 ->
  translation_free 3 fc2 /\ rotation_free 3 fc2 (fun q x => comp (place_of rod_atoms q) x).
Proof.
  intros L. split.
  - intros a x Ha Hx. change (3 * 3)%nat with 9%nat in *. rewrite sum3. rewrite !(rod_is2 _ L) by lia. unfold rod_f2. three x; nine a; cbn; lra.
  - intros W HW a Ha. change (3 * 3)%nat with 9%nat in *.
    assert (D : W 0%nat 0%nat = 0 /\ W 1%nat 1%nat = 0 /\ W 2%nat 2%nat = 0).
    { pose proof (HW 0 0)%nat. pose proof (HW 1 1)%nat. pose proof (HW 2 2)%nat. lra. }
    destruct D as (D0 & D1 & D2).
    pose proof (HW 1 0)%nat as E0. pose proof (HW 2 0)%nat as E1. pose proof (HW 2 1)%nat as E2.
    apply (rod_null fc2 (fun b => Sum 3 (fun k => W (b mod 3)%nat k * comp (place_of rod_atoms (b / 3)) k)) a L Ha);
      cbn; rewrite ?D0, ?D1, ?D2, ?E0, ?E1, ?E2; lra.
Qed.
Lemma rod_clear i j k : (i < 4)%nat -> (j < 4)%nat -> (k < 4)%nat ->
  200 < Rabs (nth i rod_freq 0 + nth j rod_freq 0 - nth k rod_freq 0).
Proof.
  pose proof rod_c_big. intros Hi Hj Hk. below4 i; below4 j; below4 k; cbn [nth rod_freq];
  (rewrite Rabs_pos_eq by lra; lra) || (rewrite Rabs_left by lra; lra).
Qed.

(** everything that [linear_from_files] and [linear_rotation_from_files] ask for *)
Lemma rod_meets : exists s0 l,
  read rod_in = Some s0 /\ load_input rod_symm rod_in = Some l /\ List.length (atoms s0) = 3%nat /\
  symm_ok rod_symm (1 / 2) rod_mass (atoms s0) /\ l_rotor l = Linear /\
  let mass q := nth q (masses rod_symm (atoms s0)) 0 in
  (forall q, (q < 3)%nat -> 0 < mass q) /\
  Sum 3 (fun q => mass q * comp (place_of (atoms (l_input l)) q) 2 ^ 2) = 9 /\
  Forall plain (molecule_lines rod_symm (atoms (l_input l))) /\
  (forall fc2, lists2 9 (map IZR rod_z2) fc2 -> solves 9 rod_eig (secular 3 (l_axes l) fc2 mass)) /\
  (forall fc2 f3x f4x, lists2 9 (map IZR rod_z2) fc2 -> lists3 9 (map IZR rod_z3) f3x -> lists4 9 (map IZR rod_z4) f4x ->
     axially_symmetric 3 (con2 9 (every_atom (l_axes l)) fc2) (con3 9 (every_atom (l_axes l)) f3x) (con4 9 (every_atom (l_axes l)) f4x)) /\
  (forall fc2 freq l0, lists2 9 (map IZR rod_z2) fc2 -> harmonic 3 (l_axes l) fc2 mass rod_eig = Some (freq, l0) ->
     linear_modes 3 4 0 (fun i => nth i freq 0) l0 /\
     (forall i j k, (i < 4)%nat -> (j < 4)%nat -> (k < 4)%nat -> nth i freq 0 + nth j freq 0 <> nth k freq 0) /\
     (forall i j k, (i < 4)%nat -> (j < 4)%nat -> (k < 4)%nat -> 200 < Rabs (nth i freq 0 + nth j freq 0 - nth k freq 0)) /\
     (forall i j, (i < 4)%nat -> (j < 4)%nat -> nth i freq 0 = nth j freq 0 \/ 200 < Rabs (nth i freq 0 - nth j freq 0))) /\
  (forall fc2, lists2 9 (map IZR rod_z2) fc2 ->
     translation_free 3 fc2 /\ rotation_free 3 fc2 (fun q x => comp (place_of (atoms s0) q) x)).
Proof.
  destruct rod_read as (s0 & E & Ha). destruct rod_loaded as (l & El & Hr & Hx & Gm). exists s0, l.
  split; [exact E|]. split; [exact El|]. rewrite Ha. split; [reflexivity|]. split; [exact rod_ok|]. split; [exact Hr|].
  cbv zeta. change (masses rod_symm rod_atoms) with (rod_masses rod_atoms).
  split. { intros q Hq. rewrite rod_w by exact Hq. below3 q; cbn; lra. }
  split.
  { assert (P : forall q, (q < 3)%nat -> place_of (atoms (l_input l)) q = nth q [(0, 0, 2); (0, 0, 1 / 2); (0, 0, -1)] (0, 0, 0)).
    { intros q Hq. rewrite <- Gm. unfold place_of, place. set (z := atoms (l_input l)) in *.
      assert (Lz : List.length z = 3%nat) by (rewrite <- (map_length where_), Gm; reflexivity).
      destruct z as [|a [|b [|c [|]]]]; try discriminate Lz. below3 q; reflexivity. }
    rewrite !sum3 || (unfold Rsum; cbn [seq fold_right]). rewrite !P by lia. rewrite !rod_w by lia. cbn. lra. }
  split.
  { cbn [molecule_lines rod_symm]. apply Forall_forall. intros x Hx'. apply in_map_iff in Hx' as (a & <- & _).
    apply plain_app; [|apply plain_show]. split; [repeat constructor|cbn; intuition discriminate]. }
  rewrite Hx.
  split. { intros fc2 L. apply rod_solves; [exact L|]. intros q Hq. now apply rod_w. }
  split; [exact rod_axial|]. split; [|exact rod_free].
  intros fc2 freq l0 L Eh. destruct (rod_harmonic fc2 (fun q => nth q (rod_masses rod_atoms) 0)) as (l1 & E1 & V).
  rewrite E1 in Eh. apply some_eq, pair_equal_spec in Eh as [<- <-].
  split; [exact (rod_modes l1 V)|]. split; [exact rod_apart|]. split; [exact rod_clear|exact rod_far].
Qed.
Lemma rod_prints : prints sample_er (irrep_text rod_symm) sample_name.
Proof. exact sample_prints_R. Qed.
Lemma rod_sizes : List.length (map IZR rod_z2) = 81%nat /\ List.length (map IZR rod_z3) = 165%nat /\ List.length (map IZR rod_z4) = 495%nat.
Proof. rewrite !map_length. repeat split. Qed.
Lemma rod_lam : 2 * ROTCONST * sqrt (/ (2 * ROTCONST)) ^ 2 = 1.
Proof.
  assert (P : 0 < @ROTCONST R Rnum) by (unfold ROTCONST; cbn; lra).
  assert (Q : 0 < / (2 * @ROTCONST R Rnum)) by (apply Rinv_0_lt_compat; lra).
  replace (sqrt (/ (2 * ROTCONST)) ^ 2) with (sqrt (/ (2 * ROTCONST)) * sqrt (/ (2 * ROTCONST))) by ring.
  rewrite sqrt_sqrt by lra. field. lra.
Qed.
Lemma rod_program : exists fuel t,
  program rod_symm eig_solve rod_eig fuel sample_er false rod_in (listing rod_z2) (listing rod_z3) (listing rod_z4) = Some t.
Proof.
  destruct rod_meets as (s0 & l & Ei & El & Ln & Ok & Hr & Pm & HJ & Hg & Sv & Ax & Lm & _).
  destruct rod_numbers as (N1 & N2 & N3). destruct rod_sizes as (Z2 & Z3 & Z4).
  destruct (linear_from_files_lemma Rtext rod_symm (1 / 2) rod_mass eig_solve rod_eig sample_er sample_name
    _ _ _ _ s0 l _ _ _ rod_prints Ei El N1 N2 N3 Ok Hr) as (fc2 & f3x & f4x & freq & l0 & fuel0 & lx & _ & _ & _ & _ & _ & _ & _ & _ & Q); rewrite ?Ln.
  { lia. } { exact Pm. } { rewrite HJ. lra. } { exact Hg. } { exact Z2. } { exact rod_symmetric. } { exact Z3. } { exact Z4. }
  { exact Sv. } { exact Ax. } { intros fc2 freq l0 L Eh. destruct (Lm fc2 freq l0 L Eh) as (A1 & A2 & _). split; [exact A1|exact A2]. }
  destruct (Q fuel0 (le_n _)) as (t & _ & _ & _ & _ & _ & Et & _). eauto.
Qed.
