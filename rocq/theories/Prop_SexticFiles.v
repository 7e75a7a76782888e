(** C118: the quartic and sextic constants in the report, from the texts of the input files. *)
From Coq Require Import Reals Lra List ZArith NArith Arith Lia Bool Ascii String Permutation Sorted.
From Verif Require Import Num Loops ListFacts Index IndexFacts LoadFacts Modes ModesFacts
  StatesFacts Anharm AnharmFacts VibRot VibRotFacts Distort Transform TransformFacts RotFacts NormalFacts ModeFacts ZeroFacts InertiaFacts EckartFacts
  SymAnharm Polyads Report ReportFacts OutputFacts Geom GeomFacts FermiFacts FermiWitness PerturbFacts PerturbSum PerturbLevels VibPerturb SymE0
  Finish FinishFacts RunFacts RunSecond RunFermi RunRot OutText OutFacts OutTables OutRun Text TextFacts SpacingFacts DummyFacts
  Program ProgramFacts BlankFacts ProgramRun FrameFacts FrameWitness RotFiles TriangleWitness SexticFacts FormFacts TensorFacts ReductionFacts SexticFiles.
Import ListNotations.
Open Scope list_scope.
Open Scope nat_scope.
Open Scope R_scope.

(** C118: the report names constants [q] and [sx] on the lines of the quartic and sextic constants.
    Take the moments of inertia [J] of the geometry in the file, their derivatives [a] along the
    modes, and the modes, Coriolis constants and cubic constants of the force constants in the
    files.  The classical energy of rotation is then that of a rigid body, plus [quartic_form],
    plus [sextic_form] (C82).  A canonical transformation generated by [S] takes the terms odd in
    two components out of the quartic part.  Further ones (C83) take what is left to Watson's
    Hamiltonians with exactly the printed constants, except for the remainder in the sextics of
    the S form. *)
Theorem distortion_from_files : forall (I : Type) (sy : symm R I) s mu eig2 eig eprint (name : I -> text) (G : Trig R) (T : FText R),
  prints eprint (irrep_text sy) name ->
forall infile t15 t30 t40 (s0 : spectro R) (l : loaded R) (d2 d3 d4 : list R),
  read infile = Some s0 -> load_input sy infile = Some l ->
  numbers t15 = Some d2 -> load_vec t30 = Some d3 -> load_vec t40 = Some d4 ->
  symm_ok sy s mu (atoms s0) ->
  let N := List.length (atoms s0) in
  let mass q := nth q (masses sy (atoms s0)) 0 in
  let n := (3 * N - 6)%nat in
  let geom := place_of (atoms (l_input l)) in
  let J x := inertia N mass geom x x in
  let B x := ROTCONST / J x in
  (2 < N)%nat -> l_rotor l = AsymmTop -> (2 < nth 7 (header s0) 4)%Z ->
  (forall q, (q < N)%nat -> 0 < mass q) ->
  Forall plain (molecule_lines sy (atoms (l_input l))) ->
  List.length d2 = (3 * N * (3 * N))%nat -> symmetric_list (3 * N) d2 ->
  List.length d3 = (3 * N * (3 * N + 1) * (3 * N + 2) / 6)%nat ->
  List.length d4 = (3 * N * (3 * N + 1) * (3 * N + 2) * (3 * N + 3) / 24)%nat ->
  (forall fc2, lists2 (3 * N) d2 fc2 -> solves (3 * N) eig (secular N (l_axes l) fc2 mass)) ->
  (forall fc2, lists2 (3 * N) d2 fc2 ->
     translation_free N fc2 /\ rotation_free N fc2 (fun q x => comp (place_of (atoms s0) q) x)) ->
  (forall x, (x < 3)%nat -> 1 / 100 < J x) ->
  B 1%nat <> B 2%nat -> B 2%nat <> B 0%nat -> 2 * B 0%nat <> B 1%nat + B 2%nat ->
  exists fc2 f3x fuel0 freq lx a,
    lists2 (3 * N) d2 fc2 /\ lists3 (3 * N) d3 f3x /\
    let w := fun i => nth i freq 0 in
    let hess := fun a b => FACT2 * con2 (3 * N) (every_atom (l_axes l)) fc2 a b in
    let F3 := cubic_spec (3 * N) (con3 (3 * N) (every_atom (l_axes l)) f3x) lx w in
    let zeta := zeta_of N (fun a i => sqrt (mass (a / 3)%nat) * lx a i) in
    let tau := tau_of n w J a in
    (forall i j, (i < 3 * N)%nat -> (j < 3 * N)%nat ->
       Sum (3 * N) (fun a => mass (a / 3)%nat * lx a i * lx a j) = (if Nat.eqb i j then 1 else 0)) /\
    (forall i j, (i < 3 * N)%nat -> (j < 3 * N)%nat -> i <> j -> con2 (3 * N) lx hess i j = 0) /\
    (forall i, (i < 3 * N)%nat -> nth_error freq i = Some (to_wavenumber (con2 (3 * N) lx hess i i))) /\
    StronglySorted Rge freq /\
    inertia_slope N n mass geom lx a /\
    ((forall i, (i < n)%nat -> 0 < w i) ->
     (forall a b, (a < 3)%nat -> (b < 3)%nat -> a <> b -> / 200 < Rabs (B a - B b) \/ odd_free tau a b) ->
     forall fuel, (fuel0 <= fuel)%nat ->
     exists t q sx S O k400 k220 k040 k202 k022 k004,
     program sy eig2 eig fuel eprint false infile t15 t30 t40 = Some t /\
     (forall c v, In (c, v) (labelled eprint q sx) ->
        exists line, filter (starts (c ++ [colon])) (lines t) = [line] /\
          words (skipn (List.length c + 1) line) = [v]) /\
     (forall x y z, quartic_form tau x y z - even (quartic_form tau) x y z = ev O x y z) /\
     (forall x y z, bracket S (rigid B) x y z = - ev O x y z) /\
     let H2 := rigid3 (B 1%nat) (B 2%nat) (B 0%nat) in
     let H4 x y z := even (quartic_form tau) z x y in
     let H6 x y z := even (fun x y z => sextic_form n B w tau (shift_of w J a) zeta F3 x y z
                                        + / 2 * bracket S O x y z) z x y in
     (forall x y z, H4 x y z = cyl4 k400 k220 k040 k202 k022 k004 x y z) /\
     (exists S3 S5 P4 Q4 : poly, forall x y z,
        ev P4 x y z = H4 x y z /\ ev Q4 x y z = A4 q x y z /\
        bracket S3 H2 x y z = A4 q x y z - H4 x y z /\
        bracket S5 H2 x y z + / 2 * bracket S3 (P4 ++ Q4) x y z = A6 sx x y z - H6 x y z) /\
     (exists S3 S5 P4 Q4 : poly, forall x y z,
        ev P4 x y z = H4 x y z /\ ev Q4 x y z = S4 q x y z /\
        bracket S3 H2 x y z = S4 q x y z - H4 x y z /\
        bracket S5 H2 x y z + / 2 * bracket S3 (P4 ++ Q4) x y z = S6 sx x y z - H6 x y z
          - (/ (B 0%nat - (B 1%nat + B 2%nat) / 2 + 10 * k004) - / (B 0%nat - (B 1%nat + B 2%nat) / 2))
            * late ((2 * B 0%nat - B 1%nat - B 2%nat) / (B 1%nat - B 2%nat)) k220 k040 k202 k022 k004 x y z)).
Proof. exact (@distortion_from_files_lemma). Qed.
(** the bent molecule of C117, whose constants are far enough apart *)
Example distortion_from_files_ex :
  (exists s0 l,
    read (H := Rtext) tri_in = Some s0 /\ load_input (H1 := Rtext) tri_symm tri_in = Some l /\
    symm_ok tri_symm (1 / 2) (fun _ _ => 1) (atoms s0) /\ atoms s0 = tri_atoms /\ l_axes l = qturn /\
    let mass q := nth q (masses tri_symm (atoms s0)) 0 in
    let J x := inertia 3 mass (place_of (atoms (l_input l))) x x in
    List.length (atoms s0) = 3%nat /\ (forall q, (q < 3)%nat -> mass q = 1) /\
    l_rotor l = AsymmTop /\ (2 < nth 7 (header s0) 4)%Z /\
    Forall plain (molecule_lines tri_symm (atoms (l_input l))) /\
    J 0%nat = 18 /\ J 1%nat = 24 /\ J 2%nat = 42 /\
    (forall fc2, lists2 9 (map IZR tri_z2) fc2 -> solves (3 * 3) tri_eig (secular 3 (l_axes l) fc2 mass)) /\
    (forall fc2, lists2 9 (map IZR tri_z2) fc2 ->
       translation_free 3 fc2 /\ rotation_free 3 fc2 (fun q x => comp (place_of (atoms s0) q) x))) /\
  (let B x := ROTCONST / x in B 24 <> B 42 /\ B 42 <> B 18 /\ 2 * B 18 <> B 24 + B 42 /\
     forall x y, In x [18; 24; 42] -> In y [18; 24; 42] -> x <> y -> / 200 < Rabs (B x - B y)) /\
  exists fuel t, program (H1 := Rtext) tri_symm eig_solve tri_eig fuel sample_er false
    tri_in (listing tri_z2) (listing sample_z3) (listing sample_z4) = Some t.
Proof. split; [exact tri_meets|]. split; [exact tri_apart|exact tri_program]. Qed.
Print Assumptions distortion_from_files.
