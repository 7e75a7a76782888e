(** Property C130: diatomic molecules, from the texts of the files to the report. *)
From Coq Require Import Reals Lra List ZArith NArith Arith Lia Bool Ascii String.
From Verif Require Import Num Loops Index Modes ResFacts Anharm VibRot Distort Transform TransformFacts ModeFacts InertiaFacts
  Geom GeomFacts Finish Report OutText OutFacts OutTables OutRun Text TextFacts Program ProgramFacts ProgramRun FrameFacts
  FermiWitness DunhamFacts DiatomicRun DiatomicFiles BondWitness.
Import ListNotations.
Open Scope list_scope.
Open Scope nat_scope.
Local Open Scope R_scope.

(** C130.  The input lists two atoms, in any place and any direction in space; the force constants of the three
    files are the derivatives of an energy that depends on the length of the bond alone (0, p2, p3, p4), in the axes of
    the input.  The program runs, and the report has the harmonic frequency, the fundamental with and without the
    resonance treatment, the zero point energy, B, B_0, B_1, De and He of Dunham's theory for this potential, the
    masses and the distance r of the input, and lists no resonance.  The numbers are printed with the digits of the
    tables; where two columns could run into each other the premise [narrow] says that they do not.  [k1] to [k5]
    are the factors of C128. *)
Theorem diatomic_from_files :
  exists k1 k2 k3 k4 k5,
  1000236 / 1000000 < k1 < 1000237 / 1000000 /\ 1 - / 1000000000000000 < k2 < 1 /\
  10000159 / 10000000 < k3 < 1000016 / 1000000 /\
  1 - / 1000000000000000 < k4 < 1 + / 1000000000000000 /\
  1 - / 1000000000000000 < k5 < 1 + / 1000000000000000 /\
  forall (I : Type) (T0 : FText R) (sy : symm R I) s mu eig2 eig eprint name infile t15 t30 t40 (s0 : spectro R) (l : loaded R)
    (d2 d3 d4 : list R) p2 p3 p4,
  prints eprint (irrep_text sy) name -> 0 < s ->
  read infile = Some s0 -> load_input sy infile = Some l ->
  numbers t15 = Some d2 -> load_vec t30 = Some d3 -> load_vec t40 = Some d4 ->
  symm_ok sy s mu (atoms s0) ->
  let mass q := nth q (masses sy (atoms s0)) 0 in
  let e c := comp (place_of (atoms s0) 1) c - comp (place_of (atoms s0) 0) c in
  let r := s * len3 e in
  let b := ROTCONST / (reduced mass * r ^ 2) in
  let f := WAVE * sqrt (FACT2 * p2 / reduced mass) in
  let a1 := p3 * (r / A0) / (3 * p2) * k4 in
  let a2 := p4 * (r / A0) ^ 2 / (12 * p2) * k5 in
  let Y20 := 3 / 2 * b * (a2 - 5 / 4 * a1 ^ 2) in
  let Y00 := b / 8 * (3 * a2 - 7 / 4 * a1 ^ 2) in
  let E v := f * (v + / 2) + Y20 * (v + / 2) ^ 2 + Y00 in
  let al := 6 * b ^ 2 / f * (1 + a1 * k3) in
  l_rotor l = Diatomic -> List.length (atoms s0) = 2%nat ->
  (forall pr axes rot ats', normalize sy (to_angstrom sy (atoms s0)) = (pr, axes, rot, ats') -> first_is_x axes) ->
  0 < mass 0%nat -> 0 < mass 1%nat ->
  Forall plain (molecule_lines sy (atoms (l_input l))) ->
  List.length d2 = 36%nat -> symmetric_list 6 d2 -> List.length d3 = 56%nat -> List.length d4 = 126%nat ->
  (forall fc2, lists2 6 d2 fc2 -> solves 6 eig (secular 2 (l_axes l) fc2 mass)) ->
  (forall fc2 f3x f4x, lists2 6 d2 fc2 -> lists3 6 d3 f3x -> lists4 6 d4 f4x -> bond_energy e fc2 f3x f4x p2 p3 p4) ->
  0 < p2 -> / 100 < reduced mass * r ^ 2 ->
  exists fuel0, forall fuel, (fuel0 <= fuel)%nat ->
  exists t i,
    program sy eig2 eig fuel eprint false infile t15 t30 t40 = Some t /\
    (Forall (narrow 1 8) [f; f + 2 * Y20; E 1 - E 0] ->
     exists head row z after,
       block (lines t) (lit "Vibrational Frequencies (cm-1):") [head; row] (z :: after) /\
       words head = map lit ["Mode"; "Symm"; "Harm"; "Fund"; "Corr"]%string /\
       words row = [show 1; name i; fprint 1 f; fprint 1 (f + 2 * Y20); fprint 1 (E 1 - E 0)] /\
       words z = [lit "ZPT"; lit "="; fprint 1 (E 0)]) /\
    (Forall (narrow 12 20) [0; b] ->
     exists head row after,
       block (lines t) (lit "Equilibrium Rotational Constants (cm-1):") [head; row] after /\
       words head = [lit "B"] /\ words row = [fprint 12 b]) /\
    (exists head row0 row1 after,
       block (lines t) (lit "Rotational Constants (cm-1):") [head; row0; row1] after /\
       words head = map lit ["State"; "B"]%string /\
       (narrow 7 12 (b + al / 2) -> words row0 = [show 0; fprint 7 (b + al / 2)]) /\
       (narrow 7 12 (b + al * (3 / 2)) -> words row1 = [show 1; fprint 7 (b + al * (3 / 2))])) /\
    (exists line, filter (starts (lit "De  :")) (lines t) = [line] /\
       words (skipn 5 line) = [fprint 12 (4 * b ^ 3 / f ^ 2 * k1)]) /\
    (exists line, filter (starts (lit "He  :")) (lines t) = [line] /\
       words (skipn 5 line) = [eprint 12%nat (16 * b ^ 5 / f ^ 4 * (3 * k1 ^ 2 + a1 * k2))]) /\
    (exists after1 after2 after3,
       block (lines t) (lit "Coriolis Resonances:") [] after1 /\
       block (lines t) (lit "Type 1 Fermi Resonances:") [] after2 /\
       block (lines t) (lit "Type 2 Fermi Resonances:") [] after3).
Proof. exact diatomic_from_files_full. Qed.

(** masses 9 and 16 along the z axis of the input, 2 units apart, one unit being 1/2 Angstrom; p2 = 1, p3 = -2, p4 = 6 *)
Example diatomic_from_files_ex :
  (exists s0 l,
    read (H := Rtext) bond_in = Some s0 /\ load_input (H1 := Rtext) bond_symm bond_in = Some l /\ atoms s0 = bond_atoms /\
    symm_ok bond_symm (1 / 2) bond_mass (atoms s0) /\ l_rotor l = Diatomic /\ l_axes l = bond_axes /\
    let mass q := nth q (masses bond_symm (atoms s0)) 0 in
    let e c := comp (place_of (atoms s0) 1) c - comp (place_of (atoms s0) 0) c in
    (forall pr axes rot ats', normalize bond_symm (to_angstrom bond_symm (atoms s0)) = (pr, axes, rot, ats') -> first_is_x axes) /\
    mass 0%nat = 9 /\ mass 1%nat = 16 /\ 1 / 2 * len3 e = 1 /\
    Forall plain (molecule_lines bond_symm (atoms (l_input l))) /\
    (forall fc2, lists2 6 (map IZR bond_z2) fc2 -> solves 6 bond_eig (secular 2 (l_axes l) fc2 mass)) /\
    (forall fc2 f3x f4x, lists2 6 (map IZR bond_z2) fc2 -> lists3 6 (map IZR bond_z3) f3x -> lists4 6 (map IZR bond_z4) f4x ->
       bond_energy e fc2 f3x f4x 1 (-2) 6)) /\
  prints (H := Rtext) sample_er (irrep_text bond_symm) sample_name /\
  (numbers (H1 := Rtext) (listing bond_z2) = Some (map IZR bond_z2) /\
   load_vec (H1 := Rtext) (listing bond_z3) = Some (map IZR bond_z3) /\
   load_vec (H1 := Rtext) (listing bond_z4) = Some (map IZR bond_z4)) /\
  symmetric_list 6 (map IZR bond_z2) /\
  exists fuel t, program (H1 := Rtext) bond_symm eig_solve bond_eig fuel sample_er false
    bond_in (listing bond_z2) (listing bond_z3) (listing bond_z4) = Some t.
Proof.
  split; [exact bond_meets|]. split; [exact bond_prints|]. split; [exact bond_numbers|]. split; [exact bond_symmetric|exact bond_program].
Qed.
Print Assumptions diatomic_from_files.
