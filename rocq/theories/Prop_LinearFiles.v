(** Property C131: linear molecules, from the texts of the files to the report. *)
From Coq Require Import Reals Lra List ZArith NArith Arith Lia Bool Ascii String Sorted.
From Verif Require Import Num Loops ListFacts Index IndexFacts LoadFacts Modes ModesFacts ResFacts ResWitness StatesFacts
  Anharm AnharmFacts VibRot VibRotFacts Distort Transform TransformFacts RotFacts NormalFacts HarmFacts ModeFacts EckartFacts InertiaFacts
  SymAnharm Polyads Report ReportFacts OutputFacts Geom GeomFacts IrrepFacts Finish FinishFacts RunFacts RunSecond OutText OutFacts OutTables OutRun
  PerturbFacts PerturbSum PerturbLevels VibPerturb SymE0 SymPerturb SymLevels RunRot AlignExact
  Text TextFacts SpacingFacts Program ProgramFacts ProgramRun FrameFacts ZeroFacts RotFiles
  Threefold ThreeForm ThreeModes ThreeConst LinearModes LinearRun LinearConst SameRun FermiWitness LinearFiles RodWitness.
Import ListNotations.
Open Scope list_scope.
Open Scope nat_scope.
Local Open Scope R_scope.

(** C131.  The input lists a linear molecule of three or more atoms, in any place and any direction in space; the force
    constants of the three files, turned to the frame of the molecule, are unchanged by turning the molecule about its
    axis and by a mirror through the axis.  The program runs.  The report lists the modes of frequencies met once,
    then one mode of each pair of equal frequencies.  B is the constant of the moment of inertia of the atoms; the
    fundamentals are the differences of the perturbed levels of normal modes of the molecule, the zero point energy is
    the perturbed ground level (with [se_ddn], which is not part of it, when there is more than one pair: C72).  The
    condition on the Fermi resonances is met when the sum of two frequencies is never within 200 of a frequency. *)
Theorem linear_from_files :
  forall (I : Type) (T0 : FText R) (sy : symm R I) s mu eig2 eig eprint name infile t15 t30 t40 (s0 : spectro R) (l : loaded R)
    (d2 d3 d4 : list R),
  prints eprint (irrep_text sy) name ->
  read infile = Some s0 -> load_input sy infile = Some l ->
  numbers t15 = Some d2 -> load_vec t30 = Some d3 -> load_vec t40 = Some d4 ->
  symm_ok sy s mu (atoms s0) ->
  let N := List.length (atoms s0) in
  let mass q := nth q (masses sy (atoms s0)) 0 in
  let n := (3 * N - 5)%nat in
  let geom := place_of (atoms (l_input l)) in
  let J := Sum N (fun q => mass q * comp (geom q) 2 ^ 2) in
  let b := ROTCONST / J in
  l_rotor l = Linear -> (2 < N)%nat -> (forall q, (q < N)%nat -> 0 < mass q) -> / 100 < J ->
  Forall plain (molecule_lines sy (atoms (l_input l))) ->
  List.length d2 = (3 * N * (3 * N))%nat -> symmetric_list (3 * N) d2 ->
  List.length d3 = (3 * N * (3 * N + 1) * (3 * N + 2) / 6)%nat ->
  List.length d4 = (3 * N * (3 * N + 1) * (3 * N + 2) * (3 * N + 3) / 24)%nat ->
  (forall fc2, lists2 (3 * N) d2 fc2 -> solves (3 * N) eig (secular N (l_axes l) fc2 mass)) ->
  (forall fc2 f3x f4x, lists2 (3 * N) d2 fc2 -> lists3 (3 * N) d3 f3x -> lists4 (3 * N) d4 f4x ->
     axially_symmetric N (con2 (3 * N) (every_atom (l_axes l)) fc2) (con3 (3 * N) (every_atom (l_axes l)) f3x)
       (con4 (3 * N) (every_atom (l_axes l)) f4x)) ->
  (forall fc2 freq l0, lists2 (3 * N) d2 fc2 -> harmonic N (l_axes l) fc2 mass eig = Some (freq, l0) ->
     linear_modes N n 0 (fun i => nth i freq 0) l0 /\
     forall i j k, (i < n)%nat -> (j < n)%nat -> (k < n)%nat -> nth i freq 0 + nth j freq 0 <> nth k freq 0) ->
  exists fc2 f3x f4x freq l0 fuel0 lx,
    lists2 (3 * N) d2 fc2 /\ lists3 (3 * N) d3 f3x /\ lists4 (3 * N) d4 f4x /\
    harmonic N (l_axes l) fc2 mass eig = Some (freq, l0) /\
    let w := fun i => nth i freq 0 in
    let hess := fun a b => FACT2 * con2 (3 * N) (every_atom (l_axes l)) fc2 a b in
    let F3 := cubic_spec (3 * N) (con3 (3 * N) (every_atom (l_axes l)) f3x) lx w in
    let F4 := quartic_spec (3 * N) (con4 (3 * N) (every_atom (l_axes l)) f4x) lx w in
    let zeta := zeta_of N (fun a i => sqrt (mass (a / 3)%nat) * lx a i) in
    let B x := match x with 0%nat | 1%nat => b | _ => 0 end in
    let E v us := perturbed n w F3 F4 zeta B none v us + angular_shift n zeta B in
    (forall i j, (i < 3 * N)%nat -> (j < 3 * N)%nat ->
       Sum (3 * N) (fun a => mass (a / 3)%nat * lx a i * lx a j) = (if Nat.eqb i j then 1 else 0)) /\
    (forall i j, (i < 3 * N)%nat -> (j < 3 * N)%nat -> i <> j -> con2 (3 * N) lx hess i j = 0) /\
    (forall i, (i < 3 * N)%nat -> nth_error freq i = Some (to_wavenumber (con2 (3 * N) lx hess i i))) /\
    StronglySorted Rge freq /\
    forall fuel, (fuel0 <= fuel)%nat ->
    exists t single pairs cor fermi1 fermi2,
      program sy eig2 eig fuel eprint false infile t15 t30 t40 = Some t /\
      (forall i, In i single <-> (i < n)%nat /\ forall j, (j < n)%nat -> j <> i -> w j <> w i) /\
      (forall i j, In (i, j) pairs <-> (i < j < n)%nat /\ w i = w j) /\
      (Forall (narrow 12 20) [0; b] ->
       exists head row after,
         block (lines t) (lit "Equilibrium Rotational Constants (cm-1):") [head; row] after /\
         words head = [lit "B"] /\ words row = [fprint 12 b]) /\
      (Forall (fun '(i, j, x) => short i /\ short j) cor -> Forall (fun '(i, j) => short i /\ short j) fermi1 ->
       Forall (fun '(i, j, k) => short i /\ short j /\ short k) fermi2 ->
       exists cs f1 f2 after1 after2 after3,
         block (lines t) (lit "Coriolis Resonances:") cs after1 /\
         map words cs = map (fun '(i, j, x) => [show i; show j; nth x (map lit ["A"; "B"; "C"]%string) []]) cor /\
         block (lines t) (lit "Type 1 Fermi Resonances:") f1 after2 /\
         map words f1 = map (fun '(i, j) => [show i; show j]) fermi1 /\
         block (lines t) (lit "Type 2 Fermi Resonances:") f2 after3 /\
         map words f2 = map (fun '(i, j, k) => [show i; show j; show k]) fermi2) /\
      ((forall i j k, (i < n)%nat -> (j < n)%nat -> (k < n)%nat -> 200 < Rabs (w i + w j - w k)) -> fermi1 = [] /\ fermi2 = []) /\
      (fermi1 = [] -> fermi2 = [] ->
       let listed := single ++ map fst pairs in
       forall us0 us, intermediate n F3 ground us0 -> (forall k, In k listed -> intermediate n F3 (one k) (us k)) ->
       let fund k := E (one k) (us k) - E ground us0 in
       Forall (fun k => narrow 1 8 (w k) /\ narrow 1 8 (fund k)) listed ->
       exists head rows z after,
         block (lines t) (lit "Vibrational Frequencies (cm-1):") (head :: rows) (z :: after) /\
         words head = map lit ["Mode"; "Symm"; "Harm"; "Fund"; "Corr"]%string /\
         words z = [lit "ZPT"; lit "="; fprint 1 (E ground us0
           + Rsum (map fst pairs) (se_ddn w F3 none single (map fst pairs)))] /\
         (List.length pairs = 1%nat -> words z = [lit "ZPT"; lit "="; fprint 1 (E ground us0)]) /\
         List.length rows = List.length listed /\
         forall p row, nth_error rows p = Some row -> exists k i, nth_error listed p = Some k /\
           words row = [show (p + 1); name i; fprint 1 (w k); fprint 1 (fund k); fprint 1 (fund k)]).
Proof. exact @linear_from_files_lemma. Qed.

(** the force constants of the file of second derivatives cost nothing when the molecule is moved or turned, and
    different frequencies are more than 200 apart: the table of the rotational constants *)
Theorem linear_rotation_from_files :
  forall (I : Type) (T0 : FText R) (sy : symm R I) s mu eig2 eig eprint name infile t15 t30 t40 (s0 : spectro R) (l : loaded R)
    (d2 d3 d4 : list R),
  prints eprint (irrep_text sy) name ->
  read infile = Some s0 -> load_input sy infile = Some l ->
  numbers t15 = Some d2 -> load_vec t30 = Some d3 -> load_vec t40 = Some d4 ->
  symm_ok sy s mu (atoms s0) ->
  let N := List.length (atoms s0) in
  let mass q := nth q (masses sy (atoms s0)) 0 in
  let n := (3 * N - 5)%nat in
  let geom := place_of (atoms (l_input l)) in
  let J := Sum N (fun q => mass q * comp (geom q) 2 ^ 2) in
  let b := ROTCONST / J in
  l_rotor l = Linear -> (2 < N)%nat -> (forall q, (q < N)%nat -> 0 < mass q) -> / 100 < J ->
  Forall plain (molecule_lines sy (atoms (l_input l))) ->
  List.length d2 = (3 * N * (3 * N))%nat -> symmetric_list (3 * N) d2 ->
  List.length d3 = (3 * N * (3 * N + 1) * (3 * N + 2) / 6)%nat ->
  List.length d4 = (3 * N * (3 * N + 1) * (3 * N + 2) * (3 * N + 3) / 24)%nat ->
  (forall fc2, lists2 (3 * N) d2 fc2 -> solves (3 * N) eig (secular N (l_axes l) fc2 mass)) ->
  (forall fc2 f3x f4x, lists2 (3 * N) d2 fc2 -> lists3 (3 * N) d3 f3x -> lists4 (3 * N) d4 f4x ->
     axially_symmetric N (con2 (3 * N) (every_atom (l_axes l)) fc2) (con3 (3 * N) (every_atom (l_axes l)) f3x)
       (con4 (3 * N) (every_atom (l_axes l)) f4x)) ->
  (forall fc2 freq l0, lists2 (3 * N) d2 fc2 -> harmonic N (l_axes l) fc2 mass eig = Some (freq, l0) ->
     linear_modes N n 0 (fun i => nth i freq 0) l0 /\
     forall i j k, (i < n)%nat -> (j < n)%nat -> (k < n)%nat -> nth i freq 0 + nth j freq 0 <> nth k freq 0) ->
  (forall fc2, lists2 (3 * N) d2 fc2 ->
     translation_free N fc2 /\ rotation_free N fc2 (fun q x => comp (place_of (atoms s0) q) x)) ->
  forall lam, 2 * ROTCONST * lam ^ 2 = 1 ->
  exists fc2 f3x f4x freq l0 fuel0 lx a,
    lists2 (3 * N) d2 fc2 /\ lists3 (3 * N) d3 f3x /\ lists4 (3 * N) d4 f4x /\
    harmonic N (l_axes l) fc2 mass eig = Some (freq, l0) /\
    let w := fun i => nth i freq 0 in
    let hess := fun a b => FACT2 * con2 (3 * N) (every_atom (l_axes l)) fc2 a b in
    let F3 := cubic_spec (3 * N) (con3 (3 * N) (every_atom (l_axes l)) f3x) lx w in
    let zeta := zeta_of N (fun a i => sqrt (mass (a / 3)%nat) * lx a i) in
    let moment x := match x with 0%nat | 1%nat => J | _ => 0 end in
    let B x := match x with 0%nat | 1%nat => b | _ => 0 end in
    (forall i j, (i < 3 * N)%nat -> (j < 3 * N)%nat ->
       Sum (3 * N) (fun a => mass (a / 3)%nat * lx a i * lx a j) = (if Nat.eqb i j then 1 else 0)) /\
    (forall i j, (i < 3 * N)%nat -> (j < 3 * N)%nat -> i <> j -> con2 (3 * N) lx hess i j = 0) /\
    (forall i, (i < 3 * N)%nat -> nth_error freq i = Some (to_wavenumber (con2 (3 * N) lx hess i i))) /\
    StronglySorted Rge freq /\
    inertia_slope N n mass geom lx a /\
    ((forall i j, (i < n)%nat -> (j < n)%nat -> w i = w j \/ 200 < Rabs (w i - w j)) ->
    forall fuel, (fuel0 <= fuel)%nat ->
    exists t single pairs head rows after,
      program sy eig2 eig fuel eprint false infile t15 t30 t40 = Some t /\
      (forall i, In i single <-> (i < n)%nat /\ forall j, (j < n)%nat -> j <> i -> w j <> w i) /\
      (forall i j, In (i, j) pairs <-> (i < j < n)%nat /\ w i = w j) /\
      block (lines t) (lit "Rotational Constants (cm-1):") (head :: rows) after /\
      words head = map lit ["State"; "B"]%string /\
      List.length rows = (1 + List.length single + List.length pairs)%nat /\
      forall rep, (forall i j, rep i j = true <-> (i < n)%nat /\ (j < n)%nat /\ i <> j /\ w i = w j) ->
      let states := I1st (repeat 0%nat n) :: map (fun p => I1st (unit1 n p 1)) (seq 0 (List.length single))
        ++ map (fun p => I2st (punit1 n p (1, 1)%nat)) (seq 0 (List.length pairs)) in
      let value v x := VibPerturb.rot_const n w F3 zeta a moment ROTCONST lam rep x v + rounding_term n B w a F3 lam x v in
      let const p := let v := excited (single ++ map fst pairs) p in / 2 * (value v 0%nat + value v 1%nat) in
      forall p row, nth_error rows p = Some row -> narrow 7 12 (const p) ->
        exists st, nth_error states p = Some st /\ words row = state_words st ++ [fprint 7 (const p)]).
Proof. exact @linear_rotation_lemma. Qed.

(** masses 1, 4 and 4 at 4, 1 and -2 along the z axis of the input, one unit being 1/2 Angstrom; four modes, two of them
    a pair; J = 9 *)
Example linear_from_files_ex :
  (exists s0 l,
    read (H := Rtext) rod_in = Some s0 /\ load_input (H1 := Rtext) rod_symm rod_in = Some l /\ List.length (atoms s0) = 3%nat /\
    symm_ok rod_symm (1 / 2) rod_mass (atoms s0) /\ l_rotor l = Linear /\
    let mass q := nth q (masses rod_symm (atoms s0)) 0 in
    (forall q, (q < 3)%nat -> 0 < mass q) /\
    Sum 3 (fun q => mass q * comp (place_of (atoms (l_input l)) q) 2 ^ 2) = 9 /\
    Forall plain (molecule_lines rod_symm (atoms (l_input l))) /\
    (forall fc2, lists2 9 (map IZR rod_z2) fc2 -> solves 9 rod_eig (secular 3 (l_axes l) fc2 mass)) /\
    (forall fc2 f3x f4x, lists2 9 (map IZR rod_z2) fc2 -> lists3 9 (map IZR rod_z3) f3x -> lists4 9 (map IZR rod_z4) f4x ->
       axially_symmetric 3 (con2 9 (every_atom (l_axes l)) fc2) (con3 9 (every_atom (l_axes l)) f3x) (con4 9 (every_atom (l_axes l)) f4x)) /\
    (forall fc2 freq l0, lists2 9 (map IZR rod_z2) fc2 -> harmonic 3 (l_axes l) fc2 mass rod_eig = Some (freq, l0) ->
       linear_modes 3 4 0 (fun i => nth i freq 0) l0 /\
       (forall i j k, (i < 4)%nat -> (j < 4)%nat -> (k < 4)%nat -> nth i freq 0 + nth j freq 0 <> nth k freq 0) /\
       (forall i j k, (i < 4)%nat -> (j < 4)%nat -> (k < 4)%nat -> 200 < Rabs (nth i freq 0 + nth j freq 0 - nth k freq 0)) /\
       (forall i j, (i < 4)%nat -> (j < 4)%nat -> nth i freq 0 = nth j freq 0 \/ 200 < Rabs (nth i freq 0 - nth j freq 0))) /\
    (forall fc2, lists2 9 (map IZR rod_z2) fc2 ->
       translation_free 3 fc2 /\ rotation_free 3 fc2 (fun q x => comp (place_of (atoms s0) q) x))) /\
  prints (H := Rtext) sample_er (irrep_text rod_symm) sample_name /\
  (numbers (H1 := Rtext) (listing rod_z2) = Some (map IZR rod_z2) /\
   load_vec (H1 := Rtext) (listing rod_z3) = Some (map IZR rod_z3) /\
   load_vec (H1 := Rtext) (listing rod_z4) = Some (map IZR rod_z4)) /\
  (List.length (map IZR rod_z2) = 81%nat /\ List.length (map IZR rod_z3) = 165%nat /\ List.length (map IZR rod_z4) = 495%nat) /\
  symmetric_list 9 (map IZR rod_z2) /\
  2 * ROTCONST * sqrt (/ (2 * ROTCONST)) ^ 2 = 1 /\
  exists fuel t, program (H1 := Rtext) rod_symm eig_solve rod_eig fuel sample_er false
    rod_in (listing rod_z2) (listing rod_z3) (listing rod_z4) = Some t.
Proof.
  split; [exact rod_meets|]. split; [exact rod_prints|]. split; [exact rod_numbers|]. split; [exact rod_sizes|].
  split; [exact rod_symmetric|]. split; [exact rod_lam|exact rod_program].
Qed.
Print Assumptions linear_from_files.
Print Assumptions linear_rotation_from_files.
