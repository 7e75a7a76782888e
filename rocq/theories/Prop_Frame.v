(** C116, C117: the frame of the loaded geometry, and the rotational constants in the report. *)
From Coq Require Import Reals Lra List ZArith NArith Arith Lia Bool Ascii String Permutation Sorted.
From Verif Require Import Num Loops ListFacts Index IndexFacts LoadFacts Modes ModesFacts
  StatesFacts Anharm AnharmFacts VibRot VibRotFacts Distort Transform TransformFacts RotFacts NormalFacts ModeFacts ZeroFacts InertiaFacts EckartFacts
  SymAnharm Polyads Report ReportFacts OutputFacts Geom GeomFacts FermiFacts FermiWitness PerturbFacts PerturbSum PerturbLevels VibPerturb SymE0
  Finish FinishFacts RunFacts RunSecond RunFermi RunRot OutText OutFacts OutTables OutRun Text TextFacts SpacingFacts DummyFacts
  Program ProgramFacts BlankFacts ProgramRun FrameFacts FrameWitness RotFiles TriangleWitness.
Import ListNotations.
Open Scope list_scope.
Open Scope nat_scope.
Open Scope R_scope.

(** C116: the loaded geometry is that of the file, scaled to Angstrom, with its centre of mass at
    the origin, and seen in the frame into which the force constants are turned.  In that frame
    the inertia tensor is diagonal, with the moments that are reported, unless the molecule is a
    symmetric top whose first two moments are not equal (the turn about z would mix them).  For
    diatomic molecules the frame is right under a condition; see C129. *)
Theorem load_frame : forall (I : Type) (sy : symm R I) s mu (T : FText R) infile (l : loaded R),
  load_input sy infile = Some l ->
  exists s0, read infile = Some s0 /\ header (l_input l) = header s0 /\
  (symm_ok sy s mu (atoms s0) -> total sy (atoms s0) <> 0 ->
   let ats := atoms (l_input l) in
   let N := List.length ats in
   let mass q := nth q (masses sy ats) 0 in
   orth 3 (l_axes l) /\ masses sy ats = masses sy (atoms s0) /\
   ((l_rotor l = Diatomic -> forall pr axes r ats', normalize sy (to_angstrom sy (atoms s0)) = (pr, axes, r, ats') -> first_is_x axes) ->
    exists c, ats = map (fun a => atom_at a (in_frame (l_axes l) (vsub (vscale s (where_ a)) c))) (atoms s0)) /\
   (forall x, (x < 3)%nat -> Sum N (fun q => mass q * comp (place_of ats q) x) = 0) /\
   (comp (l_primat l) 0 = comp (l_primat l) 1 \/ is_sym_top (l_rotor l) = Some false \/ is_linear (l_rotor l) = true ->
    forall x y, (x < 3)%nat -> (y < 3)%nat -> inertia N mass (place_of ats) x y = kron x y * comp (l_primat l) x)).
Proof. exact (@load_frame_lemma). Qed.
Example load_frame_ex : exists s0 l,
  load_input (H1 := Rtext) square_symm square_in = Some l /\ read (H := Rtext) square_in = Some s0 /\
  symm_ok square_symm (1 / 2) (fun _ _ => 1) (atoms s0) /\ total square_symm (atoms s0) <> 0 /\
  comp (l_primat l) 0 = comp (l_primat l) 1 /\ l_axes l 0%nat 0%nat = 0 /\ l_axes l 1%nat 0%nat = 1.
Proof.
  destruct square_read as (s0 & E & Ha & _). destruct square_loaded as (l & El & H). exists s0, l. rewrite Ha.
  split; [exact El|]. split; [exact E|]. split; [exact square_ok|]. split; [exact square_total|]. exact H.
Qed.
Print Assumptions load_frame.

(** C117: for an asymmetric top whose energy does not change when it is moved or turned, the
    printed quartic constants are those of Watson's two reductions for the centrifugal tensor of
    the files, and the rows of the table of rotational constants are the equilibrium constants
    of the A reduction plus the second-order vibrational correction of each state, with the
    Coriolis resonances that the report lists left out (and the rounding of one constant). *)
Theorem rotation_from_files : forall (I : Type) (sy : symm R I) s mu eig2 eig eprint (name : I -> text) (G : Trig R) (T : FText R),
  prints eprint (irrep_text sy) name ->
  forall infile t15 t30 t40 (s0 : spectro R) (l : loaded R) (d2 d3 d4 : list R) lam,
  read infile = Some s0 -> load_input sy infile = Some l ->
  numbers t15 = Some d2 -> load_vec t30 = Some d3 -> load_vec t40 = Some d4 ->
  symm_ok sy s mu (atoms s0) ->
  let N := List.length (atoms s0) in
  let mass q := nth q (masses sy (atoms s0)) 0 in
  let n := (3 * N - 6)%nat in
  let geom := place_of (atoms (l_input l)) in
  let J x := inertia N mass geom x x in
  let B x := ROTCONST / J x in
  (2 < N)%nat -> l_rotor l = AsymmTop -> (2 < nth 7 (header s0) 4)%Z ->
  (forall q, (q < N)%nat -> 0 < mass q) ->
  Forall plain (molecule_lines sy (atoms (l_input l))) ->
  List.length d2 = (3 * N * (3 * N))%nat -> symmetric_list (3 * N) d2 ->
  List.length d3 = (3 * N * (3 * N + 1) * (3 * N + 2) / 6)%nat ->
  List.length d4 = (3 * N * (3 * N + 1) * (3 * N + 2) * (3 * N + 3) / 24)%nat ->
  (forall fc2, lists2 (3 * N) d2 fc2 -> solves (3 * N) eig (secular N (l_axes l) fc2 mass)) ->
  (forall fc2, lists2 (3 * N) d2 fc2 ->
     translation_free N fc2 /\ rotation_free N fc2 (fun q x => comp (place_of (atoms s0) q) x)) ->
  (forall x, (x < 3)%nat -> 1 / 100 < J x) -> B 1%nat <> B 2%nat -> 2 * B 0%nat <> B 1%nat + B 2%nat ->
  2 * ROTCONST * lam ^ 2 = 1 ->
  exists fc2 f3x f4x fuel0 freq lx a,
    lists2 (3 * N) d2 fc2 /\ lists3 (3 * N) d3 f3x /\ lists4 (3 * N) d4 f4x /\
    let w := fun i => nth i freq 0 in
    let hess := fun a b => FACT2 * con2 (3 * N) (every_atom (l_axes l)) fc2 a b in
    let F3 := cubic_spec (3 * N) (con3 (3 * N) (every_atom (l_axes l)) f3x) lx w in
    let zeta := zeta_of N (fun a i => sqrt (mass (a / 3)%nat) * lx a i) in
    (forall i j, (i < 3 * N)%nat -> (j < 3 * N)%nat ->
       Sum (3 * N) (fun a => mass (a / 3)%nat * lx a i * lx a j) = (if Nat.eqb i j then 1 else 0)) /\
    (forall i j, (i < 3 * N)%nat -> (j < 3 * N)%nat -> i <> j -> con2 (3 * N) lx hess i j = 0) /\
    (forall i, (i < 3 * N)%nat -> nth_error freq i = Some (to_wavenumber (con2 (3 * N) lx hess i i))) /\
    StronglySorted Rge freq /\
    inertia_slope N n mass geom lx a /\
    ((forall i, (i < n)%nat -> 0 < w i) ->
     forall fuel, (fuel0 <= fuel)%nat ->
     exists t cor head rows after,
     program sy eig2 eig fuel eprint false infile t15 t30 t40 = Some t /\
     ((N.of_nat (3 * N) <= 9999)%N -> exists cs after,
        block (lines t) (lit "Coriolis Resonances:") cs after /\
        map words cs = map (fun '(i, j, x) => [show i; show j; nth x (map lit ["A"; "B"; "C"]%string) []]) cor) /\
     (forall c v, In (c, v) (quartic_values B (centrifugal n w J a)) ->
        exists line, filter (starts (lit c ++ [colon])) (lines t) = [line] /\
          words (skipn (List.length (lit c) + 1) line) = [fprint 12 v]) /\
     block (lines t) (lit "Rotational Constants (cm-1):") (head :: rows) after /\
     words head = map lit ["State"; "A"; "B"; "C"]%string /\
     List.length rows = (n + 1)%nat /\
     forall rep, (forall i j, (i < n)%nat -> (j < n)%nat -> one_axis cor i j) ->
       (forall x i j, rep x i j = true <-> VibRotFacts.listed cor i j x) ->
       (forall x i j, (x < 3)%nat -> (i < n)%nat -> (j < n)%nat -> i <> j -> rep x i j = false -> w i <> w j) ->
       let const k x := reduced_B B (centrifugal n w J a) x
         + (VibPerturb.rot_const n w F3 zeta a J ROTCONST lam (rep x) x (reported_state k) - B x)
         + rounding_term n B w a F3 lam x (reported_state k) in
       forall k line, nth_error rows k = Some line ->
       Forall (narrow 7 12) [const k 0%nat; const k 1%nat; const k 2%nat] ->
       words line = map (fun i => show (reported_state k i)) (seq 0 n)
         ++ map (fprint 7) [const k 0%nat; const k 1%nat; const k 2%nat]).
Proof. exact (@rotation_from_files_lemma). Qed.
Example rotation_from_files_ex :
  (exists s0 l,
    read (H := Rtext) tri_in = Some s0 /\ load_input (H1 := Rtext) tri_symm tri_in = Some l /\
    symm_ok tri_symm (1 / 2) (fun _ _ => 1) (atoms s0) /\ atoms s0 = tri_atoms /\ l_axes l = qturn /\
    let mass q := nth q (masses tri_symm (atoms s0)) 0 in
    let J x := inertia 3 mass (place_of (atoms (l_input l))) x x in
    List.length (atoms s0) = 3%nat /\ (forall q, (q < 3)%nat -> mass q = 1) /\
    l_rotor l = AsymmTop /\ (2 < nth 7 (header s0) 4)%Z /\
    Forall plain (molecule_lines tri_symm (atoms (l_input l))) /\
    J 0%nat = 18 /\ J 1%nat = 24 /\ J 2%nat = 42 /\
    (forall fc2, lists2 9 (map IZR tri_z2) fc2 -> solves (3 * 3) tri_eig (secular 3 (l_axes l) fc2 mass)) /\
    (forall fc2, lists2 9 (map IZR tri_z2) fc2 ->
       translation_free 3 fc2 /\ rotation_free 3 fc2 (fun q x => comp (place_of (atoms s0) q) x))) /\
  prints (H := Rtext) sample_er (irrep_text tri_symm) sample_name /\
  numbers (H1 := Rtext) (listing tri_z2) = Some (map IZR tri_z2) /\ symmetric_list 9 (map IZR tri_z2) /\
  (let B x := ROTCONST / x in B 24 <> B 42 /\ 2 * B 18 <> B 24 + B 42) /\ 2 * ROTCONST * tri_lam ^ 2 = 1 /\
  exists fuel t, program (H1 := Rtext) tri_symm eig_solve tri_eig fuel sample_er false
    tri_in (listing tri_z2) (listing sample_z3) (listing sample_z4) = Some t.
Proof.
  split; [exact tri_meets|]. split; [exact sample_prints_R|]. split; [exact tri_numbers|]. split; [exact tri_symmetric|].
  split; [exact tri_constants|]. split; [exact tri_lam_ok|exact tri_program].
Qed.
Print Assumptions rotation_from_files.
