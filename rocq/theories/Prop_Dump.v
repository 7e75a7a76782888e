(** Property C132: what a run with --dump-fcs writes. *)
From Coq Require Import Reals Lra List ZArith NArith Arith Lia Bool Ascii String Permutation Sorted.
From Verif Require Import Num Loops ListFacts Index IndexFacts LoadFacts Modes ModesFacts ResFacts StatesFacts
  Anharm AnharmFacts VibRot VibRotFacts Distort Transform TransformFacts RotFacts NormalFacts HarmFacts ModeFacts
  SymAnharm Polyads Report ReportFacts Geom GeomFacts Finish FinishFacts RunFacts RunSecond OutText OutFacts OutTables OutRun
  Text TextFacts Program ProgramFacts ProgramRun DumpFacts DumpText DumpRun FermiWitness.
Import ListNotations.
Open Scope list_scope.
Open Scope nat_scope.

(** C132: the option adds the four blocks in front of the report and changes nothing else: there is a report with
    it exactly when there is one without, and it is the same report. *)
Theorem dump_adds : forall (F I : Type) (N : Num F) (G : Trig F) (T : FText F) (sy : symm F I) eig2 eig fuel eprint polyad
  infile t15 t30 t40,
  (forall t, program sy eig2 eig fuel eprint polyad infile t15 t30 t40 = Some t ->
     exists d, program_dump sy eig2 eig fuel eprint polyad infile t15 t30 t40 = Some (unlines (dump_lines d) ++ t)) /\
  (program sy eig2 eig fuel eprint polyad infile t15 t30 t40 = None ->
     program_dump sy eig2 eig fuel eprint polyad infile t15 t30 t40 = None).
Proof. exact (@dump_adds_lemma). Qed.
Example dump_adds_ex : exists fuel t,
  program (H1 := Rtext) sample_symm eig_solve sample_eig fuel sample_er false sample_in (listing sample_z2) (listing sample_z3) (listing sample_z4) = Some t.
Proof. exact sample_program. Qed.
Print Assumptions dump_adds.

Local Open Scope R_scope.

(** C132: for an asymmetric top the blocks are, from the texts of the files: the lower triangle of the Hessian of
    the second file in the frame of the run; the mass-weighted normal coordinates, row by row; and the cubic and
    quartic force constants of the normal modes, each with its indices, largest index first.  [fc2], [f3x] and
    [f4x] are the tables in the files, [lx] the normal modes, which diagonalise the Hessian, in the order of
    falling frequency.  The cubic and quartic constants are in wavenumbers, whatever the headings say. *)
Theorem dump_from_files : forall {I : Type} (sy : symm R I) eig2 eig eprint name (G0 : Trig R) (T0 : FText R),
  prints eprint (irrep_text sy) name ->
  forall infile t15 t30 t40 (l : loaded R) (d2 d3 d4 : list R),
    load_input sy infile = Some l ->
    numbers t15 = Some d2 -> load_vec t30 = Some d3 -> load_vec t40 = Some d4 ->
    let N := List.length (atoms (l_input l)) in
    let mass q := nth q (masses sy (atoms (l_input l))) 0 in
    let n := (3 * N - 6)%nat in
    (2 < N)%nat -> l_rotor l = AsymmTop -> (2 < nth 7 (header (l_input l)) 4)%Z ->
    (forall q, (q < N)%nat -> 0 < mass q) ->
    List.length d2 = (3 * N * (3 * N))%nat -> symmetric_list (3 * N) d2 ->
    List.length d3 = (3 * N * (3 * N + 1) * (3 * N + 2) / 6)%nat ->
    List.length d4 = (3 * N * (3 * N + 1) * (3 * N + 2) * (3 * N + 3) / 24)%nat ->
    (forall fc2, lists2 (3 * N) d2 fc2 -> solves (3 * N) eig (secular N (l_axes l) fc2 mass)) ->
    exists fc2 f3x f4x fuel0 freq lx,
      lists2 (3 * N) d2 fc2 /\ lists3 (3 * N) d3 f3x /\ lists4 (3 * N) d4 f4x /\
      let w := fun i => nth i freq 0 in
      let hess := fun a b => FACT2 * con2 (3 * N) (every_atom (l_axes l)) fc2 a b in
      let mode := fun a i => sqrt (mass (a / 3)%nat) * lx a i in
      let F3 := cubic_spec (3 * N) (con3 (3 * N) (every_atom (l_axes l)) f3x) lx w in
      let F4 := quartic_spec (3 * N) (con4 (3 * N) (every_atom (l_axes l)) f4x) lx w in
      (forall i j, (i < 3 * N)%nat -> (j < 3 * N)%nat ->
         Sum (3 * N) (fun a => mass (a / 3)%nat * lx a i * lx a j) = (if Nat.eqb i j then 1 else 0)) /\
      (forall i j, (i < 3 * N)%nat -> (j < 3 * N)%nat -> i <> j -> con2 (3 * N) lx hess i j = 0) /\
      (forall i, (i < 3 * N)%nat -> nth_error freq i = Some (to_wavenumber (con2 (3 * N) lx hess i i))) /\
      StronglySorted Rge freq /\
      ((forall i, (i < n)%nat -> 0 < w i) ->
       forall fuel, (fuel0 <= fuel)%nat ->
       exists t H M C Q,
       program sy eig2 eig fuel eprint false infile t15 t30 t40 = Some t /\
       program_dump sy eig2 eig fuel eprint false infile t15 t30 t40 = Some (unlines (
         lit "Cartesian Hessian (mdyne/Å)" :: H ++
         [] :: lit "Normal coordinates" :: M ++
         [] :: lit "Normal coordinate cubic force constants (mdyne/Å²)" :: C ++
         [] :: lit "Normal coordinate quartic force constants (mdyne/Å³)" :: Q) ++ t) /\
       (short (3 * N) ->
        ((forall i j, (i < 3 * N)%nat -> (j < 3 * N)%nat -> narrow 12 20 (hess i j)) ->
         map words H = flat_map (fun i => map (fun j => map show [i + 1; j + 1; 0; 0]%nat ++ [fprint 12 (hess i j)])
           (seq 0 (i + 1))) (seq 0 (3 * N))) /\
        ((forall i j, (i < 3 * N)%nat -> (j < 3 * N)%nat -> narrow 12 20 (mode i j)) ->
         map words M = flat_map (fun i => map (fun j => map show [i + 1; j + 1; 0; 0]%nat ++ [fprint 12 (mode i j)])
           (seq 0 (3 * N))) (seq 0 (3 * N))) /\
        ((forall i j k, (k <= j <= i)%nat -> (i < n)%nat -> narrow 12 20 (F3 i j k)) ->
         map words C = flat_map (fun i => flat_map (fun j => map (fun k =>
             map show [i + 1; j + 1; k + 1; 0]%nat ++ [fprint 12 (F3 i j k)])
           (seq 0 (j + 1))) (seq 0 (i + 1))) (seq 0 n)) /\
        ((forall i j k m, (m <= k <= j)%nat -> (j <= i)%nat -> (i < n)%nat -> narrow 12 20 (F4 i j k m)) ->
         map words Q = flat_map (fun i => flat_map (fun j => flat_map (fun k => map (fun m =>
             map show [i + 1; j + 1; k + 1; m + 1]%nat ++ [fprint 12 (F4 i j k m)])
           (seq 0 (k + 1))) (seq 0 (j + 1))) (seq 0 (i + 1))) (seq 0 n)))).
Proof. exact (@dump_from_files_lemma). Qed.
Example dump_from_files_ex :
  narrow (T0 := Rtext) 12 20 (IZR 12345) /\ short (3 * 3) /\
  prints (H := Rtext) sample_er (irrep_text sample_symm) sample_name /\
  numbers (H1 := Rtext) (listing sample_z2) = Some (map IZR sample_z2) /\
  load_vec (H1 := Rtext) (listing sample_z3) = Some (map IZR sample_z3) /\
  load_vec (H1 := Rtext) (listing sample_z4) = Some (map IZR sample_z4) /\
  exists l, load_input (H1 := Rtext) sample_symm sample_in = Some l /\
    l_rotor l = AsymmTop /\ (2 < nth 7 (header (l_input l)) 4)%Z /\ List.length (atoms (l_input l)) = 3%nat /\
    (forall q, (q < 3)%nat -> nth q (masses sample_symm (atoms (l_input l))) 0 = 1) /\
    List.length (map IZR sample_z2) = 81%nat /\ symmetric_list 9 (map IZR sample_z2) /\
    List.length (map IZR sample_z3) = (9 * 10 * 11 / 6)%nat /\ List.length (map IZR sample_z4) = (9 * 10 * 11 * 12 / 24)%nat /\
    (forall fc2, lists2 9 (map IZR sample_z2) fc2 ->
       solves (3 * 3) sample_eig (secular 3 (l_axes l) fc2 (fun q => nth q (masses sample_symm (atoms (l_input l))) 0))) /\
    forall fc2 lx, lists2 9 (map IZR sample_z2) fc2 -> forall i, Sum 9 (fun a => 1 * lx a i * lx a i) = 1 ->
      0 < to_wavenumber (con2 9 lx (fun a b => FACT2 * con2 9 (every_atom delta) fc2 a b) i i).
Proof.
  destruct sample_meets as (l & El & H1 & H2 & H3 & H4 & H5 & H6 & H7). destruct sample_numbers as (N1 & N2 & N3 & _).
  split; [unfold narrow; cbn [fprint Rtext]; rewrite Int_part_IZR; vm_compute; repeat constructor|]. split; [cbv; discriminate|]. split; [exact sample_prints_R|]. split; [exact N1|]. split; [exact N2|]. split; [exact N3|].
  exists l. split; [exact El|]. split; [exact H1|]. split; [exact H2|]. split; [exact H3|]. split; [exact H4|].
  split; [reflexivity|]. split; [exact sample_symmetric|]. split; [vm_compute; reflexivity|]. split; [vm_compute; reflexivity|].
  split; [exact H7|]. exact sample_positive.
Qed.
Print Assumptions dump_from_files.
