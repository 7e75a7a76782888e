(** C112, C113, C114, C115: the program, from the texts of its input files to the report. *)
From Coq Require Import Reals Lra List ZArith NArith Arith Lia Bool Ascii String Permutation Sorted.
From Verif Require Import Num Loops ListFacts Index IndexFacts LoadFacts Modes ModesFacts
  StatesFacts Anharm AnharmFacts VibRot VibRotFacts Distort Transform TransformFacts RotFacts NormalFacts ModeFacts InertiaFacts
  SymAnharm Polyads Report ReportFacts OutputFacts Geom FermiFacts FermiWitness PerturbFacts PerturbSum PerturbLevels SymE0
  Finish FinishFacts RunFacts RunSecond RunFermi OutText OutFacts OutTables OutRun Text TextFacts SpacingFacts DummyFacts
  Program ProgramFacts BlankFacts ProgramRun.
Import ListNotations.
Open Scope list_scope.
Open Scope nat_scope.

(** C112: the report depends on the words only: how the lines of the input file are spaced, how
    the numbers of the force constants are spread over lines, and whether lines end in a carriage
    return make no difference.  In the third and fourth file a vertical tab is not a space. *)
Theorem program_layout : forall (F I : Type) (N : Num F) (G : Trig F) (T : FText F) (sy : symm F I) eig2 eig fuel eprint polyad
  infile infile' t15 t15' t30 t30' t40 t40',
  Forall2 same_words (lines infile) (lines infile') -> same_words t15 t15' ->
  same_words t30 t30' -> same_words t40 t40' ->
  Forall no_vertical_tab [t30; t30'; t40; t40'] ->
  program sy eig2 eig fuel eprint polyad infile t15 t30 t40 = program sy eig2 eig fuel eprint polyad infile' t15' t30' t40'.
Proof. exact (@program_layout_lemma). Qed.
Example program_layout_ex :
  let t := listing sample_z3 in
  let t' := map (fun c => if Ascii.eqb c space then newline else c) t in
  Forall2 same_words (lines water_file) (lines water_by_hand) /\ water_file <> water_by_hand /\
  same_words t t' /\ t <> t' /\ Forall no_vertical_tab [t; t'].
Proof.
  cbv zeta.
  assert (V : forall t, forallb (fun c => negb (Ascii.eqb c (ascii_of_nat 11))) t = true -> no_vertical_tab t).
  { intros t Q Hi. rewrite forallb_forall in Q. specialize (Q _ Hi). rewrite Ascii.eqb_refl in Q. discriminate. }
  split. { cbn. repeat (constructor; [eexists; split; apply words_spaced_iff; [reflexivity|vm_compute; reflexivity]|]). constructor. }
  split; [discriminate|]. split.
  { exists (words (listing sample_z3)). split; apply words_spaced_iff; [reflexivity|vm_compute; reflexivity]. }
  split; [vm_compute; discriminate|]. repeat constructor; apply V; vm_compute; reflexivity.
Qed.
Print Assumptions program_layout.

(** C113: every file of force constants may start with two more numbers, which change nothing
    (the Hessian must be symmetric) *)
Theorem program_headers : forall (F I : Type) (N : Num F) (G : Trig F) (T : FText F) (sy : symm F I) eig2 eig fuel eprint polyad
  infile l t15 t15' t30 t30' t40 t40' (d2 d2' d3 d3' d4 d4' : list F),
  load_input sy infile = Some l ->
  let n := 3 * List.length (atoms (l_input l)) in
  numbers t15 = Some d2 -> numbers t15' = Some d2' -> maybe_header (n * n) d2 d2' -> symmetric_list n d2 ->
  load_vec t30 = Some d3 -> load_vec t30' = Some d3' -> maybe_header (n * (n + 1) * (n + 2) / 6) d3 d3' ->
  load_vec t40 = Some d4 -> load_vec t40' = Some d4' -> maybe_header (n * (n + 1) * (n + 2) * (n + 3) / 24) d4 d4' ->
  program sy eig2 eig fuel eprint polyad infile t15' t30' t40' = program sy eig2 eig fuel eprint polyad infile t15 t30 t40.
Proof. exact (@program_headers_lemma). Qed.
Example program_headers_ex :
  let z2 := (9 :: 9 :: sample_z2)%Z in
  exists l, load_input (H1 := Rtext) sample_symm sample_in = Some l /\
  let n := 3 * List.length (atoms (l_input l)) in
  numbers (H1 := Rtext) (listing sample_z2) = Some (map IZR sample_z2) /\ numbers (H1 := Rtext) (listing z2) = Some (map IZR z2) /\
  maybe_header (n * n) (map IZR sample_z2) (map IZR z2) /\ symmetric_list n (map IZR sample_z2) /\
  load_vec (H1 := Rtext) (listing sample_z3) = Some (map IZR sample_z3) /\
  maybe_header (n * (n + 1) * (n + 2) / 6) (map IZR sample_z3) (map IZR sample_z3) /\
  load_vec (H1 := Rtext) (listing sample_z4) = Some (map IZR sample_z4) /\
  maybe_header (n * (n + 1) * (n + 2) * (n + 3) / 24) (map IZR sample_z4) (map IZR sample_z4).
Proof.
  cbv zeta. destruct sample_meets as (l & El & _ & _ & L & _). destruct sample_numbers as (N1 & N2 & N3 & N4).
  exists l. rewrite L. split; [exact El|]. split; [exact N1|]. split; [exact N4|].
  split; [split; [reflexivity|right; eexists _, _; reflexivity]|]. split; [exact sample_symmetric|].
  split; [exact N2|]. split; [split; [vm_compute; reflexivity|now left]|]. split; [exact N3|].
  split; [vm_compute; reflexivity|now left].
Qed.
Print Assumptions program_headers.

(** ... and a report is printed only if every file has the right number of numbers, with or
    without these two *)
Theorem program_counts : forall (F I : Type) (N : Num F) (G : Trig F) (T : FText F) (sy : symm F I) eig2 eig fuel eprint polyad
  infile t15 t30 t40 t,
  program sy eig2 eig fuel eprint polyad infile t15 t30 t40 = Some t ->
  exists l d2 d3 d4, load_input sy infile = Some l /\
    numbers t15 = Some d2 /\ load_vec t30 = Some d3 /\ load_vec t40 = Some d4 /\
    let n := 3 * List.length (atoms (l_input l)) in
    let fits (d : list F) want := List.length d = want \/ List.length d = want + 2 in
    fits d2 (n * n) /\ fits d3 (n * (n + 1) * (n + 2) / 6) /\ fits d4 (n * (n + 1) * (n + 2) * (n + 3) / 24).
Proof. exact (@program_counts_lemma). Qed.
Example program_counts_ex : exists fuel t,
  program (H1 := Rtext) sample_symm eig_solve sample_eig fuel sample_er false
    sample_in (listing sample_z2) (listing sample_z3) (listing sample_z4) = Some t.
Proof. exact sample_program. Qed.
Print Assumptions program_counts.

(** C114: a blank line more in the input file is not always harmless: after the geometry the
    program panics, whatever follows *)
Theorem blank_lines_refuted : exists t t' a b l,
  lines t = a ++ b /\ lines t' = a ++ l :: b /\ words l = [] /\
  read (F := Z) t <> None /\ read (F := Z) t' = None.
Proof. exact blank_lines_refuted_lemma. Qed.
Example blank_lines_refuted_ex :
  let t := unlines (map lit ["# SPECTRO ####"; "1 1 1 1 1 1 1 4"; "# GEOM ####"; "2 0"; "1 0 0 0"; "1 0 0 1"]%string) in
  read (F := Z) t <> None /\ lines (t ++ [newline]) = lines t ++ [[]] /\ read (F := Z) (t ++ [newline]) = None.
Proof. cbv zeta. split; [vm_compute; discriminate|]. split; vm_compute; reflexivity. Qed.
Print Assumptions blank_lines_refuted.

(** it panics for every blank line after the count line of the sections of the geometry and of
    the masses, also at the end of the file *)
Theorem blank_lines_panic : forall (F : Type) (T : FText F) t' a b l, lines t' = a ++ l :: b -> words l = [] ->
  (exists k, In k (map lit ["GEOM"; "WEIGHT"]%string) /\ in_section k a) -> read (F := F) t' = None.
Proof. exact (@blank_lines_panic_lemma). Qed.
Example blank_lines_panic_ex : in_section (lit "GEOM")
  (map lit ["# SPECTRO ####"; "1 1 1 1 1 1 1 4"; "# GEOM ####"; "2 0"; "1 0 0 0"; "1 0 0 1"]%string).
Proof.
  exists (map lit ["# SPECTRO ####"; "1 1 1 1 1 1 1 4"]%string), (lit "# GEOM ####"), (map lit ["2 0"; "1 0 0 0"; "1 0 0 1"]%string).
  split; [reflexivity|]. split; [reflexivity|]. split.
  { intros k' Hk D. cbn [keywords map In] in Hk. repeat destruct Hk as [<-|Hk]; try contradiction; reflexivity. }
  split. { intros p a0 E. apply (f_equal (@rev text)) in E. rewrite rev_app_distr in E. cbn [map rev List.app] in E.
    injection E as <- _. split; reflexivity. }
  split; [|discriminate]. repeat constructor; intros k' Hk; cbn [keywords map In] in Hk;
    repeat destruct Hk as [<-|Hk]; try contradiction; reflexivity.
Qed.
Print Assumptions blank_lines_panic.

(** in the other sections, and before the first keyword, a blank line changes nothing *)
Theorem blank_lines_partial : forall (F : Type) (T : FText F) t t' a b l,
  lines t = a ++ b -> lines t' = a ++ l :: b -> words l = [] ->
  (exists k, In k (map lit ["SPECTRO"; "CURVIL"; "DEGMODE"; "CORIOL"]%string) /\ in_section k a) \/ Forall ordinary a ->
  read (F := F) t' = read t.
Proof. exact (@blank_lines_lemma). Qed.
Example blank_lines_partial_ex :
  let a := map lit ["# SPECTRO ####"; "1 1 1 1 1 1 1 4"]%string in
  in_section (lit "SPECTRO") a /\ Forall ordinary [lit "my molecule"; []].
Proof.
  cbv zeta. split.
  - exists [], (lit "# SPECTRO ####"), [lit "1 1 1 1 1 1 1 4"]. split; [reflexivity|]. split; [reflexivity|]. split.
    { intros k' Hk D. cbn [keywords map In] in Hk. repeat destruct Hk as [<-|Hk]; try contradiction; reflexivity. }
    split. { intros p a0 E. now destruct a0. }
    split; [|discriminate]. repeat constructor; intros k' Hk; cbn [keywords map In] in Hk;
      repeat destruct Hk as [<-|Hk]; try contradiction; reflexivity.
  - repeat constructor; intros k' Hk; cbn [keywords map In] in Hk; repeat destruct Hk as [<-|Hk]; try contradiction; reflexivity.
Qed.
Print Assumptions blank_lines_partial.

Open Scope R_scope.
(** C115: what the report says is second-order perturbation theory for the force constants of the
    files.  The files list the Cartesian force constants; the rows of the table of frequencies
    are the harmonic frequencies, the second-order fundamentals and the levels corrected for
    isolated Fermi resonances; the resonances are the listed ones; the equilibrium constants are
    those of the moments of inertia, 0 for a moment not above 0.01. *)
Theorem report_from_files : forall (I : Type) (sy : symm R I) eig2 eig eprint (name : I -> text) (G : Trig R) (T : FText R),
  (forall a b c, eig_ok eig2 a b c) ->
  prints eprint (irrep_text sy) name ->
  forall infile t15 t30 t40 (l : loaded R) (d2 d3 d4 : list R),
  load_input sy infile = Some l ->
  numbers t15 = Some d2 -> load_vec t30 = Some d3 -> load_vec t40 = Some d4 ->
  let N := List.length (atoms (l_input l)) in
  let mass q := nth q (masses sy (atoms (l_input l))) 0 in
  let n := (3 * N - 6)%nat in
  let B k := let J := comp (l_primat l) k in if Rlt_dec (1 / 100) J then ROTCONST / J else 0 in
  (2 < N)%nat -> l_rotor l = AsymmTop -> (2 < nth 7 (header (l_input l)) 4)%Z ->
  (forall q, (q < N)%nat -> 0 < mass q) ->
  Forall plain (molecule_lines sy (atoms (l_input l))) ->
  List.length d2 = (3 * N * (3 * N))%nat -> symmetric_list (3 * N) d2 ->
  List.length d3 = (3 * N * (3 * N + 1) * (3 * N + 2) / 6)%nat ->
  List.length d4 = (3 * N * (3 * N + 1) * (3 * N + 2) * (3 * N + 3) / 24)%nat ->
  (forall fc2, lists2 (3 * N) d2 fc2 -> solves (3 * N) eig (secular N (l_axes l) fc2 mass)) ->
  exists fc2 f3x f4x fuel0 freq lx,
    lists2 (3 * N) d2 fc2 /\ lists3 (3 * N) d3 f3x /\ lists4 (3 * N) d4 f4x /\
    let w := fun i => nth i freq 0 in
    let hess := fun a b => FACT2 * con2 (3 * N) (every_atom (l_axes l)) fc2 a b in
    let F3 := cubic_spec (3 * N) (con3 (3 * N) (every_atom (l_axes l)) f3x) lx w in
    let F4 := quartic_spec (3 * N) (con4 (3 * N) (every_atom (l_axes l)) f4x) lx w in
    let zeta := zeta_of N (fun a i => sqrt (mass (a / 3)%nat) * lx a i) in
    (forall i j, (i < 3 * N)%nat -> (j < 3 * N)%nat ->
       Sum (3 * N) (fun a => mass (a / 3)%nat * lx a i * lx a j) = (if Nat.eqb i j then 1 else 0)) /\
    (forall i j, (i < 3 * N)%nat -> (j < 3 * N)%nat -> i <> j -> con2 (3 * N) lx hess i j = 0) /\
    (forall i, (i < 3 * N)%nat -> nth_error freq i = Some (to_wavenumber (con2 (3 * N) lx hess i i))) /\
    StronglySorted Rge freq /\
    ((forall i, (i < n)%nat -> 0 < w i) ->
     forall fuel, (fuel0 <= fuel)%nat ->
     exists t irreps harms funds corrs zpt fm1 fm2,
     program sy eig2 eig fuel eprint false infile t15 t30 t40 = Some t /\
     (Forall (narrow 1 8) harms -> Forall (narrow 1 8) funds -> Forall (narrow 1 8) corrs ->
      exists head rows z after,
        block (lines t) (lit "Vibrational Frequencies (cm-1):") (head :: rows) (z :: after) /\
        words head = map lit ["Mode"; "Symm"; "Harm"; "Fund"; "Corr"]%string /\
        words z = [lit "ZPT"; lit "="; fprint 1 zpt] /\
        List.length rows = List.length harms /\
        forall k r, nth_error rows k = Some r -> exists i h f c,
          nth_error irreps k = Some i /\ nth_error harms k = Some h /\
          nth_error funds k = Some f /\ nth_error corrs k = Some c /\
          words r = [show (k + 1); name i; fprint 1 h; fprint 1 f; fprint 1 c]) /\
     (Forall (narrow 12 20) [B 0%nat; B 1%nat; B 2%nat] -> exists head row after,
        block (lines t) (lit "Equilibrium Rotational Constants (cm-1):") [head; row] after /\
        words head = map lit ["A"; "B"; "C"]%string /\
        words row = map (fprint 12) [B 0%nat; B 1%nat; B 2%nat]) /\
     ((N.of_nat (3 * N) <= 9999)%N -> exists f1 f2 after1 after2,
        block (lines t) (lit "Type 1 Fermi Resonances:") f1 after1 /\
        map words f1 = map (fun '(i, j) => [show i; show j]) fm1 /\
        block (lines t) (lit "Type 2 Fermi Resonances:") f2 after2 /\
        map words f2 = map (fun '(i, j, k) => [show i; show j; show k]) fm2) /\
     ((forall i, ~ In (i, i) fm1) -> isolated fm1 fm2 ->
      forall res, reported fm1 fm2 res ->
      (forall i j k, (i < n)%nat -> (j < n)%nat -> (k < n)%nat -> res i j k = false -> w i + w j <> w k) ->
      harms = map w (seq 0 n) /\ List.length funds = n /\ List.length corrs = n /\
      forall U, (forall v, intermediate n F3 v (U v)) ->
        let E v := perturbed n w F3 F4 zeta B res v (U v) in
        let T v := E v - E ground in
        zpt = E ground + angular_shift n zeta B + e0_excess n w F3 res /\
        (forall k, (k < n)%nat -> nth_error funds k = Some (T (one k))) /\
        (forall k, (k < n)%nat -> (forall i j, ~ resonant fm1 fm2 i j k) -> nth_error corrs k = Some (T (one k))) /\
        (forall i j k, resonant fm1 fm2 i j k -> exists c c', nth_error corrs k = Some c /\
           two_level (T (two i j)) (T (one k)) (cubic n F3 (ket n (two i j)) (one k)) c' c))).
Proof. exact (@report_from_files_lemma). Qed.
Example report_from_files_ex :
  (forall a b c, eig_ok eig_solve a b c) /\
  prints (H := Rtext) sample_er (irrep_text sample_symm) sample_name /\
  numbers (H1 := Rtext) (listing sample_z2) = Some (map IZR sample_z2) /\
  load_vec (H1 := Rtext) (listing sample_z3) = Some (map IZR sample_z3) /\
  load_vec (H1 := Rtext) (listing sample_z4) = Some (map IZR sample_z4) /\
  exists l, load_input (H1 := Rtext) sample_symm sample_in = Some l /\
    l_rotor l = AsymmTop /\ (2 < nth 7 (header (l_input l)) 4)%Z /\ List.length (atoms (l_input l)) = 3%nat /\
    (forall q, (q < 3)%nat -> nth q (masses sample_symm (atoms (l_input l))) 0 = 1) /\
    Forall plain (molecule_lines sample_symm (atoms (l_input l))) /\
    List.length (map IZR sample_z2) = 81%nat /\ symmetric_list 9 (map IZR sample_z2) /\
    List.length (map IZR sample_z3) = (9 * 10 * 11 / 6)%nat /\ List.length (map IZR sample_z4) = (9 * 10 * 11 * 12 / 24)%nat /\
    (forall fc2, lists2 9 (map IZR sample_z2) fc2 ->
       solves (3 * 3) sample_eig (secular 3 (l_axes l) fc2 (fun q => nth q (masses sample_symm (atoms (l_input l))) 0))) /\
    forall fc2 lx, lists2 9 (map IZR sample_z2) fc2 -> forall i, Sum 9 (fun a => 1 * lx a i * lx a i) = 1 ->
      0 < to_wavenumber (con2 9 lx (fun a b => FACT2 * con2 9 (every_atom delta) fc2 a b) i i).
Proof.
  destruct sample_meets as (l & El & H1 & H2 & H3 & H4 & H5 & H6 & H7). destruct sample_numbers as (N1 & N2 & N3 & _).
  split; [exact eig_solve_ok|]. split; [exact sample_prints_R|]. split; [exact N1|]. split; [exact N2|]. split; [exact N3|].
  exists l. split; [exact El|]. split; [exact H1|]. split; [exact H2|]. split; [exact H3|]. split; [exact H4|]. split; [exact H5|].
  split; [reflexivity|]. split; [exact sample_symmetric|]. split; [vm_compute; reflexivity|]. split; [vm_compute; reflexivity|].
  split; [exact H7|]. exact sample_positive.
Qed.
Print Assumptions report_from_files.
