(** Property C135: the text of the Gaussian style listing. *)
From Coq Require Import Reals Lra List ZArith NArith Arith Lia Bool Ascii String Sorted.
From Verif Require Import Num Loops ListFacts Index IndexFacts LoadFacts Modes ModesFacts ResFacts StatesFacts
  Anharm AnharmFacts VibRot VibRotFacts Distort Transform TransformFacts RotFacts NormalFacts HarmFacts ModeFacts
  SymAnharm Polyads Report ReportFacts Geom GeomFacts Finish FinishFacts RunFacts RunSecond OutText OutFacts OutTables OutRun
  Text TextFacts Program ProgramFacts ProgramRun DumpFacts DumpText DumpRun SavedText SavedRun FermiWitness GaussRun.
Import ListNotations.
Open Scope list_scope.
Open Scope nat_scope.
Local Open Scope R_scope.

(** C135: when the tables cover the modes, the listing has the two headings and below them one line for each
    constant above 1e-6 in magnitude; a reader who splits a line at blanks finds the indices and the value. *)
Theorem gauss_text : forall {I : Type} (sy : symm R I) eprint name (T0 : FText R),
  prints eprint (irrep_text sy) name ->
  forall (s : saved R I) (V3 : nat -> nat -> nat -> R) (V4 : nat -> nat -> nat -> nat -> R),
    let r := List.length (s_freq s) in
    (forall i j k, (k <= j <= i)%nat -> (i < r)%nat -> f3qcm_get (s_f3qcm s) i j k = Some (V3 i j k)) ->
    (forall i j k l, (l <= k <= j)%nat -> (j <= i)%nat -> (i < r)%nat -> f4qcm_get (s_f4qcm s) i j k l = Some (V4 i j k l)) ->
    exists C Q,
      main_gauss s = Some (unlines (
        lit "CUBIC FORCE CONSTANTS IN NORMAL MODES" :: C ++ lit "QUARTIC FORCE CONSTANTS IN NORMAL MODES" :: Q)) /\
      (short r ->
       ((forall i j k, (k <= j <= i)%nat -> (i < r)%nat -> narrow 12 20 (V3 i j k)) ->
        map words C = flat_map (fun i => flat_map (fun j => flat_map (fun k =>
            if Rlt_dec (1 / 1000000) (Rabs (V3 i j k))
            then [map show [i + 1; j + 1; k + 1]%nat ++ [fprint 12 (V3 i j k)]] else [])
          (seq 0 (j + 1))) (seq 0 (i + 1))) (seq 0 r)) /\
       ((forall i j k l, (l <= k <= j)%nat -> (j <= i)%nat -> (i < r)%nat -> narrow 12 20 (V4 i j k l)) ->
        map words Q = flat_map (fun i => flat_map (fun j => flat_map (fun k => flat_map (fun l =>
            if Rlt_dec (1 / 1000000) (Rabs (V4 i j k l))
            then [map show [i + 1; j + 1; k + 1; l + 1]%nat ++ [fprint 12 (V4 i j k l)]] else [])
          (seq 0 (k + 1))) (seq 0 (j + 1))) (seq 0 (i + 1))) (seq 0 r))).
Proof. exact (@gauss_text_lemma). Qed.
Example gauss_text_ex :
  prints (H := Rtext) sample_er (irrep_text sample_symm) sample_name /\
  (forall i j k, (k <= j <= i)%nat -> (i < 2)%nat ->
     f3qcm_get [1; 2; 3; 4] i j k = Some (INR (i + j + k) + 1)) /\
  (forall i j k l, (l <= k <= j)%nat -> (j <= i)%nat -> (i < 2)%nat ->
     f4qcm_get [1; 2; 3; 4; 5] i j k l = Some (INR (i + j + k + l) + 1)).
Proof.
  split; [exact sample_prints_R|]. split.
  - intros i j k Hj Hi. assert (E : (k = 0 \/ k = 1)%nat /\ (j = 0 \/ j = 1)%nat /\ (i = 0 \/ i = 1)%nat) by lia.
    destruct E as ([-> | ->] & [-> | ->] & [-> | ->]); try lia; cbn; f_equal; ring.
  - intros i j k l Hk Hj Hi. assert (E : (l = 0 \/ l = 1)%nat /\ (k = 0 \/ k = 1)%nat /\ (j = 0 \/ j = 1)%nat /\ (i = 0 \/ i = 1)%nat) by lia.
    destruct E as ([-> | ->] & [-> | ->] & [-> | ->] & [-> | ->]); try lia; cbn; f_equal; ring.
Qed.
Print Assumptions gauss_text.

(** C135: so for an asymmetric top, if only the frequencies of the vibrations are kept of what a run saves (with
    all of them the listing panics, C134), the lines are the cubic and quartic constants of the normal modes of the
    force constants in the files. *)
Theorem gauss_cut : forall {I : Type} (sy : symm R I) eig eprint name (G0 : Trig R) (T0 : FText R),
  prints eprint (irrep_text sy) name ->
  forall infile t15 t30 t40 (l : loaded R) (d2 d3 d4 : list R) fuel s,
    load_input sy infile = Some l ->
    numbers t15 = Some d2 -> load_vec t30 = Some d3 -> load_vec t40 = Some d4 ->
    let N := List.length (atoms (l_input l)) in
    let mass q := nth q (masses sy (atoms (l_input l))) 0 in
    let n := (3 * N - 6)%nat in
    (2 < N)%nat -> l_rotor l = AsymmTop ->
    (forall q, (q < N)%nat -> 0 < mass q) ->
    List.length d2 = (3 * N * (3 * N))%nat -> symmetric_list (3 * N) d2 ->
    List.length d3 = (3 * N * (3 * N + 1) * (3 * N + 2) / 6)%nat ->
    List.length d4 = (3 * N * (3 * N + 1) * (3 * N + 2) * (3 * N + 3) / 24)%nat ->
    (forall fc2, lists2 (3 * N) d2 fc2 -> solves (3 * N) eig (secular N (l_axes l) fc2 mass)) ->
    run_saved sy eig fuel l t15 t30 t40 = Some s ->
    exists fc2 f3x f4x lx C Q,
      lists2 (3 * N) d2 fc2 /\ lists3 (3 * N) d3 f3x /\ lists4 (3 * N) d4 f4x /\
      let w := fun i => nth i (s_freq s) 0 in
      let hess := fun a b => FACT2 * con2 (3 * N) (every_atom (l_axes l)) fc2 a b in
      let F3 := cubic_spec (3 * N) (con3 (3 * N) (every_atom (l_axes l)) f3x) lx w in
      let F4 := quartic_spec (3 * N) (con4 (3 * N) (every_atom (l_axes l)) f4x) lx w in
      (forall i j, (i < 3 * N)%nat -> (j < 3 * N)%nat ->
         Sum (3 * N) (fun a => mass (a / 3)%nat * lx a i * lx a j) = (if Nat.eqb i j then 1 else 0)) /\
      (forall i j, (i < 3 * N)%nat -> (j < 3 * N)%nat -> i <> j -> con2 (3 * N) lx hess i j = 0) /\
      (forall i, (i < 3 * N)%nat -> nth_error (s_freq s) i = Some (to_wavenumber (con2 (3 * N) lx hess i i))) /\
      StronglySorted Rge (s_freq s) /\
      main_gauss (mk_saved (s_spectro s) (firstn n (s_freq s)) (s_f3qcm s) (s_f4qcm s) (s_irreps s) (s_lxm s) (s_lx s)) =
        Some (unlines (
          lit "CUBIC FORCE CONSTANTS IN NORMAL MODES" :: C ++ lit "QUARTIC FORCE CONSTANTS IN NORMAL MODES" :: Q)) /\
      (short n ->
       ((forall i j k, (k <= j <= i)%nat -> (i < n)%nat -> narrow 12 20 (F3 i j k)) ->
        map words C = flat_map (fun i => flat_map (fun j => flat_map (fun k =>
            if Rlt_dec (1 / 1000000) (Rabs (F3 i j k))
            then [map show [i + 1; j + 1; k + 1]%nat ++ [fprint 12 (F3 i j k)]] else [])
          (seq 0 (j + 1))) (seq 0 (i + 1))) (seq 0 n)) /\
       ((forall i j k p, (p <= k <= j)%nat -> (j <= i)%nat -> (i < n)%nat -> narrow 12 20 (F4 i j k p)) ->
        map words Q = flat_map (fun i => flat_map (fun j => flat_map (fun k => flat_map (fun p =>
            if Rlt_dec (1 / 1000000) (Rabs (F4 i j k p))
            then [map show [i + 1; j + 1; k + 1; p + 1]%nat ++ [fprint 12 (F4 i j k p)]] else [])
          (seq 0 (k + 1))) (seq 0 (j + 1))) (seq 0 (i + 1))) (seq 0 n))).
Proof. exact (@gauss_cut_lemma). Qed.
Example gauss_cut_ex :
  prints (H := Rtext) sample_er (irrep_text sample_symm) sample_name /\
  numbers (H1 := Rtext) (listing sample_z2) = Some (map IZR sample_z2) /\
  load_vec (H1 := Rtext) (listing sample_z3) = Some (map IZR sample_z3) /\
  load_vec (H1 := Rtext) (listing sample_z4) = Some (map IZR sample_z4) /\
  symmetric_list 9 (map IZR sample_z2) /\
  exists l s fuel, load_input (H1 := Rtext) sample_symm sample_in = Some l /\
    run_saved (H1 := Rtext) sample_symm sample_eig fuel l (listing sample_z2) (listing sample_z3) (listing sample_z4) = Some s /\
    l_rotor l = AsymmTop /\ List.length (atoms (l_input l)) = 3%nat /\
    (forall q, (q < 3)%nat -> nth q (masses sample_symm (atoms (l_input l))) 0 = 1) /\
    (forall fc2, lists2 9 (map IZR sample_z2) fc2 ->
       solves (3 * 3) sample_eig (secular 3 (l_axes l) fc2 (fun q => nth q (masses sample_symm (atoms (l_input l))) 0))).
Proof.
  destruct sample_meets as (l & El & H1 & H2 & H3 & H4 & H5 & H6 & H7). destruct sample_numbers as (N1 & N2 & N3 & _).
  split; [exact sample_prints_R|]. split; [exact N1|]. split; [exact N2|]. split; [exact N3|]. split; [exact sample_symmetric|].
  destruct gauss_sample as (l' & s & fuel & t & El' & Es & _). rewrite El in El'. apply some_eq in El' as <-.
  exists l, s, fuel. split; [exact El|]. split; [exact Es|]. split; [exact H1|]. split; [exact H3|]. split; [exact H4|]. exact H7.
Qed.
Print Assumptions gauss_cut.
