(** Properties C133 and C134: the options --finish and --to-gauss. *)
From Coq Require Import Reals Lra List ZArith NArith Arith Lia Bool Ascii String Permutation Sorted.
From Verif Require Import Num Loops ListFacts Index IndexFacts LoadFacts Modes ModesFacts ResFacts StatesFacts
  Anharm AnharmFacts VibRot VibRotFacts Distort Transform TransformFacts RotFacts NormalFacts HarmFacts ModeFacts
  SymAnharm Polyads Report ReportFacts Geom GeomFacts Finish FinishFacts RunFacts RunSecond OutText OutFacts OutTables OutRun
  Text TextFacts Program ProgramFacts ProgramRun DumpFacts DumpText DumpRun SavedText SavedRun FermiWitness.
Import ListNotations.
Open Scope list_scope.
Open Scope nat_scope.

(** C133: the program writes a report exactly when its data before the last step can be saved and --finish, given
    these data, writes that report. *)
Theorem finish_same_report : forall (F I : Type) (N : Num F) (G : Trig F) (T : FText F) (sy : symm F I) eig2 eig fuel eprint polyad
  infile t15 t30 t40 t,
  program sy eig2 eig fuel eprint polyad infile t15 t30 t40 = Some t <->
  exists l s, load_input sy infile = Some l /\ run_saved sy eig fuel l t15 t30 t40 = Some s /\
    s_spectro s = l /\ main_finish sy eig2 eprint polyad s = Some t.
Proof. exact (@finish_same_lemma). Qed.
Example finish_same_report_ex : exists fuel t,
  program (H1 := Rtext) sample_symm eig_solve sample_eig fuel sample_er false sample_in (listing sample_z2) (listing sample_z3) (listing sample_z4) = Some t.
Proof. exact sample_program. Qed.
Print Assumptions finish_same_report.

(** C134: the Gaussian style listing ends without a panic exactly when the tables have the cubic and quartic
    constants of as many modes as there are frequencies *)
Theorem to_gauss_ends : forall (F : Type) (N : Num F) (r : nat) (f3 f4 : list F),
  to_gauss r f3 f4 <> None <->
  r * (r + 1) * (r + 2) / 6 <= List.length f3 /\ r * (r + 1) * (r + 2) * (r + 3) / 24 <= List.length f4.
Proof. exact (@to_gauss_ends_lemma). Qed.
Example to_gauss_ends_ex : List.length [1; 2; 3; 4]%Z = 2 * (2 + 1) * (2 + 2) / 6 /\
  List.length [5; 6; 7; 8; 9]%Z = 2 * (2 + 1) * (2 + 2) * (2 + 3) / 24 /\ List.length [1; 2; 3; 4]%Z < 3 * (3 + 1) * (3 + 2) / 6.
Proof. split; [reflexivity|]. split; [reflexivity|]. cbn. lia. Qed.
Print Assumptions to_gauss_ends.

(** C134: for the data of a run this is so when there are no more frequencies than vibrations *)
Theorem gauss_after_run : forall (F I : Type) (N : Num F) (G : Trig F) (T : FText F) (sy : symm F I) eig fuel
  infile t15 t30 t40 l s,
  load_input sy infile = Some l -> run_saved sy eig fuel l t15 t30 t40 = Some s ->
  (main_gauss s <> None <-> List.length (s_freq s) <= sz_nvib (l_sizes l)).
Proof. exact (@gauss_after_run_lemma). Qed.
Example gauss_after_run_ex : exists l s fuel t,
  load_input (H1 := Rtext) sample_symm sample_in = Some l /\
  run_saved (H1 := Rtext) sample_symm sample_eig fuel l (listing sample_z2) (listing sample_z3) (listing sample_z4) = Some s /\
  program (H1 := Rtext) sample_symm eig_solve sample_eig fuel sample_er false sample_in (listing sample_z2) (listing sample_z3) (listing sample_z4) = Some t /\
  main_finish (H1 := Rtext) sample_symm eig_solve sample_er false s = Some t /\
  sz_nvib (l_sizes l) = 3 /\ List.length (s_freq s) = 9 /\ main_gauss (H1 := Rtext) s = None.
Proof. exact gauss_sample. Qed.
Print Assumptions gauss_after_run.

Local Open Scope R_scope.

(** C134: which never happens: the eigensolver gives 3N frequencies, and the tables are for the vibrations only.
    The data a run hands to its last step, saved as they are, make --to-gauss panic for every molecule. *)
Theorem gauss_never : forall {I : Type} (sy : symm R I) eig (G0 : Trig R) (T0 : FText R)
    infile t15 t30 t40 (l : loaded R) (d2 : list R) fuel s,
    load_input sy infile = Some l -> numbers t15 = Some d2 ->
    let N := List.length (atoms (l_input l)) in
    let mass q := nth q (masses sy (atoms (l_input l))) 0 in
    (forall q, (q < N)%nat -> 0 < mass q) ->
    List.length d2 = (3 * N * (3 * N))%nat -> symmetric_list (3 * N) d2 ->
    (forall fc2, lists2 (3 * N) d2 fc2 -> solves (3 * N) eig (secular N (l_axes l) fc2 mass)) ->
    run_saved sy eig fuel l t15 t30 t40 = Some s ->
    List.length (s_freq s) = (3 * N)%nat /\ main_gauss s = None.
Proof. exact (@gauss_never_lemma). Qed.
Example gauss_never_ex :
  numbers (H1 := Rtext) (listing sample_z2) = Some (map IZR sample_z2) /\ symmetric_list 9 (map IZR sample_z2) /\
  exists l, load_input (H1 := Rtext) sample_symm sample_in = Some l /\ List.length (atoms (l_input l)) = 3%nat /\
    (forall q, (q < 3)%nat -> nth q (masses sample_symm (atoms (l_input l))) 0 = 1) /\
    (forall fc2, lists2 9 (map IZR sample_z2) fc2 ->
       solves (3 * 3) sample_eig (secular 3 (l_axes l) fc2 (fun q => nth q (masses sample_symm (atoms (l_input l))) 0))).
Proof.
  destruct sample_meets as (l & El & H1 & H2 & H3 & H4 & H5 & H6 & H7). destruct sample_numbers as (N1 & _).
  split; [exact N1|]. split; [exact sample_symmetric|]. exists l. split; [exact El|]. split; [exact H3|]. split; [exact H4|]. exact H7.
Qed.
Print Assumptions gauss_never.

(** C134 is false: a molecule with a report whose data --finish accepts and --to-gauss does not *)
Theorem gauss_of_run_refuted : exists l s fuel t,
  load_input (H1 := Rtext) sample_symm sample_in = Some l /\
  run_saved (H1 := Rtext) sample_symm sample_eig fuel l (listing sample_z2) (listing sample_z3) (listing sample_z4) = Some s /\
  program (H1 := Rtext) sample_symm eig_solve sample_eig fuel sample_er false sample_in (listing sample_z2) (listing sample_z3) (listing sample_z4) = Some t /\
  main_finish (H1 := Rtext) sample_symm eig_solve sample_er false s = Some t /\
  sz_nvib (l_sizes l) = 3%nat /\ List.length (s_freq s) = 9%nat /\ main_gauss (H1 := Rtext) s = None.
Proof. exact gauss_sample. Qed.
Print Assumptions gauss_of_run_refuted.
