(** The program as a function of the texts of its input files. *)
From Coq Require Import List ZArith NArith Arith Bool Ascii String Lia FunctionalExtensionality.
From Verif Require Import Num Loops Index ListFacts Text TextFacts SpacingFacts LoadFacts Modes Anharm VibRot Distort Transform
  SymAnharm Polyads Report Geom Finish OutText OutFacts Program.
Import ListNotations.
Open Scope list_scope.
Open Scope nat_scope.

(** ** the specification side *)

(** the same words, separated by any blanks *)
Definition same_words (t t' : text) : Prop := exists ws, spaced t ws /\ spaced t' ws.
Definition no_vertical_tab (t : text) : Prop := ~ In (ascii_of_nat 11) t.

(** a list of [want] numbers, and the same with two more in front or without *)
Definition maybe_header {F} (want : nat) (l l' : list F) : Prop :=
  List.length l = want /\ (l' = l \/ exists a b, l' = a :: b :: l).
Definition symmetric_list {F} (n : nat) (l : list F) : Prop :=
  forall i j, i < n -> j < n -> nth_error l (i * n + j) = nth_error l (j * n + i).

(** ** words *)
Lemma ascii_words_same t : no_vertical_tab t -> ascii_words t = words t.
Proof.
  assert (E : forall c, c <> ascii_of_nat 11 -> is_ascii_space c = is_space c).
  { intros c Hc. destruct c as [[] [] [] [] [] [] [] []]; try reflexivity. now elim Hc. }
  unfold no_vertical_tab. induction t as [|c t IH]; intros Hv; [reflexivity|].
  assert (Hc : c <> ascii_of_nat 11) by (intros ->; apply Hv; now left).
  assert (Ht : ~ In (ascii_of_nat 11) t) by (intros Q; apply Hv; now right).
  cbn [ascii_words words]. rewrite (E c Hc), (IH Ht). destruct t as [|d t]; [reflexivity|].
  assert (Hd : d <> ascii_of_nat 11) by (intros ->; apply Ht; now left). now rewrite (E d Hd).
Qed.

Section Layout.
  Context {F I : Type} `{N0 : Num F} `{G0 : Trig F} `{T0 : FText F}.
  Variables (sy : symm F I) (eig2 : F -> F -> F -> F * F * (F * F)) (eig : (nat -> nat -> F) -> list F * (nat -> nat -> F))
    (fuel : nat) (eprint : nat -> F -> text) (polyad : bool).
  Notation prog := (program sy eig2 eig fuel eprint polyad).

  (** the report depends on the words of the lines of the input file and on the words of the
      other files only *)
  Lemma program_layout_lemma infile infile' t15 t15' t30 t30' t40 t40' :
    Forall2 same_words (lines infile) (lines infile') -> same_words t15 t15' ->
    same_words t30 t30' -> same_words t40 t40' ->
    Forall no_vertical_tab [t30; t30'; t40; t40'] ->
    prog infile t15 t30 t40 = prog infile' t15' t30' t40'.
  Proof.
    intros H1 (w2 & A2 & B2) (w3 & A3 & B3) (w4 & A4 & B4) Hv.
    repeat match goal with H : Forall _ (_ :: _) |- _ => apply Forall_cons_iff in H as [? H] end.
    apply spaced_words in A2, B2, A3, B3, A4, B4.
    unfold program, load_input. rewrite (read_spaced _ _ H1). destruct (read infile') as [s|]; [|reflexivity]. cbn [obind].
    destruct (process_molecule sy s) as [l|]; [|reflexivity]. cbn [obind].
    unfold run_files, read_fc2, read_fc3, read_fc4, numbers, load_vec.
    rewrite !ascii_words_same by assumption. now rewrite A2, B2, A3, B3, A4, B4.
  Qed.

  Lemma load_sizes infile l : load_input sy infile = Some l ->
    sz_n3n (l_sizes l) = 3 * List.length (atoms (l_input l)) /\ 2 <= List.length (atoms (l_input l)) /\
    sz_nvib (l_sizes l) = 3 * List.length (atoms (l_input l)) - 6 + (if is_linear (l_rotor l) then 1 else 0).
  Proof. clear eig2 eprint eig fuel.
    unfold load_input. destruct (read infile) as [s|]; [|discriminate]. cbn [obind]. unfold process_molecule.
    destruct (normalize sy (to_angstrom sy (atoms s))) as [[[pr axes] r] at_]. cbv zeta.
    destruct (is_sym_top r) as [sym|]; [|discriminate]. cbn [obind].
    destruct (orient_geom _ _ _ _ _ _) as [[[vs ax'] top]|]; [|discriminate]. cbn [obind].
    destruct (match top with Some x => x | None => (0, 0, axis_default sy) end) as [[iatom order] a].
    set (at2 := map _ _). unfold make_sizes. destruct (3 * List.length at2 <? 6) eqn:E; [discriminate|]. cbn [obind].
    intros Q. apply some_eq in Q. subst l. cbn [l_sizes l_input atoms l_rotor sz_n3n sz_nvib]. apply Nat.ltb_ge in E. lia.
  Qed.

  Lemma trim_header_same want (l l' : list F) : maybe_header want l l' -> trim_header want l' = Some l.
  Proof.
    intros [L [->|(a & b & ->)]]; unfold trim_header; rewrite <- L.
    - now rewrite Nat.eqb_refl.
    - cbn [List.length]. destruct (S (S (List.length l)) =? List.length l) eqn:E; [apply Nat.eqb_eq in E; lia|].
      cbn [Nat.leb Nat.sub]. rewrite Nat.sub_0_r, Nat.eqb_refl. reflexivity.
  Qed.
  Lemma new_fc3_same n (l l' : list F) : maybe_header (n * (n + 1) * (n + 2) / 6) l l' -> new_fc3 n l' = new_fc3 n l.
  Proof.
    intros Hm. unfold new_fc3. rewrite (trim_header_same _ _ _ Hm).
    rewrite (trim_header_same _ l l); [reflexivity|]. split; [apply Hm|now left].
  Qed.
  Lemma new_fc4_same n (l l' : list F) : maybe_header (n * (n + 1) * (n + 2) * (n + 3) / 24) l l' -> new_fc4 n l' = new_fc4 n l.
  Proof.
    intros Hm. unfold new_fc4. rewrite (trim_header_same _ _ _ Hm).
    rewrite (trim_header_same _ l l); [reflexivity|]. split; [apply Hm|now left].
  Qed.
  Lemma load_fc2_same n (l l' : list F) : maybe_header (n * n) l l' -> symmetric_list n l -> load_fc2 n l' = load_fc2 n l.
  Proof.
    intros [L [->|(a & b & ->)]] Hs; [reflexivity|].
    destruct (load_fc2_header_lemma n [a; b] l eq_refl L) as (m & m' & E & E' & _ & _ & Q).
    cbn [List.app] in E'. rewrite E, E'. f_equal. extensionality i. extensionality j. now apply Q.
  Qed.

  (** two more numbers in front of the force constants change nothing *)
  Lemma program_headers_lemma infile l t15 t15' t30 t30' t40 t40' d2 d2' d3 d3' d4 d4' :
    load_input sy infile = Some l ->
    let n := 3 * List.length (atoms (l_input l)) in
    numbers t15 = Some d2 -> numbers t15' = Some d2' -> maybe_header (n * n) d2 d2' -> symmetric_list n d2 ->
    load_vec t30 = Some d3 -> load_vec t30' = Some d3' -> maybe_header (n * (n + 1) * (n + 2) / 6) d3 d3' ->
    load_vec t40 = Some d4 -> load_vec t40' = Some d4' -> maybe_header (n * (n + 1) * (n + 2) * (n + 3) / 24) d4 d4' ->
    prog infile t15' t30' t40' = prog infile t15 t30 t40.
  Proof.
    intros El n A1 A2 A3 A4 B1 B2 B3 C1 C2 C3. unfold program. rewrite El. cbn [obind].
    unfold run_files, read_fc2, read_fc3, read_fc4. rewrite (proj1 (load_sizes _ _ El)). fold n.
    rewrite A1, A2, B1, B2, C1, C2. cbn [obind].
    now rewrite (load_fc2_same n _ _ A3 A4), (new_fc3_same n _ _ B3), (new_fc4_same n _ _ C3).
  Qed.

  (** a report is printed only if the files have the right number of numbers *)
  Lemma program_counts_lemma infile t15 t30 t40 t : prog infile t15 t30 t40 = Some t ->
    exists l d2 d3 d4, load_input sy infile = Some l /\
      numbers t15 = Some d2 /\ load_vec t30 = Some d3 /\ load_vec t40 = Some d4 /\
      let n := 3 * List.length (atoms (l_input l)) in
      let fits (d : list F) want := List.length d = want \/ List.length d = want + 2 in
      fits d2 (n * n) /\ fits d3 (n * (n + 1) * (n + 2) / 6) /\ fits d4 (n * (n + 1) * (n + 2) * (n + 3) / 24).
  Proof.
    unfold program. destruct (load_input sy infile) as [l|] eqn:El; [|discriminate]. cbn [obind].
    unfold run_files, read_fc2, read_fc3, read_fc4. rewrite (proj1 (load_sizes _ _ El)).
    set (n := 3 * List.length (atoms (l_input l))).
    destruct (numbers t15) as [d2|]; [|discriminate]. cbn [obind].
    destruct (load_fc2 n d2) as [f2|] eqn:E2; [|discriminate]. cbn [obind].
    destruct (load_vec t30) as [d3|]; [|discriminate]. cbn [obind].
    destruct (new_fc3 n d3) as [f3|] eqn:E3; [|discriminate]. cbn [obind].
    destruct (load_vec t40) as [d4|]; [|discriminate]. cbn [obind].
    destruct (new_fc4 n d4) as [f4|] eqn:E4; [|discriminate]. intros _.
    exists l, d2, d3, d4. split; [reflexivity|]. do 3 (split; [reflexivity|]). cbv zeta. fold n.
    assert (Q : forall (d : list F) want, (List.length d <> want -> List.length d <> want + 2 -> False) ->
      List.length d = want \/ List.length d = want + 2).
    { intros d want K. destruct (Nat.eq_dec (List.length d) want); [now left|].
      destruct (Nat.eq_dec (List.length d) (want + 2)); [now right|]. now elim K. }
    split; [|split]; apply Q; intros K1 K2.
    - rewrite (load_fc2_reject n d2 K1 K2) in E2. discriminate.
    - rewrite (proj2 (new_fc3_main n d3) K1 K2) in E3. discriminate.
    - rewrite (proj2 (new_fc4_main n d4) K1 K2) in E4. discriminate.
  Qed.
End Layout.
