(** --finish and --to-gauss. *)
From Coq Require Import Reals Lra List ZArith NArith Arith Lia Bool Ascii String Permutation Sorted.
From Verif Require Import Num Loops ListFacts Index IndexFacts LoadFacts Modes ModesFacts ResFacts StatesFacts
  Anharm AnharmFacts VibRot VibRotFacts Distort Transform TransformFacts RotFacts NormalFacts HarmFacts ModeFacts
  SymAnharm Polyads Report ReportFacts Geom GeomFacts Finish FinishFacts RunFacts RunSecond OutText OutFacts OutTables OutRun
  Text TextFacts Program ProgramFacts ProgramRun DumpFacts DumpText DumpRun SavedText FermiWitness.
Import ListNotations.
Open Scope list_scope.
Open Scope nat_scope.

Lemma rows_of_some {F} `{Num F} {A} (l : list A) (f : A -> option (list (list nat * F))) :
  rows_of l f <> None <-> forall x, In x l -> f x <> None.
Proof.
  assert (G : forall acc, ofold (fun acc a => let* r := f a in Some (acc ++ r)) l acc <> None <-> forall x, In x l -> f x <> None);
    [|apply G].
  induction l as [|a l IH]; intros acc; cbn [ofold].
  - split; [intros _ x []|discriminate].
  - destruct (f a) as [r|] eqn:E; cbn [obind].
    + rewrite IH. split; intros Hx x; [intros [<-|Hi]; [congruence|auto]|]. intros Hi. apply Hx. now right.
    + split; [congruence|]. intros Hx. exfalso. apply (Hx a); [now left|exact E].
Qed.

Section Gauss.
  Context {F : Type} `{Num F}.
  Lemma gauss_cubic_ends r (f3 : list F) : gauss_cubic r f3 <> None <-> t3 r <= List.length f3.
  Proof.
    unfold gauss_cubic. rewrite rows_of_some. split.
    - intros Hx. destruct r as [|r]; [cbn; lia|].
      assert (Hi : In (r, r, r) (tri_indices (S r))) by (apply tri_indices_in; lia).
      specialize (Hx _ Hi). cbv beta iota in Hx. unfold f3qcm_get in Hx.
      destruct (nth_error f3 (find3 r r r)) eqn:E; [|now elim Hx].
      assert (find3 r r r < List.length f3) by (apply nth_error_Some; congruence).
      rewrite find3_sorted in * by lia. cbn [t3 t2] in *. lia.
    - intros L [[i j] k] Hi. apply tri_indices_in in Hi. unfold f3qcm_get.
      assert (find3 i j k < t3 r) by (apply find3_bound; lia).
      destruct (nth_error f3 (find3 i j k)) eqn:E; [discriminate|]. apply nth_error_None in E. lia.
  Qed.
  Lemma gauss_quartic_ends r (f4 : list F) : gauss_quartic r f4 <> None <-> t4 r <= List.length f4.
  Proof.
    unfold gauss_quartic. rewrite rows_of_some. split.
    - intros Hx. destruct r as [|r]; [cbn; lia|].
      assert (Hi : In (r, r, r, r) (tetra_indices (S r))) by (apply tetra_indices_in; lia).
      specialize (Hx _ Hi). cbv beta iota in Hx. unfold f4qcm_get in Hx.
      destruct (nth_error f4 (find4 r r r r)) eqn:E; [|now elim Hx].
      assert (find4 r r r r < List.length f4) by (apply nth_error_Some; congruence).
      rewrite find4_sorted in * by lia. cbn [t4 t3 t2] in *. lia.
    - intros L [[[i j] k] l] Hi. apply tetra_indices_in in Hi. unfold f4qcm_get.
      assert (find4 i j k l < t4 r) by (apply find4_bound; lia).
      destruct (nth_error f4 (find4 i j k l)) eqn:E; [discriminate|]. apply nth_error_None in E. lia.
  Qed.
  Lemma to_gauss_ends_lemma r (f3 f4 : list F) : to_gauss r f3 f4 <> None <->
    r * (r + 1) * (r + 2) / 6 <= List.length f3 /\ r * (r + 1) * (r + 2) * (r + 3) / 24 <= List.length f4.
  Proof.
    rewrite t3_div, t4_div, <- gauss_cubic_ends, <- gauss_quartic_ends. unfold to_gauss.
    destruct (gauss_cubic r f3) as [c|]; cbn [obind]; [|tauto].
    destruct (gauss_quartic r f4) as [q|]; cbn [obind]; [|tauto]. split; [intros _; split; discriminate|discriminate].
  Qed.
End Gauss.

Lemma t3_strict m n : m < n -> t3 m < t3 n.
Proof. intros Hm. apply Nat.lt_le_trans with (t3 (S m)); [cbn [t3 t2]; lia|apply t3_mono; lia]. Qed.

Section Saved.
  Context {F I : Type} `{Num F} `{Trig F} `{FText F}.
  Variable sy : symm F I.
  Variables (eig2 : F -> F -> F -> F * F * (F * F)) (eig : (nat -> nat -> F) -> list F * (nat -> nat -> F))
    (fuel : nat) (eprint : nat -> F -> text) (polyad : bool).

  Lemma finish_same_lemma infile t15 t30 t40 t :
    program sy eig2 eig fuel eprint polyad infile t15 t30 t40 = Some t <->
    exists l s, load_input sy infile = Some l /\ run_saved sy eig fuel l t15 t30 t40 = Some s /\
      s_spectro s = l /\ main_finish sy eig2 eprint polyad s = Some t.
  Proof.
    unfold program, run_files, run, run_saved. cbn [derivative_fc2]. cbv zeta.
    destruct (load_input sy infile) as [l|]; cbn [obind]; [|split; [discriminate|intros (l & s & E & _); discriminate]].
    transitivity (exists s, run_saved sy eig fuel l t15 t30 t40 = Some s /\ s_spectro s = l /\ main_finish sy eig2 eprint polyad s = Some t).
    2: { split; [intros (s & E1 & E2 & E3); exists l, s; auto|]. intros (l' & s & E & E1 & E2 & E3). apply some_eq in E as <-. exists s; auto. }
    unfold run_saved. cbv zeta.
    Ltac none := split; [discriminate|intros (s & E & _); discriminate].
    destruct (read_fc2 _ t15) as [fc2|]; cbn [obind]; [|none].
    destruct (read_fc3 _ t30) as [f3x|]; cbn [obind]; [|none].
    destruct (read_fc4 _ t40) as [f4x|]; cbn [obind]; [|none].
    destruct (harmonic _ _ _ _ _) as [[freql lxm]|]; cbn [obind]; [|none].
    destruct (is_sym_top _) as [sym|]; cbn [obind]; [|none].
    match goal with |- context [obind (if sym then ?a else ?b) _] => destruct (if sym then a else b) as [[lxm' lx']|]; cbn [obind]; [|none] end.
    destruct (compute_irreps_in _ _ _ _ _ _) as [irreps|]; cbn [obind]; [|none].
    destruct (force3 _ _ _ _ _) as [f3l|]; cbn [obind]; [|none].
    destruct (force4 _ _ _ _ _) as [f4l|]; cbn [obind]; [|none].
    match goal with |- context [mk_saved ?a ?b ?c ?d ?e ?f ?g] => set (s0 := mk_saved a b c d e f g) end.
    transitivity (main_finish sy eig2 eprint polyad s0 = Some t).
    - unfold main_finish, s0. cbn [s_spectro s_freq s_f3qcm s_f4qcm s_irreps s_lxm s_lx]. cbv zeta.
      destruct (finish _ _ _ _ _ _ _ _ _) as [o|]; cbn [obind]; reflexivity.
    - split; [intros E; exists s0; auto|]. intros (s & E & _ & Es). apply some_eq in E as <-. exact Es.
  Qed.

  Lemma saved_tables l t15 t30 t40 s : run_saved sy eig fuel l t15 t30 t40 = Some s ->
    List.length (s_f3qcm s) = t3 (sz_nvib (l_sizes l)) /\ List.length (s_f4qcm s) = t4 (sz_nvib (l_sizes l)).
  Proof.
    unfold run_saved. cbv zeta. intros E.
    repeat match type of E with obind ?a _ = _ => destruct a as [?x|] eqn:?; [|discriminate]; cbn [obind] in E;
      try match type of E with (let '(_, _) := ?p in _) = _ => destruct p end end.
    apply some_eq in E as <-. cbn [s_f3qcm s_f4qcm].
    repeat match goal with Q : force3 _ _ _ _ _ = Some _ |- _ => apply force3_length in Q
      | Q : force4 _ _ _ _ _ = Some _ |- _ => apply force4_length in Q end.
    rewrite t3_div, t4_div in *. auto.
  Qed.

  Lemma gauss_after_run_lemma infile t15 t30 t40 l s :
    load_input sy infile = Some l -> run_saved sy eig fuel l t15 t30 t40 = Some s ->
    (main_gauss s <> None <-> List.length (s_freq s) <= sz_nvib (l_sizes l)).
  Proof.
    clear eig2 eprint polyad. intros _ E. apply saved_tables in E as (L3 & L4).
    transitivity (to_gauss (List.length (s_freq s)) (s_f3qcm s) (s_f4qcm s) <> None).
    { unfold main_gauss. destruct (to_gauss _ _ _) as [[c q]|]; cbn [obind]; split; congruence. }
    rewrite to_gauss_ends_lemma, t3_div, t4_div, L3, L4. split.
    - intros (A & _). destruct (le_lt_dec (List.length (s_freq s)) (sz_nvib (l_sizes l))) as [Hl|Hl]; [exact Hl|].
      apply t3_strict in Hl. lia.
    - intros Hl. split; [now apply t3_mono|now apply t4_mono].
  Qed.
End Saved.

Local Open Scope R_scope.
Section Never.
  Context {I : Type}.
  Variables (sy : symm R I) (eig : (nat -> nat -> R) -> list R * (nat -> nat -> R)).
  Context `{G0 : Trig R} `{T0 : FText R}.

  Lemma gauss_never_lemma infile t15 t30 t40 (l : loaded R) (d2 : list R) fuel s :
    load_input sy infile = Some l -> numbers t15 = Some d2 ->
    let N := List.length (atoms (l_input l)) in
    let mass q := nth q (masses sy (atoms (l_input l))) 0 in
    (forall q, (q < N)%nat -> 0 < mass q) ->
    List.length d2 = (3 * N * (3 * N))%nat -> symmetric_list (3 * N) d2 ->
    (forall fc2, lists2 (3 * N) d2 fc2 -> solves (3 * N) eig (secular N (l_axes l) fc2 mass)) ->
    run_saved sy eig fuel l t15 t30 t40 = Some s ->
    List.length (s_freq s) = (3 * N)%nat /\ main_gauss s = None.
  Proof.
    intros El E15 N mass Hm L2 Hs Sv E.
    destruct (read_fc2_listed (3 * N) t15 d2 E15 L2 Hs) as (fc2 & R2 & Q2).
    destruct (load_sizes sy infile l El) as (Z1 & Z2 & Z3). fold N in Z1, Z2, Z3.
    assert (S2 : sym2 (3 * N) fc2).
    { intros i j Hi Hj. apply some_eq. rewrite <- (Q2 i j), <- (Q2 j i) by assumption. now apply Hs. }
    destruct (normal_modes_lemma N (l_axes l) fc2 mass eig S2 Hm (Sv fc2 Q2)) as (freq & lxm & Eh & Lf & _).
    assert (L : List.length (s_freq s) = (3 * N)%nat).
    { pose proof E as E'. unfold run_saved in E'. cbv zeta in E'. rewrite Z1, R2 in E'. cbn [obind] in E'.
      assert (Mn : m_natom (molecule_of sy l) = N) by reflexivity.
      assert (Mw : m_w (molecule_of sy l) = mass) by (unfold molecule_of, mass; cbn [m_w]; rewrite nz_R; reflexivity).
      rewrite Mn, Mw, Eh in E'.
      repeat match type of E' with obind ?a _ = _ => destruct a as [?x|] eqn:?; [|discriminate]; cbn [obind] in E';
        try match type of E' with (let '(_, _) := ?p in _) = _ => destruct p end end.
      repeat match goal with Q : Some (freq, lxm) = Some _ |- _ => apply some_eq in Q; injection Q as <- <- end.
      apply some_eq in E'. rewrite <- E'. exact Lf. }
    split; [exact L|]. destruct (main_gauss s) as [t|] eqn:Eg; [|reflexivity]. exfalso.
    assert (Hg : main_gauss s <> None) by congruence.
    eapply gauss_after_run_lemma in Hg; [|exact El|exact E]. rewrite L, Z3 in Hg.
    destruct (is_linear (l_rotor l)); lia.
  Qed.
End Never.

#[local] Existing Instance Rtext.
Lemma gauss_sample : exists l s fuel t,
  load_input sample_symm sample_in = Some l /\
  run_saved sample_symm sample_eig fuel l (listing sample_z2) (listing sample_z3) (listing sample_z4) = Some s /\
  program sample_symm eig_solve sample_eig fuel sample_er false sample_in (listing sample_z2) (listing sample_z3) (listing sample_z4) = Some t /\
  main_finish sample_symm eig_solve sample_er false s = Some t /\
  sz_nvib (l_sizes l) = 3%nat /\ List.length (s_freq s) = 9%nat /\ main_gauss s = None.
Proof.
  destruct sample_program as (fuel & t & Ep). pose proof Ep as Ep'.
  apply finish_same_lemma in Ep as (l & s & El & Es & _ & Ef).
  destruct sample_meets as (l' & El' & H1 & H2 & H3 & H4 & H5 & H6 & H7). rewrite El in El'. apply some_eq in El' as <-.
  destruct sample_numbers as (N1 & N2 & N3 & _).
  destruct (load_sizes sample_symm sample_in l El) as (Z1 & Z2 & Z3). rewrite H3, H1 in Z3.
  destruct (gauss_never_lemma sample_symm sample_eig sample_in (listing sample_z2) (listing sample_z3) (listing sample_z4) l
    (map IZR sample_z2) fuel s El N1) as (L & G).
  { rewrite H3. intros q Hq. rewrite H4 by exact Hq. lra. }
  { rewrite H3. reflexivity. } { rewrite H3. exact sample_symmetric. } { rewrite H3. exact H7. } { exact Es. }
  exists l, s, fuel, t. rewrite H3 in L. repeat split; assumption.
Qed.
