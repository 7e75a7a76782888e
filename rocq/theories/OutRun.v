(** The results of complete runs can be printed. *)
From Coq Require Import List ZArith NArith Arith Lia Bool Ascii String Permutation SpecFloat.
From Verif Require Import Num Loops Index ListFacts LoadFacts DummyFacts Text TextFacts Modes ModesFacts StatesFacts Anharm VibRot
  Distort Transform SymAnharm Polyads Report OutputFacts Geom VibRotFacts SymRotFacts Finish FinishFacts RunFacts FinishWitness
  OutText OutFacts OutTables.
Import ListNotations.
Open Scope list_scope.
Open Scope nat_scope.

Section Run.
  Context {F I : Type} `{N0 : Num F}.

  Lemma cor_test_axis (freq : nat -> F) zm i j ax lbl c : In c (cor_test freq zm i j ax lbl) -> snd c = lbl.
  Proof. unfold cor_test. destruct (_ && _); [|intros []]. intros [<-|[]]. reflexivity. Qed.

  Lemma coriolis_axes r modes (freq : nat -> F) zm l : coriolis r modes freq zm = Some l ->
    forall c, In c l -> snd c < 3.
  Proof.
    unfold coriolis, collect. intros E c Hc.
    destruct r; try discriminate; cbn [is_prolate] in E; apply some_eq in E; subst l;
      repeat match goal with
      | H : In c (_ ++ _) |- _ => apply in_app_iff in H as [H|H]
      | H : In c (flat_map _ _) |- _ => apply in_flat_map in H as (? & ? & H)
      | H : In c (if _ then _ else _) |- _ => destruct (Nat.eqb _ _) in H
      | H : In c (cor_test _ _ _ _ _ _) |- _ => apply cor_test_axis in H; rewrite H
      | H : In c [] |- _ => destruct H
      end; try lia.
    apply in_range in H1. lia.
  Qed.

  Lemma coriolis_prints (r : restst) : (forall c, In c (rs_coriolis r) -> snd c < 3) -> coriolis_lines r <> None.
  Proof.
    intros Hc. unfold coriolis_lines.
    rewrite (omap_some _ _ (fun '(i, j, x) => int5 i ++ int5 j ++ pad 5 (nth x (map lit ["A"; "B"; "C"]%string) []))).
    { discriminate. }
    intros [[i j] x] Hi. specialize (Hc _ Hi). cbn [snd] in Hc.
    destruct x as [|[|[|x]]]; try reflexivity. lia.
  Qed.
End Run.

Section Printed.
  Context {F I : Type} `{N0 : Num F}.
  Variable eig2 : F -> F -> F -> F * F * (F * F).

  Lemma fund_states_small nvib n1 n2 : Forall (small_state nvib) (fund_states nvib n1 n2).
  Proof.
    unfold fund_states. constructor.
    - cbn. rewrite repeat_length. split; [reflexivity|]. apply Forall_forall. intros q Hq.
      apply repeat_spec in Hq. lia.
    - apply Forall_app. split; apply Forall_forall; intros s Hs; apply in_map_iff in Hs as (p & <- & _); cbn [small_state].
      + unfold unit1. rewrite map_length, seq_length. split; [reflexivity|]. apply Forall_forall. intros q Hq.
        apply in_map_iff in Hq as (a & <- & _). destruct (a =? p); lia.
      + unfold punit1. rewrite map_length, seq_length. split; [reflexivity|]. apply Forall_forall. intros q Hq.
        apply in_map_iff in Hq as (a & <- & _). destruct (a =? p); lia.
  Qed.

  Lemma finish_prints (m : molecule F) (freql f3l f4l : list F) (irreps : list I) lxm lx modes :
    let r := m_rotor m in
    let nvib := m_nvib m in
    let freq i := nth i freql (nz 0) in
    r <> SphericalTop -> r <> NoRotor ->
    deg_modes r nvib freq = Some modes ->
    Permutation (flat_map members modes) (seq 0 nvib) ->
    comparable freq nvib ->
    nvib <= List.length freql -> 0 < m_natom m ->
    (r = AsymmTop -> 2 < nth 7 (m_header m) 4)%Z ->
    n1dm modes + n2dm modes <= List.length irreps ->
    exists o, finish eig2 false m freql f3l f4l irreps lxm lx = Some o /\
      out_rots o <> [] /\ Forall (fun r => small_state (m_nvib m) (rot_state r)) (out_rots o) /\
      forall (T : FText F) eprint ishow geo rotcon ogeo, write_output eprint ishow geo rotcon ogeo o <> None.
  Proof.
    intros r nvib freq H1 H2 Ed Hp C Lf Na Hd Li.
    destruct (finish_total_lemma eig2 m freql f3l f4l irreps lxm lx modes H1 H2 Ed Hp C Lf Na Hd)
      as (o & Eo & Em & L1 & L2 & L3 & Ei & Es).
    exists o. split; [exact Eo|].
    assert (Sm : Forall (fun r => small_state nvib (rot_state r)) (out_rots o)).
    { assert (Q := fund_states_small nvib (n1dm modes) (n2dm modes)). unfold nvib in Q. rewrite <- Es in Q.
      apply Forall_forall. intros x Hx. rewrite Forall_forall in Q. apply Q, in_map, Hx. }
    assert (Ne : out_rots o <> []) by (intros Q; rewrite Q in Es; discriminate).
    split; [exact Ne|]. split; [exact Sm|].
    intros T eprint ishow geo rotcon ogeo. unfold write_output, display.
    destruct (mode_lines ishow o) as [ml|] eqn:E1.
    2:{ exfalso. unfold mode_lines in E1. destruct (table (out_lists o)) eqn:Et; [discriminate|].
        apply table_lemma in Et. rewrite Ei in Et. lia. }
    cbn [obind]. destruct (rot_lines o) as [rl|] eqn:E2.
    2:{ exfalso. unfold rot_lines in E2. destruct (out_rots o) as [|r0 rs] eqn:Er; [congruence|].
        assert (S0 := Forall_inv Sm). cbn beta in S0.
        assert (H0 : state_len (rot_state r0) = Some nvib)
          by (destruct (rot_state r0); cbn in *; try contradiction; f_equal; tauto).
        rewrite H0 in E2. cbn [obind] in E2. rewrite Forall_forall in Sm.
        destruct (negb (out_linear o)).
        - rewrite (omap_some rot_text _ (fun r => match rot_text r with Some x => x | None => [] end)) in E2; [discriminate|].
          intros a Ha. destruct (state_width _ _ (Sm a Ha)) as (st & Q & _). unfold rot_text. now rewrite Q.
        - rewrite (omap_some _ _ (fun '(s, b) => match state_text s with Some x => x ++ pad 12 (fprint 7 b) | None => [] end)) in E2;
            [discriminate|].
          intros [s b] Ha. unfold linear_rows in Ha. apply in_map_iff in Ha as (x & Q & Hx). injection Q as <- <-.
          destruct (state_width _ _ (Sm x Hx)) as (st & Q & _). now rewrite Q. }
    cbn [obind]. destruct (coriolis_lines (out_resonances o)) as [cl|] eqn:E3; [discriminate|].
    exfalso. revert E3. apply coriolis_prints. intros c Hc.
    destruct (finish_inv eig2 m freql f3l f4l irreps lxm lx o Eo) as (sym & x & g & e0 & lev & eng & rows & _ & Er & _).
    unfold restst_new in Er.
    destruct (deg_modes _ _ _) as [md|]; [|discriminate]. cbn [obind] in Er.
    destruct (coriolis _ _ _ _) as [co|] eqn:Ec; [|discriminate]. cbn [obind] in Er.
    do 4 (match type of Er with obind ?a _ = _ => destruct a; [|discriminate] end; cbn [obind] in Er).
    apply some_eq in Er. rewrite <- Er in Hc. cbn [rs_coriolis] in Hc. exact (coriolis_axes _ _ _ _ _ Ec c Hc).
  Qed.
End Printed.

(** ** double precision *)
Section Doubles.
  Context {I : Type}.

  Lemma printed_64_lemma eig2 (m : molecule f64) freql f3l f4l (irreps : list I) lxm lx modes
    (T : FText f64) eprint ishow name geo ogeo :
    let freq i := nth i freql (nz 0) in
    let n := m_nvib m in
    m_rotor m <> SphericalTop -> m_rotor m <> NoRotor ->
    deg_modes (m_rotor m) (m_nvib m) freq = Some modes ->
    Permutation (flat_map members modes) (seq 0 (m_nvib m)) ->
    (forall i j k, i < m_nvib m -> j < m_nvib m -> k < m_nvib m ->
       nsub (nsub (freq i) (freq j)) (freq k) <> S754_nan /\
       nsub (nadd (nopp (freq i)) (freq j)) (freq k) <> S754_nan /\
       nadd (nsub (nopp (freq i)) (freq j)) (freq k) <> S754_nan) ->
    m_nvib m <= List.length freql -> 0 < m_natom m ->
    (m_rotor m = AsymmTop -> 2 < nth 7 (m_header m) 4)%Z ->
    List.length (flat_map get1 modes) + List.length (flat_map get2 modes) <= List.length irreps ->
    0 < n -> prints eprint ishow name -> Forall plain geo -> Forall plain ogeo ->
    exists o t head rows after,
      finish eig2 false m freql f3l f4l irreps lxm lx = Some o /\
      write_output eprint ishow geo (m_rotcon m) ogeo o = Some t /\
      block (lines t) (lit "Rotational Constants (cm-1):") (head :: rows) after /\
      List.length rows = List.length (out_rots o) /\
      forall k l r, nth_error rows k = Some l -> nth_error (out_rots o) k = Some r ->
        Forall (narrow 7 13) (printed_constants o r) ->
        List.length l = List.length head /\
        columns 0 (5 * n) head = centre (5 * n) (lit "State") /\
        Some (columns 0 (5 * n) l) = state_text (rot_state r) /\
        forall c x y, nth_error (printed_constants o r) c = Some x -> nth_error (constant_names o) c = Some y ->
          columns (5 * n + 12 * c) 12 l = pad 12 (fprint 7 x) /\
          columns (5 * n + 12 * c) 12 head = centre 12 y.
  Proof.
    intros freq n H1 H2 Ed Hp Hc Hf Hn Hd Li Hn0 Pr G1 G2.
    assert (Li' : n1dm modes + n2dm modes <= List.length irreps)
      by (rewrite n1dm_len, n2dm_len; unfold nondeg, degs; exact Li).
    destruct (finish_prints eig2 m freql f3l f4l irreps lxm lx modes H1 H2 Ed Hp (comparable_64 _ _ Hc) Hf Hn Hd Li')
      as (o & Eo & Ne & Sm & Wr).
    destruct (write_output eprint ishow geo (m_rotcon m) ogeo o) as [t|] eqn:Et; [|now elim (Wr T eprint ishow geo (m_rotcon m) ogeo)].
    destruct (rots_block_lemma _ _ _ Pr _ _ _ _ _ G1 G2 Et n Ne Sm) as (head & rows & after & B1 & B2 & _ & B3).
    exists o, t, head, rows, after. split; [exact Eo|]. split; [exact Et|]. split; [exact B1|]. split; [exact B2|].
    intros k l r Hl Hr Hv. apply (proj2 (B3 k l r Hl Hr)); [lia|exact Hv].
  Qed.
End Doubles.

Lemma show_inj a b : show a = show b -> a = b.
Proof.
  unfold show. intros E. apply (f_equal parse_digits) in E. rewrite !parse_digits_show in E.
  apply some_eq in E. lia.
Qed.

Section Numbers.
  Context {F I : Type} `{N0 : Num F} `{T0 : FText F}.
  Variables (eprint : nat -> F -> text) (ishow : nat -> I -> text) (name : I -> text).

  (** the numbers of modes in the lists of Fermi resonances are one less than in the table *)
  Lemma resonance_numbers_lemma geo ogeo rotcon (o : output F I) t :
    prints eprint ishow name -> Forall plain geo -> Forall plain ogeo ->
    write_output eprint ishow geo rotcon ogeo o = Some t ->
    (forall l, In l [o_harms (out_lists o); o_funds (out_lists o); o_corrs (out_lists o)] -> Forall (narrow 1 8) l) ->
    short_resonances (out_resonances o) ->
    exists head rows f1 f2 after after1 after2,
      block (lines t) (lit "Vibrational Frequencies (cm-1):") (head :: rows) after /\
      block (lines t) (lit "Type 1 Fermi Resonances:") f1 after1 /\
      block (lines t) (lit "Type 2 Fermi Resonances:") f2 after2 /\
      (forall k r, nth_error rows k = Some r -> hd [] (words r) = show (k + 1)) /\
      map words f1 = map (fun '(i, j) => [show i; show j]) (rs_fermi1 (out_resonances o)) /\
      map words f2 = map (fun '(i, j, k) => [show i; show j; show k]) (rs_fermi2 (out_resonances o)).
  Proof.
    intros Pr G1 G2 Et Hn Hs.
    destruct (modes_block_lemma _ _ _ Pr _ _ _ _ _ G1 G2 Et Hn) as (head & rows & z & after & B1 & _ & _ & _ & B2).
    destruct (resonance_blocks_lemma _ _ _ Pr _ _ _ _ _ G1 G2 Et Hs) as (cor & f1 & f2 & a1 & a2 & a3 & _ & _ & C1 & C2 & C3 & C4).
    exists head, rows, f1, f2, (z :: after), a2, a3. split; [exact B1|]. split; [exact C1|]. split; [exact C3|].
    split; [|split; [exact C2|exact C4]].
    intros k r Hk. destruct (B2 k r Hk) as (i & h & f & c & _ & _ & _ & _ & ->). reflexivity.
  Qed.
End Numbers.

(** the bending mode of water, which the table calls mode 3, is called mode 2 in the list *)
Lemma water_resonances o :
  finish plain2 false water water_freq water_f3 water_f4 [tt; tt; tt] water_lxm water_lxm = Some o ->
  rs_fermi1 (out_resonances o) = [(2, 0); (2, 1)] /\ rs_fermi2 (out_resonances o) = [] /\
  Forall (fun '(i, j, _) => i < 3 /\ j < 3) (rs_coriolis (out_resonances o)).
Proof.
  intros Eo. destruct (finish_inv plain2 _ _ _ _ _ _ _ o Eo) as (sym & x & g & e0 & lev & eng & rows & _ & Er & _).
  match type of Er with ?a = _ => assert (Q : option_map (fun r => (rs_fermi1 r, rs_fermi2 r,
    forallb (fun '(i, j, _) => (i <? 3) && (j <? 3)) (rs_coriolis r))) a = Some ([(2, 0); (2, 1)], [], true))
    by (vm_compute; reflexivity) end.
  rewrite Er in Q. cbn [option_map] in Q. injection Q as Q1 Q2 Q3. split; [exact Q1|]. split; [exact Q2|].
  apply Forall_forall. intros [[i j] k] Hi. rewrite forallb_forall in Q3. specialize (Q3 _ Hi). cbn beta iota in Q3.
  apply andb_true_iff in Q3 as [A B]. apply Nat.ltb_lt in A, B. auto.
Qed.

Lemma water_deg : deg_modes (m_rotor water) (m_nvib water) (fun i => nth i water_freq (nz 0)) = Some (singles 3).
Proof. reflexivity. Qed.
Lemma water_part : Permutation (flat_map members (singles 3)) (seq 0 (m_nvib water)).
Proof. apply Permutation_refl. Qed.
Lemma water_top : m_rotor water <> SphericalTop /\ m_rotor water <> NoRotor.
Proof. split; discriminate. Qed.
Lemma water_sizes : m_nvib water <= List.length water_freq /\ 0 < m_natom water /\
  (m_rotor water = AsymmTop -> 2 < nth 7 (m_header water) 4)%Z /\ n1dm (singles 3) + n2dm (singles 3) <= 3.
Proof. cbn. repeat split; lia. Qed.

Lemma mode_numbers_refuted_lemma :
  exists (m : molecule f64) freql f3l f4l lxm o i j,
    finish plain2 false m freql f3l f4l [tt; tt; tt] lxm lxm = Some o /\
    In (i, j) (rs_fermi1 (out_resonances o)) /\
    forall (T : FText f64) eprint ishow name geo ogeo, prints eprint ishow name -> Forall plain geo -> Forall plain ogeo ->
    (forall l, In l [o_harms (out_lists o); o_funds (out_lists o); o_corrs (out_lists o)] -> Forall (narrow 1 8) l) ->
    exists t head rows f1 after after1 r,
      write_output eprint ishow geo (m_rotcon m) ogeo o = Some t /\
      block (lines t) (lit "Vibrational Frequencies (cm-1):") (head :: rows) after /\
      block (lines t) (lit "Type 1 Fermi Resonances:") f1 after1 /\
      In [show i; show j] (map words f1) /\
      nth_error rows i = Some r /\ hd [] (words r) <> show i.
Proof.
  destruct water_sizes as (W1 & W2 & W3 & W4). destruct water_top as (T1 & T2).
  destruct (finish_prints plain2 water water_freq water_f3 water_f4 [tt; tt; tt] water_lxm water_lxm (singles 3)
    T1 T2 water_deg water_part water_comparable W1 W2 W3 W4) as (o & Eo & Ne & Sm & Wr).
  destruct (water_resonances o Eo) as (R1 & R2 & R3).
  exists water, water_freq, water_f3, water_f4, water_lxm, o, 2, 0. split; [exact Eo|].
  split; [rewrite R1; now left|].
  intros T eprint ishow name geo ogeo Pr G1 G2 Hn.
  destruct (write_output eprint ishow geo (m_rotcon water) ogeo o) as [t|] eqn:Et;
    [|now elim (Wr T eprint ishow geo (m_rotcon water) ogeo)].
  assert (Sh : forall i, i < 3 -> short i) by (intros i Hi; unfold short; lia).
  assert (Hs : short_resonances (out_resonances o)).
  { unfold short_resonances. rewrite R1, R2. split; [|split].
    - eapply Forall_impl; [|exact R3]. intros [[i j] k] [A B]. auto.
    - flist; split; apply Sh; lia.
    - constructor. }
  destruct (modes_block_lemma _ _ _ Pr _ _ _ _ _ G1 G2 Et Hn) as (head & rows & z & after & B1 & _ & _ & Lr & B2).
  destruct (resonance_blocks_lemma _ _ _ Pr _ _ _ _ _ G1 G2 Et Hs) as (cor & f1 & f2 & a1 & a2 & a3 & _ & _ & C1 & C2 & _).
  assert (L3 : List.length (o_harms (out_lists o)) = 3).
  { destruct (finish_total_lemma plain2 water water_freq water_f3 water_f4 [tt; tt; tt] water_lxm water_lxm (singles 3)
      T1 T2 water_deg water_part water_comparable W1 W2 W3) as (o' & Eo' & _ & L1 & _).
    rewrite Eo in Eo'. apply some_eq in Eo'. subst o'. exact L1. }
  destruct (nth_error rows 2) as [r|] eqn:E2; [|apply nth_error_None in E2; lia].
  exists t, head, rows, f1, (z :: after), a2, r. split; [reflexivity|]. split; [exact B1|]. split; [exact C1|].
  split; [rewrite C2, R1; cbn; auto|]. split; [exact E2|].
  destruct (B2 _ _ E2) as (i & h & f & c & _ & _ & _ & _ & ->). cbn [hd]. intros Q. apply show_inj in Q. discriminate.
Qed.

(** all tables of a report at once *)
Section AllTables.
  Context {F I : Type} `{N0 : Num F} `{T0 : FText F}.
  Variables (eprint : nat -> F -> text) (ishow : nat -> I -> text) (name : I -> text).

  Lemma tables_lemma n geo ogeo rotcon (o : output F I) t :
    prints eprint ishow name -> Forall plain geo -> Forall plain ogeo ->
    write_output eprint ishow geo rotcon ogeo o = Some t ->
    out_rots o <> [] -> Forall (fun r => small_state n (rot_state r)) (out_rots o) ->
    (forall l, In l [o_harms (out_lists o); o_funds (out_lists o); o_corrs (out_lists o)] -> Forall (narrow 1 8) l) ->
    Forall (fun k => narrow 12 20 (rotcon k)) [0; 1; 2] ->
    Forall (fun r => Forall (narrow 7 12) (printed_constants o r)) (out_rots o) ->
    short_resonances (out_resonances o) ->
    (exists head rows z after,
      block (lines t) (lit "Vibrational Frequencies (cm-1):") (head :: rows) (z :: after) /\
      words head = map lit ["Mode"; "Symm"; "Harm"; "Fund"; "Corr"]%string /\
      words z = [lit "ZPT"; lit "="; fprint 1 (out_zpt o)] /\
      List.length rows = List.length (o_harms (out_lists o)) /\
      forall k r, nth_error rows k = Some r -> exists i h f c,
        nth_error (o_irreps (out_lists o)) k = Some i /\ nth_error (o_harms (out_lists o)) k = Some h /\
        nth_error (o_funds (out_lists o)) k = Some f /\ nth_error (o_corrs (out_lists o)) k = Some c /\
        words r = [show (k + 1); name i; fprint 1 h; fprint 1 f; fprint 1 c]) /\
    (exists head row after,
      block (lines t) (lit "Equilibrium Rotational Constants (cm-1):") [head; row] after /\
      words head = map lit (if out_linear o then ["B"] else ["A"; "B"; "C"])%string /\
      words row = map (fun k => fprint 12 (rotcon k)) (if out_linear o then [1] else [0; 1; 2])) /\
    (exists head rows after,
      block (lines t) (lit "Rotational Constants (cm-1):") (head :: rows) after /\
      words head = lit "State" :: map lit (if out_linear o then ["B"] else ["A"; "B"; "C"])%string /\
      map words rows = map (fun r => state_words (rot_state r) ++ map (fprint 7) (printed_constants o r)) (out_rots o)) /\
    (exists cor f1 f2 after1 after2 after3,
      block (lines t) (lit "Coriolis Resonances:") cor after1 /\
      map words cor = map (fun '(i, j, x) => [show i; show j; nth x (map lit ["A"; "B"; "C"]%string) []]) (rs_coriolis (out_resonances o)) /\
      block (lines t) (lit "Type 1 Fermi Resonances:") f1 after2 /\
      map words f1 = map (fun '(i, j) => [show i; show j]) (rs_fermi1 (out_resonances o)) /\
      block (lines t) (lit "Type 2 Fermi Resonances:") f2 after3 /\
      map words f2 = map (fun '(i, j, k) => [show i; show j; show k]) (rs_fermi2 (out_resonances o))).
  Proof.
    intros Pr G1 G2 Et Ne Sm Hn He Hr Hs. split; [|split; [|split]].
    - destruct (modes_block_lemma _ _ _ Pr _ _ _ _ _ G1 G2 Et Hn) as (head & rows & z & after & B1 & B2 & B3 & B4).
      exists head, rows, z, after. tauto.
    - exact (equil_block_lemma _ _ _ Pr _ _ _ _ _ G1 G2 Et He).
    - destruct (rots_block_lemma _ _ _ Pr _ _ _ _ _ G1 G2 Et n Ne Sm) as (head & rows & after & B1 & B2 & B3 & B4).
      exists head, rows, after. split; [exact B1|]. split; [exact B3|]. clear B1 Ne Sm.
      assert (Q : forall k l r, nth_error rows k = Some l -> nth_error (out_rots o) k = Some r ->
        words l = state_words (rot_state r) ++ map (fprint 7) (printed_constants o r)).
      { intros k l r Hl Hk. apply (B4 k l r Hl Hk). rewrite Forall_forall in Hr. eapply Hr, nth_error_In, Hk. }
      clear B4 Hr. revert rows B2 Q.
      induction (out_rots o) as [|r rs IH]; intros [|l rows] B2 Q; cbn in B2; try discriminate; [reflexivity|].
      cbn [map]. f_equal; [apply (Q 0); reflexivity|]. apply IH; [lia|]. intros k. apply (Q (S k)).
    - exact (resonance_blocks_lemma _ _ _ Pr _ _ _ _ _ G1 G2 Et Hs).
  Qed.
End AllTables.

(** ** a sample of printing, for the examples: the sign and the exponent *)
#[local] Instance sample_text : FText f64 := {
  fprint := fun _ x => match x with S754_finite s _ e => (if s then lit "-" else []) ++ show_Z e | S754_nan => lit "NaN" | _ => lit "0" end;
  fparse := fun _ => None;
  f_of_N := fun _ => S754_zero false;
  f_to_N := fun _ => 0%N }.
Definition sample_e (p : nat) (x : f64) : text := fprint p x ++ lit "e0".
Definition sample_name (_ : unit) : text := lit "A1".
Definition sample_label (w : nat) (i : unit) : text := pad w (sample_name i).

Ltac chars := match goal with |- Forall ?P ?l => let l' := eval compute in l in change (Forall P l') end; flist.
Lemma sample_f p (x : f64) : fprint p x <> [] /\ Forall number_char (fprint p x).
Proof.
  assert (Z : forall e, show_Z e <> [] /\ Forall number_char (show_Z e)).
  { intros e. destruct (fprint_chars Ztext_ok 0 e) as [_ A]. cbn [fprint Ztext] in A. apply Forall_app in A as [A _]. split; [|exact A].
    unfold show_Z. destruct (e <? 0)%Z; [discriminate|]. apply (show_N_solid (Z.to_N e)). }
  destruct x as [s|s| |s m e]; cbn [fprint sample_text]; try (split; [discriminate|chars; unfold number_char; cbn; tauto]).
  destruct (Z e) as [A B]. split.
  - destruct s; [discriminate|exact A].
  - apply Forall_app. split; [|exact B]. destruct s; [|constructor]. chars. unfold number_char. cbn. tauto.
Qed.
Lemma sample_prints : prints sample_e sample_label sample_name.
Proof.
  constructor.
  - apply sample_f.
  - intros p x. destruct (sample_f p x) as [A B]. unfold sample_e. split.
    + intros Q. apply app_eq_nil in Q. tauto.
    + apply Forall_app. split; [eapply Forall_impl; [|exact B]; auto|]. chars; [now right|left; unfold number_char; cbn; tauto].
  - intros i. split; [split; [discriminate|chars; reflexivity]|]. split; [cbn; intuition discriminate|]. now exists 5.
Qed.

Definition sample_report {I} (m : molecule f64) (o : output f64 I) ishow : option text :=
  write_output sample_e ishow [lit "H 0 0 1"] (m_rotcon m) [lit "H 0 0 1"; lit "O 0 0 0"] o.

(** what the theorems on the tables ask of a result, computed *)
Definition fits (p w : nat) (x : f64) : bool := List.length (fprint p x) <? w.
Definition small_b (n : nat) (s : state) : bool :=
  match s with
  | I1st v => (List.length v =? n) && forallb (fun q => q <=? 9) v
  | I2st v => (List.length v =? n) && forallb (fun '(a, b) => (a <=? 9) && (b <=? 9)) v
  | _ => false
  end.
Definition tables_b (n : nat) (rotcon : nat -> f64) (o : output f64 unit) : bool :=
  negb (match out_rots o with [] => true | _ => false end) &&
  forallb (fun r => small_b n (rot_state r) && forallb (fits 7 12) (printed_constants o r)) (out_rots o) &&
  forallb (forallb (fits 1 8)) [o_harms (out_lists o); o_funds (out_lists o); o_corrs (out_lists o)] &&
  forallb (fun k => fits 12 20 (rotcon k)) [0; 1; 2] &&
  forallb (fun '(i, j, _) => (i <=? 99) && (j <=? 99)) (rs_coriolis (out_resonances o)) &&
  forallb (fun '(i, j) => (i <=? 99) && (j <=? 99)) (rs_fermi1 (out_resonances o)) &&
  forallb (fun '(i, j, k) => (i <=? 99) && (j <=? 99) && (k <=? 99)) (rs_fermi2 (out_resonances o)).

Lemma fits_ok p w l : forallb (fits p w) l = true -> Forall (narrow p w) l.
Proof.
  intros H. apply Forall_forall. intros x Hx. rewrite forallb_forall in H. apply Nat.ltb_lt, H, Hx.
Qed.

Lemma tables_b_ok n rotcon o : tables_b n rotcon o = true ->
  out_rots o <> [] /\ Forall (fun r => small_state n (rot_state r)) (out_rots o) /\
  (forall l, In l [o_harms (out_lists o); o_funds (out_lists o); o_corrs (out_lists o)] -> Forall (narrow 1 8) l) /\
  Forall (fun k => narrow 12 20 (rotcon k)) [0; 1; 2] /\
  Forall (fun r => Forall (narrow 7 12) (printed_constants o r)) (out_rots o) /\
  short_resonances (out_resonances o).
Proof.
  unfold tables_b. intros H. repeat (apply andb_true_iff in H as [H ?]).
  assert (Sh : forall i, (i <=? 99) = true -> short i) by (intros i Hi; apply Nat.leb_le in Hi; unfold short; lia).
  rewrite forallb_forall in *. unfold short_resonances. repeat match goal with |- _ /\ _ => split end.
  - now destruct (out_rots o).
  - apply Forall_forall. intros r Hr. specialize (H5 _ Hr). apply andb_true_iff in H5 as [Q _].
    unfold small_b in Q. destruct (rot_state r) as [v|v|v|v u]; try discriminate; apply andb_true_iff in Q as [A B];
      apply Nat.eqb_eq in A; split; auto; apply Forall_forall; intros x Hx; rewrite forallb_forall in B; specialize (B _ Hx).
    + now apply Nat.leb_le.
    + destruct x as [a b]. apply andb_true_iff in B as [B1 B2]. split; now apply Nat.leb_le.
  - intros l Hl. apply fits_ok. now apply H4.
  - apply Forall_forall. intros k Hk. now apply Nat.ltb_lt, H3.
  - apply Forall_forall. intros r Hr. apply fits_ok. specialize (H5 _ Hr). now apply andb_true_iff in H5.
  - apply Forall_forall. intros [[i j] x] Hx. specialize (H2 _ Hx). cbn beta iota in H2. apply andb_true_iff in H2 as [A B]. auto.
  - apply Forall_forall. intros [i j] Hx. specialize (H1 _ Hx). cbn beta iota in H1. apply andb_true_iff in H1 as [A B]. auto.
  - apply Forall_forall. intros [[i j] k] Hx. pose proof H0 as Q. specialize (Q _ Hx). cbn beta iota in Q.
    apply andb_true_iff in Q as [Q C]. apply andb_true_iff in Q as [A B]. auto.
Qed.

Lemma water_report : exists o t,
  finish plain2 false water water_freq water_f3 water_f4 [tt; tt; tt] water_lxm water_lxm = Some o /\
  sample_report water o sample_label = Some t /\ tables_b 3 (m_rotcon water) o = true /\
  rs_fermi1 (out_resonances o) = [(2, 0); (2, 1)] /\ List.length (lines t) = 77.
Proof.
  assert (Q : (let* o := finish plain2 false water water_freq water_f3 water_f4 [tt; tt; tt] water_lxm water_lxm in
    let* t := sample_report water o sample_label in
    Some (tables_b 3 (m_rotcon water) o, rs_fermi1 (out_resonances o), List.length (lines t))) = Some (true, [(2, 0); (2, 1)], 77))
    by (vm_compute; reflexivity).
  destruct (finish plain2 false water water_freq water_f3 water_f4 [tt; tt; tt] water_lxm water_lxm) as [o|]; [|discriminate].
  cbn [obind] in Q. destruct (sample_report water o sample_label) as [t|] eqn:Et; [|discriminate]. cbn [obind] in Q.
  exists o, t. injection Q as Q1 Q2 Q3. auto.
Qed.
