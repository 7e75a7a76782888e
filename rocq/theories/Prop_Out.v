(** C108, C109, C110, C111: the text form of a result. *)
From Coq Require Import List ZArith NArith Arith Lia Bool Ascii String Permutation SpecFloat.
From Verif Require Import Num Loops ListFacts Text TextFacts Modes ModesFacts VibRot Distort Polyads Report Geom
  Transform SymAnharm Finish FinishWitness OutText OutFacts OutTables OutRun.
Import ListNotations.
Open Scope list_scope.
Open Scope nat_scope.

(** C108: every distortion constant is found by its name: exactly one line of the report starts
    with the name and a colon, and what follows is the constant and nothing else.  The lines of
    the geometry, which other crates print, must not contain colons. *)
Theorem constants_found_by_name : forall (F I : Type) (N : Num F) (T : FText F) eprint ishow (name : I -> text),
  prints eprint ishow name ->
  forall geo rotcon ogeo (o : output F I) t,
  Forall plain geo -> Forall plain ogeo ->
  write_output eprint ishow geo rotcon ogeo o = Some t ->
  forall l v, In (l, v) (labelled eprint (out_quartic o) (out_sextic o)) ->
  exists line, filter (starts (l ++ [colon])) (lines t) = [line] /\
    words (skipn (List.length l + 1) line) = [v].
Proof. exact (@labelled_lemma). Qed.
Example constants_found_by_name_ex :
  prints (H := sample_text) sample_e sample_label sample_name /\
  Forall plain [lit "H 0 0 1"; lit "O 0 0 0"] /\
  exists o t, finish plain2 false water water_freq water_f3 water_f4 [tt; tt; tt] water_lxm water_lxm = Some o /\
    sample_report water o sample_label = Some t /\
    List.length (labelled (H := sample_text) sample_e (out_quartic o) (out_sextic o)) = 26.
Proof.
  split; [exact sample_prints|]. split; [repeat constructor; cbn; intuition discriminate|].
  destruct water_report as (o & t & A & B & _). exists o, t. auto.
Qed.
Print Assumptions constants_found_by_name.

(** C109: the tables of the report read back word by word *)
Theorem tables_read_back :
  forall (F I : Type) (N : Num F) (T : FText F) eprint ishow (name : I -> text) n geo ogeo rotcon (o : output F I) t,
  prints eprint ishow name -> Forall plain geo -> Forall plain ogeo ->
  write_output eprint ishow geo rotcon ogeo o = Some t ->
  out_rots o <> [] -> Forall (fun r => small_state n (rot_state r)) (out_rots o) ->
  (forall l, In l [o_harms (out_lists o); o_funds (out_lists o); o_corrs (out_lists o)] -> Forall (narrow 1 8) l) ->
  Forall (fun k => narrow 12 20 (rotcon k)) [0; 1; 2] ->
  Forall (fun r => Forall (narrow 7 12) (printed_constants o r)) (out_rots o) ->
  short_resonances (out_resonances o) ->
  (exists head rows z after,
    block (lines t) (lit "Vibrational Frequencies (cm-1):") (head :: rows) (z :: after) /\
    words head = map lit ["Mode"; "Symm"; "Harm"; "Fund"; "Corr"]%string /\
    words z = [lit "ZPT"; lit "="; fprint 1 (out_zpt o)] /\
    List.length rows = List.length (o_harms (out_lists o)) /\
    forall k r, nth_error rows k = Some r -> exists i h f c,
      nth_error (o_irreps (out_lists o)) k = Some i /\ nth_error (o_harms (out_lists o)) k = Some h /\
      nth_error (o_funds (out_lists o)) k = Some f /\ nth_error (o_corrs (out_lists o)) k = Some c /\
      words r = [show (k + 1); name i; fprint 1 h; fprint 1 f; fprint 1 c]) /\
  (exists head row after,
    block (lines t) (lit "Equilibrium Rotational Constants (cm-1):") [head; row] after /\
    words head = map lit (if out_linear o then ["B"] else ["A"; "B"; "C"])%string /\
    words row = map (fun k => fprint 12 (rotcon k)) (if out_linear o then [1] else [0; 1; 2])) /\
  (exists head rows after,
    block (lines t) (lit "Rotational Constants (cm-1):") (head :: rows) after /\
    words head = lit "State" :: map lit (if out_linear o then ["B"] else ["A"; "B"; "C"])%string /\
    map words rows = map (fun r => state_words (rot_state r) ++ map (fprint 7) (printed_constants o r)) (out_rots o)) /\
  (exists cor f1 f2 after1 after2 after3,
    block (lines t) (lit "Coriolis Resonances:") cor after1 /\
    map words cor = map (fun '(i, j, x) => [show i; show j; nth x (map lit ["A"; "B"; "C"]%string) []]) (rs_coriolis (out_resonances o)) /\
    block (lines t) (lit "Type 1 Fermi Resonances:") f1 after2 /\
    map words f1 = map (fun '(i, j) => [show i; show j]) (rs_fermi1 (out_resonances o)) /\
    block (lines t) (lit "Type 2 Fermi Resonances:") f2 after3 /\
    map words f2 = map (fun '(i, j, k) => [show i; show j; show k]) (rs_fermi2 (out_resonances o))).
Proof. exact (@tables_lemma). Qed.
Example tables_read_back_ex :
  exists o t, finish plain2 false water water_freq water_f3 water_f4 [tt; tt; tt] water_lxm water_lxm = Some o /\
    sample_report water o sample_label = Some t /\
    out_rots o <> [] /\ Forall (fun r => small_state 3 (rot_state r)) (out_rots o) /\
    (forall l, In l [o_harms (out_lists o); o_funds (out_lists o); o_corrs (out_lists o)] -> Forall (narrow (T0 := sample_text) 1 8) l) /\
    Forall (fun k => narrow (T0 := sample_text) 12 20 (m_rotcon water k)) [0; 1; 2] /\
    Forall (fun r => Forall (narrow (T0 := sample_text) 7 12) (printed_constants o r)) (out_rots o) /\
    short_resonances (out_resonances o).
Proof.
  destruct water_report as (o & t & A & B & C & _). exists o, t. split; [exact A|]. split; [exact B|].
  exact (tables_b_ok _ _ _ C).
Qed.
Print Assumptions tables_read_back.

(** C110: every molecule [finish] accepts is printed without panic (in double precision, as many
    labels as rows), and each number of the table of rotational constants stands below its
    heading *)
Theorem report_printed : forall (I : Type) eig2 (m : molecule f64) freql f3l f4l (irreps : list I) lxm lx modes
  (T : FText f64) eprint ishow (name : I -> text) geo ogeo,
  let freq i := nth i freql (nz 0) in
  let n := m_nvib m in
  m_rotor m <> SphericalTop -> m_rotor m <> NoRotor ->
  deg_modes (m_rotor m) (m_nvib m) freq = Some modes ->
  Permutation (flat_map members modes) (seq 0 (m_nvib m)) ->
  (forall i j k, i < m_nvib m -> j < m_nvib m -> k < m_nvib m ->
     nsub (nsub (freq i) (freq j)) (freq k) <> S754_nan /\
     nsub (nadd (nopp (freq i)) (freq j)) (freq k) <> S754_nan /\
     nadd (nsub (nopp (freq i)) (freq j)) (freq k) <> S754_nan) ->
  m_nvib m <= List.length freql -> 0 < m_natom m ->
  (m_rotor m = AsymmTop -> 2 < nth 7 (m_header m) 4)%Z ->
  List.length (flat_map get1 modes) + List.length (flat_map get2 modes) <= List.length irreps ->
  0 < n -> prints eprint ishow name -> Forall plain geo -> Forall plain ogeo ->
  exists o t head rows after,
    finish eig2 false m freql f3l f4l irreps lxm lx = Some o /\
    write_output eprint ishow geo (m_rotcon m) ogeo o = Some t /\
    block (lines t) (lit "Rotational Constants (cm-1):") (head :: rows) after /\
    List.length rows = List.length (out_rots o) /\
    forall k l r, nth_error rows k = Some l -> nth_error (out_rots o) k = Some r ->
      Forall (narrow 7 13) (printed_constants o r) ->
      List.length l = List.length head /\
      columns 0 (5 * n) head = centre (5 * n) (lit "State") /\
      Some (columns 0 (5 * n) l) = state_text (rot_state r) /\
      forall c x y, nth_error (printed_constants o r) c = Some x -> nth_error (constant_names o) c = Some y ->
        columns (5 * n + 12 * c) 12 l = pad 12 (fprint 7 x) /\
        columns (5 * n + 12 * c) 12 head = centre 12 y.
Proof. exact (@printed_64_lemma). Qed.
Example report_printed_ex :
  deg_modes (m_rotor oblate) 3 (fun i => nth i oblate_freq (nz 0)) = Some [I2 1 2; I1 0] /\
  Permutation (flat_map members [I2 1 2; I1 0]) (seq 0 3) /\
  List.length (flat_map get1 [I2 1 2; I1 0]) + List.length (flat_map get2 [I2 1 2; I1 0]) <= List.length [tt; tt; tt] /\
  0 < m_nvib oblate <= List.length oblate_freq /\
  prints (H := sample_text) sample_e sample_label sample_name.
Proof.
  split; [exact oblate_modes|]. split; [apply (Permutation_app_comm [1; 2] [0])|]. split; [cbn; lia|]. split; [cbn; lia|].
  exact sample_prints.
Qed.
Print Assumptions report_printed.

(** C111: modes do not have the same numbers everywhere in the report: in the lists of Fermi
    resonances they are counted from zero, in the table of frequencies from one *)
Theorem mode_numbers_refuted :
  exists (m : molecule f64) freql f3l f4l lxm o i j,
    finish plain2 false m freql f3l f4l [tt; tt; tt] lxm lxm = Some o /\
    In (i, j) (rs_fermi1 (out_resonances o)) /\
    forall (T : FText f64) eprint ishow name geo ogeo, prints eprint ishow name -> Forall plain geo -> Forall plain ogeo ->
    (forall l, In l [o_harms (out_lists o); o_funds (out_lists o); o_corrs (out_lists o)] -> Forall (narrow 1 8) l) ->
    exists t head rows f1 after after1 r,
      write_output eprint ishow geo (m_rotcon m) ogeo o = Some t /\
      block (lines t) (lit "Vibrational Frequencies (cm-1):") (head :: rows) after /\
      block (lines t) (lit "Type 1 Fermi Resonances:") f1 after1 /\
      In [show i; show j] (map words f1) /\
      nth_error rows i = Some r /\ hd [] (words r) <> show i.
Proof. exact mode_numbers_refuted_lemma. Qed.
Example mode_numbers_refuted_ex :
  exists o t, finish plain2 false water water_freq water_f3 water_f4 [tt; tt; tt] water_lxm water_lxm = Some o /\
    sample_report water o sample_label = Some t /\
    (forall l, In l [o_harms (out_lists o); o_funds (out_lists o); o_corrs (out_lists o)] -> Forall (narrow (T0 := sample_text) 1 8) l) /\
    rs_fermi1 (out_resonances o) = [(2, 0); (2, 1)].
Proof.
  destruct water_report as (o & t & A & B & C & D & _). exists o, t. split; [exact A|]. split; [exact B|].
  split; [apply (tables_b_ok _ _ _ C)|exact D].
Qed.
Print Assumptions mode_numbers_refuted.

(** what holds: the numbers in the lists are the indices of the modes, one less than the number
    in the row of the mode *)
Theorem mode_numbers_partial :
  forall (F I : Type) (N : Num F) (T : FText F) eprint ishow (name : I -> text) geo ogeo rotcon (o : output F I) t,
  prints eprint ishow name -> Forall plain geo -> Forall plain ogeo ->
  write_output eprint ishow geo rotcon ogeo o = Some t ->
  (forall l, In l [o_harms (out_lists o); o_funds (out_lists o); o_corrs (out_lists o)] -> Forall (narrow 1 8) l) ->
  short_resonances (out_resonances o) ->
  exists head rows f1 f2 after after1 after2,
    block (lines t) (lit "Vibrational Frequencies (cm-1):") (head :: rows) after /\
    block (lines t) (lit "Type 1 Fermi Resonances:") f1 after1 /\
    block (lines t) (lit "Type 2 Fermi Resonances:") f2 after2 /\
    (forall k r, nth_error rows k = Some r -> hd [] (words r) = show (k + 1)) /\
    map words f1 = map (fun '(i, j) => [show i; show j]) (rs_fermi1 (out_resonances o)) /\
    map words f2 = map (fun '(i, j, k) => [show i; show j; show k]) (rs_fermi2 (out_resonances o)).
Proof. exact (@resonance_numbers_lemma). Qed.
Example mode_numbers_partial_ex :
  exists o t, finish plain2 false water water_freq water_f3 water_f4 [tt; tt; tt] water_lxm water_lxm = Some o /\
    sample_report water o sample_label = Some t /\ short_resonances (out_resonances o) /\
    rs_fermi1 (out_resonances o) = [(2, 0); (2, 1)].
Proof.
  destruct water_report as (o & t & A & B & C & D & _). exists o, t. split; [exact A|]. split; [exact B|].
  split; [apply (tables_b_ok _ _ _ C)|exact D].
Qed.
Print Assumptions mode_numbers_partial.
