(** Lemmas about the tables of a printed result. *)
From Coq Require Import List ZArith NArith Arith Lia Bool Ascii String Permutation.
From Verif Require Import Num Loops Index ListFacts LoadFacts Text TextFacts Modes ModesFacts StatesFacts Anharm VibRot
  Distort Transform SymAnharm Polyads Report OutputFacts Geom SymRotFacts Finish FinishFacts OutText OutFacts.
Import ListNotations.
Open Scope list_scope.
Open Scope nat_scope.

Definition show (n : nat) : text := show_N (N.of_nat n).

(** what a reader sees of a state: a word for every quantum number, or one word *)
Definition state_words (s : state) : list text :=
  match s with
  | I1st v => map show v
  | I2st [] => []
  | I2st v => [List.concat (map (fun '(a, b) => lit "(" ++ show a ++ lit "," ++ show b ++ lit ")") v)]
  | _ => []
  end.

(** a state with [n] entries of few quanta *)
Definition small_state (n : nat) (s : state) : Prop :=
  match s with
  | I1st v => List.length v = n /\ Forall (fun q => q <= 9) v
  | I2st v => List.length v = n /\ Forall (fun '(a, b) => a <= 9 /\ b <= 9) v
  | _ => False
  end.

(** [block ls title rows after]: after its first occurrence in [ls], the line [title] is
    followed by [rows], an empty line and [after] *)
Definition block (ls : list text) (title : text) (rows after : list text) : Prop :=
  exists before, ls = before ++ title :: rows ++ [] :: after /\ ~ In title before.

(** the [w] characters of a line from column [k] on *)
Definition columns (k w : nat) (l : text) : text := firstn w (skipn k l).

Lemma show_small q : q <= 9 -> List.length (show q) = 1.
Proof. intros Hq. do 10 (destruct q as [|q]; [reflexivity|]). lia. Qed.

Lemma show_solid n : solid (show n).
Proof. apply show_N_solid. Qed.

Lemma pad_length w t : List.length t <= w -> List.length (pad w t) = w.
Proof. intros Ht. unfold pad. rewrite app_length, repeat_length. lia. Qed.
Lemma centre_length w t : List.length t <= w -> List.length (centre w t) = w.
Proof.
  intros Ht. unfold centre. rewrite !app_length, !repeat_length.
  pose proof (Nat.div_le_upper_bound (w - List.length t) 2 (w - List.length t) ltac:(lia) ltac:(lia)). lia.
Qed.

Lemma concat_length {A} k (l : list (list A)) : Forall (fun x => List.length x = k) l ->
  List.length (List.concat l) = k * List.length l.
Proof. induction 1 as [|x l Hx Hl IH]; cbn; [lia|]. rewrite app_length, IH. lia. Qed.

Lemma state_width n s : small_state n s ->
  exists t, state_text s = Some t /\ List.length t = 5 * n.
Proof.
  destruct s as [v|v|v|v u]; cbn [small_state state_text]; cbv zeta; try contradiction; intros [Hl Hv];
    (eexists; split; [reflexivity|]); rewrite (concat_length 5), map_length; try lia.
  - apply Forall_forall. intros x Hx. apply in_map_iff in Hx as (q & <- & Hq). rewrite Forall_forall in Hv.
    apply pad_length. change (List.length (show q) <= 5). rewrite show_small; [lia|auto].
  - apply Forall_forall. intros x Hx. apply in_map_iff in Hx as ([a b] & <- & Hq). rewrite Forall_forall in Hv.
    specialize (Hv _ Hq). cbn beta iota in Hv.
    change (List.length (lit "(" ++ show a ++ lit "," ++ show b ++ lit ")") = 5).
    rewrite !app_length, !show_small by tauto. reflexivity.
Qed.

Lemma words_state n s t rest : small_state n s -> state_text s = Some t ->
  (rest = [] \/ exists r, rest = space :: r) -> words (t ++ rest) = state_words s ++ words rest.
Proof.
  intros Hs Et Hr. destruct s as [v|v|v|v u]; cbn [small_state state_text] in *; cbv zeta in *; try contradiction;
    apply some_eq in Et; subst t; destruct Hs as [_ Hv].
  - cbn [state_words]. induction Hv as [|q v Hq Hv IH]; [reflexivity|]. cbn [map List.concat List.app].
    rewrite <- app_assoc. unfold int5 at 1. change (show_N (N.of_nat q)) with (show q).
    rewrite words_pad; [now rewrite IH|apply show_solid|]. clear IH.
    destruct v as [|q' v]; [cbn [map List.concat List.app]; exact Hr|right]. cbn [map List.concat].
    inversion Hv as [|? ? Hq']; subst. unfold int5 at 1.
    destruct (pad_starts 5 (show_N (N.of_nat q'))) as (r & ->).
    { change (List.length (show q') < 5). rewrite show_small by assumption. lia. }
    cbn [List.app]. eauto.
  - destruct v as [|p v]; [reflexivity|]. cbn [state_words].
    rewrite words_solid; [reflexivity| |exact Hr]. split.
    + cbn [map List.concat]. destruct p as [a b]. discriminate.
    + apply Forall_concat. apply Forall_forall. intros x Hx. apply in_map_iff in Hx as ([a b] & <- & _).
      repeat (apply Forall_app; split); try apply show_solid; repeat constructor.
Qed.

Lemma words_row (l : list (nat * text)) : Forall (fun '(w, t) => solid t /\ List.length t < w) l ->
  words (List.concat (map (fun '(w, t) => pad w t) l)) = map snd l /\
  (List.concat (map (fun '(w, t) => pad w t) l) = [] \/ exists r, List.concat (map (fun '(w, t) => pad w t) l) = space :: r).
Proof.
  induction 1 as [|[w t] l [Hs Ht] Hl [IH1 IH2]]; [split; [reflexivity|now left]|]. cbn [map List.concat snd].
  split.
  - rewrite words_pad; [now rewrite IH1|exact Hs|exact IH2].
  - right. destruct (pad_starts w t Ht) as (r & ->). cbn [List.app]. eauto.
Qed.

Lemma columns_at a b c k w : List.length a = k -> List.length b = w -> columns k w (a ++ b ++ c) = b.
Proof.
  intros <- <-. unfold columns. rewrite skipn_app, skipn_all, Nat.sub_diag. cbn [skipn List.app].
  rewrite firstn_app, firstn_all, Nat.sub_diag. cbn [firstn]. apply app_nil_r.
Qed.

Lemma words_centre w t rest : solid t -> (rest = [] \/ exists r, rest = space :: r) ->
  words (centre w t ++ rest) = t :: words rest.
Proof.
  intros Hs Hr. unfold centre. rewrite <- !app_assoc, words_spaces, words_solid; [|exact Hs|].
  - now rewrite words_spaces.
  - destruct (_ - _ / 2) as [|k]; [exact Hr|right]. cbn [repeat List.app]. eauto.
Qed.

Lemma columns_concat (l : list text) c x w : Forall (fun y => List.length y = w) l -> nth_error l c = Some x ->
  forall a k, List.length a = k -> columns (k + w * c) w (a ++ List.concat l) = x.
Proof.
  intros Hl. revert c. induction Hl as [|y l Hy Hl IH]; intros c Hc a k Ha; [destruct c; discriminate|].
  destruct c as [|c].
  - cbn in Hc. injection Hc as ->. rewrite Nat.mul_0_r, Nat.add_0_r. cbn [List.concat]. now apply columns_at.
  - cbn in Hc. cbn [List.concat]. rewrite app_assoc.
    replace (k + w * S c) with ((k + w) + w * c) by lia. apply IH; [exact Hc|]. rewrite app_length. lia.
Qed.

Section Tables.
  Context {F I : Type} `{N0 : Num F} `{T0 : FText F}.
  Variables (eprint : nat -> F -> text) (ishow : nat -> I -> text) (name : I -> text).
  Hypothesis Pr : prints eprint ishow name.

  (** fewer than [w] characters with [p] decimals *)
  Definition narrow (p w : nat) (x : F) : Prop := List.length (fprint p x) < w.

  Variables (geo ogeo : list text) (rotcon : nat -> F) (o : output F I) (t : text).
  Hypothesis Hg : Forall plain geo.
  Hypothesis Hog : Forall plain ogeo.
  Hypothesis Ht : write_output eprint ishow geo rotcon ogeo o = Some t.

  Lemma not_plain l (x : text) : Forall plain l -> In colon x -> ~ In x l.
  Proof. intros Hl Hx Hi. rewrite Forall_forall in Hl. destruct (Hl _ Hi) as [_ Hc]. now apply Hc. Qed.

  Lemma not_in_app (x : text) a b : ~ In x a -> ~ In x b -> ~ In x (a ++ b).
  Proof. rewrite in_app_iff. tauto. Qed.

  Lemma tl_plain : Forall plain (tl ogeo).
  Proof. destruct Hog; [constructor|assumption]. Qed.

  Ltac absent E1 E2 E3 :=
    lazymatch goal with
    | |- ~ In _ (_ ++ _) => apply not_in_app; absent E1 E2 E3
    | _ => first
        [ apply not_plain; [first [assumption | apply tl_plain | now apply equil_plain with eprint ishow name
            | exact (mode_lines_plain _ _ _ Pr _ _ E1) | exact (rot_lines_plain _ _ _ Pr _ _ E2)
            | exact (coriolis_plain _ _ E3) | apply fermi1_plain | apply fermi2_plain] | assumption]
        | unfold quartic_lines, sextic_lines; cbn [In List.app lit list_ascii_of_string]; intuition discriminate ]
    end.

  Lemma modes_block_lemma :
    (forall l, In l [o_harms (out_lists o); o_funds (out_lists o); o_corrs (out_lists o)] -> Forall (narrow 1 8) l) ->
    exists head rows z after,
      block (lines t) (lit "Vibrational Frequencies (cm-1):") (head :: rows) (z :: after) /\
      words z = [lit "ZPT"; lit "="; fprint 1 (out_zpt o)] /\
      words head = map lit ["Mode"; "Symm"; "Harm"; "Fund"; "Corr"]%string /\
      List.length rows = List.length (o_harms (out_lists o)) /\
      forall k r, nth_error rows k = Some r -> exists i h f c,
        nth_error (o_irreps (out_lists o)) k = Some i /\ nth_error (o_harms (out_lists o)) k = Some h /\
        nth_error (o_funds (out_lists o)) k = Some f /\ nth_error (o_corrs (out_lists o)) k = Some c /\
        words r = [show (k + 1); name i; fprint 1 h; fprint 1 f; fprint 1 c].
  Proof.
    intros Hn.
    destruct (write_lines_lemma _ _ _ Pr _ _ _ _ _ Hg Hog Ht) as (modes & rots & cor & E1 & E2 & E3 & ->).
    assert (E1' := E1).
    unfold mode_lines in E1'. destruct (table (out_lists o)) as [rws|] eqn:Et; [|discriminate]. cbn [obind] in E1'.
    apply some_eq in E1'. destruct (table_lemma (out_lists o)) as [T1 _]. destruct (T1 _ Et) as [L R].
    eexists _, modes, _, _. split; [|split; [|split; [|split]]].
    - eexists ([[]; lit "Transformed Geometry (Å):"] ++ geo
        ++ [[]; lit "Equilibrium Rotational Constants (cm-1):"]
        ++ equil_lines (out_linear o) rotcon
        ++ [lit "Geometry: " ++ hd [] ogeo] ++ tl ogeo).
      split.
      + repeat (rewrite <- !app_assoc; cbn [List.app]). reflexivity.
      + assert (In colon (lit "Vibrational Frequencies (cm-1):")) by (cbn; tauto). absent E1 E2 E3.
    - pose proof (words_pad 8 (fprint 1 (out_zpt o)) [] (f_solid _ _ _ Pr _ _) (or_introl eq_refl)) as W.
      rewrite app_nil_r in W.
      change (lit "ZPT" :: lit "=" :: words (pad 8 (fprint 1 (out_zpt o))) = [lit "ZPT"; lit "="; fprint 1 (out_zpt o)]).
      rewrite W. reflexivity.
    - reflexivity.
    - rewrite <- E1', map_length. exact L.
    - intros k r Hr. rewrite <- E1' in Hr. rewrite nth_error_map in Hr.
      destruct (nth_error rws k) as [w|] eqn:Ew; [|discriminate]. cbn [option_map] in Hr. apply some_eq in Hr. subst r.
      destruct (R _ _ Ew) as (R0 & R1 & R2 & R3 & R4). exists (row_irrep w), (row_harm w), (row_fund w), (row_corr w).
      split; [exact R1|]. split; [exact R2|]. split; [exact R3|]. split; [exact R4|].
      assert (N1 : narrow 1 8 (row_harm w)).
      { assert (Q := Hn _ (or_introl eq_refl)). rewrite Forall_forall in Q. exact (Q _ (nth_error_In _ _ R2)). }
      assert (N2 : narrow 1 8 (row_fund w)).
      { assert (Q := Hn _ (or_intror (or_introl eq_refl))). rewrite Forall_forall in Q. exact (Q _ (nth_error_In _ _ R3)). }
      assert (N3 : narrow 1 8 (row_corr w)).
      { assert (Q := Hn _ (or_intror (or_intror (or_introl eq_refl)))). rewrite Forall_forall in Q. exact (Q _ (nth_error_In _ _ R4)). }
      destruct (print_i _ _ _ Pr (row_irrep w)) as (S1 & _ & j & ->).
      destruct (words_row [(8, fprint 1 (row_harm w)); (8, fprint 1 (row_fund w)); (8, fprint 1 (row_corr w))]) as [W1 W2].
      { flist; (split; [apply (f_solid _ _ _ Pr)|assumption]). }
      cbn [map List.concat snd] in W1, W2. rewrite app_nil_r in W1, W2.
      unfold int5. rewrite words_pad; [|apply show_N_solid|right; cbn [repeat List.app]; eauto].
      rewrite <- app_assoc, words_spaces, words_solid, W1 by assumption. rewrite R0. reflexivity.
  Qed.

  Ltac in_block E1 E2 E3 pre :=
    exists pre; split; [repeat (rewrite <- !app_assoc; cbn [List.app]); reflexivity|];
    match goal with |- ~ In ?x _ => assert (In colon x) by (cbn; tauto) end; absent E1 E2 E3.

  (** the equilibrium rotational constants *)
  Lemma equil_block_lemma : Forall (fun k => narrow 12 20 (rotcon k)) [0; 1; 2] ->
    exists head row after,
      block (lines t) (lit "Equilibrium Rotational Constants (cm-1):") [head; row] after /\
      words head = map lit (if out_linear o then ["B"] else ["A"; "B"; "C"])%string /\
      words row = map (fun k => fprint 12 (rotcon k)) (if out_linear o then [1] else [0; 1; 2]).
  Proof.
    intros Hn.
    destruct (write_lines_lemma _ _ _ Pr _ _ _ _ _ Hg Hog Ht) as (modes & rots & cor & E1 & E2 & E3 & ->).
    assert (W : forall l, incl l [0; 1; 2] ->
      words (List.concat (map (fun k => pad 20 (fprint 12 (rotcon k))) l)) = map (fun k => fprint 12 (rotcon k)) l).
    { intros l Hl. destruct (words_row (map (fun k => (20, fprint 12 (rotcon k))) l)) as [W _].
      { apply Forall_forall. intros [w u] Hw. apply in_map_iff in Hw as (x & Q & Hx). injection Q as <- <-.
        split; [apply (f_solid _ _ _ Pr)|]. rewrite Forall_forall in Hn. apply Hn, Hl, Hx. }
      rewrite !map_map in W. exact W. }
    unfold equil_lines. destruct (out_linear o) eqn:El; cbn [negb].
    - pose proof (W [1]) as W1. cbn [map List.concat] in W1. rewrite app_nil_r in W1.
      eexists (centre 20 (lit "B")), _, _. split; [|split; [|apply W1; intros x [<-|[]]; cbn; auto]]; [|reflexivity].
      in_block E1 E2 E3 ([[]; lit "Transformed Geometry (Å):"] ++ geo ++ [[]]).
    - pose proof (W [0; 1; 2]) as W1. cbn [map List.concat] in W1. rewrite app_nil_r in W1.
      eexists (centre 20 (lit "A") ++ centre 20 (lit "B") ++ centre 20 (lit "C")), _, _.
      split; [|split; [|apply W1; intros x Hx; exact Hx]]; [|reflexivity].
      in_block E1 E2 E3 ([[]; lit "Transformed Geometry (Å):"] ++ geo ++ [[]]).
  Qed.

  Lemma rot_row_lemma n s st (vals : list F) (names : list text) : small_state n s -> state_text s = Some st ->
    List.length names = List.length vals -> Forall (fun x => List.length x = 1) names ->
    let l := st ++ List.concat (map (fun x => pad 12 (fprint 7 x)) vals) in
    let head := centre (5 * n) (lit "State") ++ List.concat (map (fun x => centre 12 x) names) in
    (Forall (narrow 7 12) vals -> words l = state_words s ++ map (fprint 7) vals) /\
    (n <> 0 -> Forall (narrow 7 13) vals -> List.length l = List.length head /\
       columns 0 (5 * n) head = centre (5 * n) (lit "State") /\
       Some (columns 0 (5 * n) l) = state_text s /\
       forall c x y, nth_error vals c = Some x -> nth_error names c = Some y ->
         columns (5 * n + 12 * c) 12 l = pad 12 (fprint 7 x) /\
         columns (5 * n + 12 * c) 12 head = centre 12 y).
  Proof.
    intros Hs Es Ln Hn l head. split.
    - intros Hv. unfold l.
      destruct (words_row (map (fun x => (12, fprint 7 x)) vals)) as [W1 W2].
      { apply Forall_forall. intros [w u] Hw. apply in_map_iff in Hw as (x & Q & Hx). injection Q as <- <-.
        split; [apply (f_solid _ _ _ Pr)|]. rewrite Forall_forall in Hv. now apply Hv. }
      rewrite !map_map in W1, W2. cbn [snd] in W1.
      rewrite (words_state n s st); [|exact Hs|exact Es|exact W2]. f_equal. rewrite W1, map_map. reflexivity.
    - intros Hn0 Hv.
      destruct (state_width n s Hs) as (st' & Q & Lst). rewrite Es in Q. apply some_eq in Q. subst st'.
      assert (P : Forall (fun y => List.length y = 12) (map (fun x => pad 12 (fprint 7 x)) vals)).
      { apply Forall_forall. intros y Hy. apply in_map_iff in Hy as (x & <- & Hx). apply pad_length.
        rewrite Forall_forall in Hv. specialize (Hv _ Hx). unfold narrow in Hv. lia. }
      assert (P' : Forall (fun y => List.length y = 12) (map (fun x => centre 12 x) names)).
      { apply Forall_forall. intros y Hy. apply in_map_iff in Hy as (x & <- & Hx). apply centre_length.
        rewrite Forall_forall in Hn. rewrite (Hn _ Hx). lia. }
      assert (Lc : List.length (centre (5 * n) (lit "State")) = 5 * n) by (apply centre_length; cbn; lia).
      split; [|split; [|split]].
      + unfold l, head. rewrite !app_length, Lst, Lc, (concat_length 12 _ P), (concat_length 12 _ P'), !map_length.
        change (5 * n + 12 * List.length vals = 5 * n + 12 * List.length names). now rewrite Ln.
      + unfold head. exact (columns_at [] _ _ 0 _ eq_refl Lc).
      + rewrite Es. f_equal. unfold l. exact (columns_at [] _ _ 0 _ eq_refl Lst).
      + intros c x y Hx Hy. split.
        * apply columns_concat; [exact P| |exact Lst]. rewrite nth_error_map, Hx. reflexivity.
        * apply columns_concat; [exact P'| |exact Lc]. rewrite nth_error_map, Hy. reflexivity.
  Qed.

  Lemma words_head w (names : list text) : Forall (fun x => solid x /\ List.length x = 1) names ->
    words (centre w (lit "State") ++ List.concat (map (fun x => centre 12 x) names)) = lit "State" :: names.
  Proof.
    intros Hn.
    assert (Q : words (List.concat (map (fun x => centre 12 x) names)) = names /\
      (List.concat (map (fun x => centre 12 x) names) = [] \/
       exists r, List.concat (map (fun x => centre 12 x) names) = space :: r)).
    { induction Hn as [|x l [Hx Lx] Hl [IH1 IH2]]; [split; [reflexivity|now left]|]. cbn [map List.concat]. split.
      - rewrite words_centre by assumption. now rewrite IH1.
      - right. unfold centre. rewrite Lx. cbn [Nat.sub Nat.div Nat.divmod fst repeat List.app]. eauto. }
    destruct Q as [Q1 Q2]. rewrite words_centre; [now rewrite Q1| |exact Q2].
    split; [discriminate|repeat constructor].
  Qed.

  (** the values printed beside a state and the headings *)
  Definition printed_constants (r : rot F) : list F :=
    if out_linear o then [nadd (rot_b r) (out_rot_equil o 1)] else [rot_a r; rot_b r; rot_c r].
  Definition constant_names : list text :=
    map lit (if out_linear o then ["B"] else ["A"; "B"; "C"])%string.

  (** the table of rotational constants *)
  Lemma rots_block_lemma n : out_rots o <> [] ->
    Forall (fun r => small_state n (rot_state r)) (out_rots o) ->
    exists head rows after,
      block (lines t) (lit "Rotational Constants (cm-1):") (head :: rows) after /\
      List.length rows = List.length (out_rots o) /\
      words head = lit "State" :: constant_names /\
      forall k l r, nth_error rows k = Some l -> nth_error (out_rots o) k = Some r ->
        (Forall (narrow 7 12) (printed_constants r) ->
           words l = state_words (rot_state r) ++ map (fprint 7) (printed_constants r)) /\
        (n <> 0 -> Forall (narrow 7 13) (printed_constants r) -> List.length l = List.length head /\
           columns 0 (5 * n) head = centre (5 * n) (lit "State") /\
           Some (columns 0 (5 * n) l) = state_text (rot_state r) /\
           forall c x y, nth_error (printed_constants r) c = Some x -> nth_error constant_names c = Some y ->
             columns (5 * n + 12 * c) 12 l = pad 12 (fprint 7 x) /\
             columns (5 * n + 12 * c) 12 head = centre 12 y).
  Proof.
    intros Hne Hsm.
    destruct (write_lines_lemma _ _ _ Pr _ _ _ _ _ Hg Hog Ht) as (modes & rots & cor & E1 & E2 & E3 & ->).
    assert (Q : exists rows, rots = (centre (5 * n) (lit "State") ++ List.concat (map (fun x => centre 12 x) constant_names)) :: rows /\
      Forall2 (fun r l => exists st, state_text (rot_state r) = Some st /\
        l = st ++ List.concat (map (fun x => pad 12 (fprint 7 x)) (printed_constants r))) (out_rots o) rows).
    { unfold rot_lines in E2. destruct (out_rots o) as [|r0 rs] eqn:Er; [congruence|]. rewrite <- Er in *.
      assert (H0 : state_len (rot_state r0) = Some n).
      { rewrite Er in Hsm. apply Forall_inv in Hsm.
        destruct (rot_state r0); cbn in *; try contradiction; f_equal; tauto. }
      rewrite H0 in E2. cbn [obind] in E2. unfold constant_names, printed_constants.
      destruct (out_linear o); cbn [negb] in E2.
      - destruct (omap _ (linear_rows _ _)) as [rows|] eqn:Eo; [|discriminate]. cbn [obind] in E2.
        apply some_eq in E2. subst rots. apply omap_inv in Eo. exists rows. split.
        { cbn [map List.concat]. now rewrite app_nil_r. }
        unfold linear_rows in Eo. clear - Eo. remember (out_rots o) as l eqn:El. clear El. revert rows Eo.
        induction l as [|r l IH]; intros rows Eo; cbn [map] in Eo; inversion Eo as [|? b ? rows' Hb Hl]; subst; constructor.
        + cbn beta iota in Hb. destruct (state_text (rot_state r)) as [st|]; [|discriminate]. cbn [obind] in Hb.
          apply some_eq in Hb. exists st. split; [reflexivity|]. cbn [map List.concat]. now rewrite app_nil_r.
        + now apply IH.
      - destruct (omap rot_text _) as [rows|] eqn:Eo; [|discriminate]. cbn [obind] in E2.
        apply some_eq in E2. subst rots. apply omap_inv in Eo. exists rows. split.
        { cbn [map List.concat]. now rewrite app_nil_r. }
        clear - Eo. induction Eo as [|r b l rows Hb Hl IH]; constructor; [|exact IH].
        unfold rot_text in Hb. destruct (state_text (rot_state r)) as [st|]; [|discriminate]. cbn [obind] in Hb.
        apply some_eq in Hb. exists st. split; [reflexivity|]. cbn [map List.concat]. now rewrite app_nil_r. }
    destruct Q as (rows & -> & Q).
    eexists _, rows, _. split; [|split; [|split]].
    - in_block E1 E2 E3 ([[]; lit "Transformed Geometry (Å):"] ++ geo
        ++ [[]; lit "Equilibrium Rotational Constants (cm-1):"]
        ++ equil_lines (out_linear o) rotcon
        ++ [lit "Geometry: " ++ hd [] ogeo] ++ tl ogeo
        ++ [lit "Vibrational Frequencies (cm-1):";
            pad 5 (lit "Mode") ++ pad 8 (lit "Symm") ++ pad 8 (lit "Harm") ++ pad 8 (lit "Fund") ++ pad 8 (lit "Corr")]
        ++ modes
        ++ [[]; lit "ZPT = " ++ pad 8 (fprint 1 (out_zpt o)); []]).
    - clear - Q. induction Q; cbn; congruence.
    - apply words_head. unfold constant_names. destruct (out_linear o); cbn [map]; flist;
        (split; [split; [discriminate|repeat constructor]|reflexivity]).
    - intros k l r Hl Hr.
      assert (K : exists st, state_text (rot_state r) = Some st /\
        l = st ++ List.concat (map (fun x => pad 12 (fprint 7 x)) (printed_constants r))).
      { clear - Q Hl Hr. revert k Hl Hr. induction Q as [|a b la lb Hab _ IH]; intros [|k] Hl Hr; try discriminate.
        - cbn in Hl, Hr. injection Hl as <-. injection Hr as <-. exact Hab.
        - exact (IH k Hl Hr). }
      destruct K as (st & Es & ->). apply rot_row_lemma; [|exact Es| |].
      + rewrite Forall_forall in Hsm. apply Hsm. exact (nth_error_In _ _ Hr).
      + unfold constant_names, printed_constants. now destruct (out_linear o).
      + unfold constant_names. destruct (out_linear o); cbn [map]; flist; reflexivity.
  Qed.

  (** the lists of resonances; at most four digits *)
  Definition short (i : nat) : Prop := (N.of_nat i <= 9999)%N.
  Definition short_resonances (r : restst) : Prop :=
    Forall (fun '(i, j, x) => short i /\ short j) (rs_coriolis r) /\
    Forall (fun '(i, j) => short i /\ short j) (rs_fermi1 r) /\
    Forall (fun '(i, j, k) => short i /\ short j /\ short k) (rs_fermi2 r).

  Lemma show_short i : short i -> List.length (show i) < 5.
  Proof. intros Hi. pose proof (show_N_short (N.of_nat i) Hi). unfold show. lia. Qed.

  Lemma words_ints l : Forall (fun i => short i) l -> words (List.concat (map int5 l)) = map show l.
  Proof.
    intros Hl. destruct (words_row (map (fun i => (5, show i)) l)) as [W _].
    { apply Forall_forall. intros [w u] Hw. apply in_map_iff in Hw as (x & Q & Hx). injection Q as <- <-.
      split; [apply show_solid|]. rewrite Forall_forall in Hl. apply show_short, Hl, Hx. }
    rewrite !map_map in W. unfold int5. unfold show in W. rewrite W. reflexivity.
  Qed.

  Lemma resonance_blocks_lemma : short_resonances (out_resonances o) ->
    exists cor f1 f2 after1 after2 after3,
      block (lines t) (lit "Coriolis Resonances:") cor after1 /\
      map words cor = map (fun '(i, j, x) => [show i; show j; nth x (map lit ["A"; "B"; "C"]%string) []]) (rs_coriolis (out_resonances o)) /\
      block (lines t) (lit "Type 1 Fermi Resonances:") f1 after2 /\
      map words f1 = map (fun '(i, j) => [show i; show j]) (rs_fermi1 (out_resonances o)) /\
      block (lines t) (lit "Type 2 Fermi Resonances:") f2 after3 /\
      map words f2 = map (fun '(i, j, k) => [show i; show j; show k]) (rs_fermi2 (out_resonances o)).
  Proof.
    intros (S1 & S2 & S3).
    destruct (write_lines_lemma _ _ _ Pr _ _ _ _ _ Hg Hog Ht) as (modes & rots & cor & E1 & E2 & E3 & ->).
    set (pre := [[]; lit "Transformed Geometry (Å):"] ++ geo
        ++ [[]; lit "Equilibrium Rotational Constants (cm-1):"]
        ++ equil_lines (out_linear o) rotcon
        ++ [lit "Geometry: " ++ hd [] ogeo] ++ tl ogeo
        ++ [lit "Vibrational Frequencies (cm-1):";
            pad 5 (lit "Mode") ++ pad 8 (lit "Symm") ++ pad 8 (lit "Harm") ++ pad 8 (lit "Fund") ++ pad 8 (lit "Corr")]
        ++ modes
        ++ [[]; lit "ZPT = " ++ pad 8 (fprint 1 (out_zpt o)); []; lit "Rotational Constants (cm-1):"]
        ++ rots
        ++ [[]; lit "Quartic Distortion Constants (cm-1):"] ++ quartic_lines (out_quartic o) ++ [[]]
        ++ [lit "Sextic Distortion Constants (cm-1):"] ++ sextic_lines eprint (out_sextic o) ++ [[]; []]).
    eexists cor, (fermi1_lines (out_resonances o)), (fermi2_lines (out_resonances o)), _, _, _.
    split; [|split; [|split; [|split; [|split]]]].
    - exists pre. split; [unfold pre; repeat (rewrite <- !app_assoc; cbn [List.app]); reflexivity|].
      assert (In colon (lit "Coriolis Resonances:")) by (cbn; tauto). unfold pre. absent E1 E2 E3.
    - unfold coriolis_lines in E3. apply omap_inv in E3. clear - E3 S1.
      induction E3 as [|[[i j] x] b l rows Hb Hl IH]; [reflexivity|]. inversion S1 as [|? ? Hij S1']; subst.
      cbn [map]. rewrite IH by assumption. f_equal. cbn beta iota in Hb.
      destruct (axis_text x) as [u|] eqn:Eu; [|discriminate]. cbn [obind] in Hb. apply some_eq in Hb. subst b.
      destruct (words_row [(5, show i); (5, show j); (5, u)]) as [W _].
      { flist; split; try apply show_solid; try (apply show_short; tauto);
          destruct x as [|[|[|x]]]; try discriminate; injection Eu as <-;
          [split; [discriminate|repeat constructor]..|cbn; lia|cbn; lia|cbn; lia]. }
      cbn [map List.concat snd] in W. rewrite app_nil_r in W. unfold int5, show in *. rewrite W.
      destruct x as [|[|[|x]]]; try discriminate; injection Eu as <-; reflexivity.
    - exists (pre ++ [lit "Coriolis Resonances:"] ++ cor ++ [[]]).
      split; [unfold pre; repeat (rewrite <- !app_assoc; cbn [List.app]); reflexivity|].
      assert (In colon (lit "Type 1 Fermi Resonances:")) by (cbn; tauto). unfold pre. absent E1 E2 E3.
    - unfold fermi1_lines. rewrite map_map. apply map_ext_in. intros [i j] Hij. rewrite Forall_forall in S2.
      specialize (S2 _ Hij). cbn beta iota in S2. pose proof (words_ints [i; j]) as W.
      cbn [map List.concat] in W. rewrite app_nil_r in W. apply W. flist; tauto.
    - exists (pre ++ [lit "Coriolis Resonances:"] ++ cor ++ [[]] ++ [lit "Type 1 Fermi Resonances:"] ++ fermi1_lines (out_resonances o) ++ [[]]).
      split; [unfold pre; repeat (rewrite <- !app_assoc; cbn [List.app]); reflexivity|].
      assert (In colon (lit "Type 2 Fermi Resonances:")) by (cbn; tauto). unfold pre. absent E1 E2 E3.
    - unfold fermi2_lines. rewrite map_map. apply map_ext_in. intros [[i j] k] Hij. rewrite Forall_forall in S3.
      specialize (S3 _ Hij). cbn beta iota in S3. pose proof (words_ints [i; j; k]) as W.
      cbn [map List.concat] in W. rewrite app_nil_r in W. apply W. flist; tauto.
  Qed.
End Tables.
