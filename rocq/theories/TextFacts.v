(** Facts about printing and reading the input file. *)
From Coq Require Import List ZArith NArith Arith Lia Bool Ascii String Decimal DecimalPos DecimalN.
From Verif Require Import Num Loops Index ListFacts LoadFacts Text.
Import ListNotations.
Open Scope list_scope.
Open Scope nat_scope.

(** ** The specification side *)

(** the characters a printed number can contain *)
Definition number_char (c : ascii) : Prop :=
  In c (lit "0123456789-.NaNinf").

(** What is assumed of the standard library's printing and parsing of [f64]:
    a printed number is not empty and made of number characters; it parses, and
    what it parses to prints the same way again; and a whole number up to 2^53
    printed with two decimals truncates to itself. *)
Record float_text {F} `{FText F} : Prop := {
  fprint_chars : forall p x, fprint p x <> [] /\ Forall number_char (fprint p x);
  fprint_parse : forall p x, exists y, fparse (fprint p x) = Some y /\ fprint p y = fprint p x;
  number_back : forall n y, (n <= 9007199254740992)%N ->
    fparse (fprint 2 (f_of_N n)) = Some y -> f_to_N y = n }.
Arguments float_text F {_}.

(** ** Words *)
Lemma space_is : is_space space = true.
Proof. reflexivity. Qed.

Definition solid (t : text) : Prop := t <> [] /\ Forall (fun c => is_space c = false) t.

Lemma words_spaces n t : words (repeat space n ++ t) = words t.
Proof. induction n as [|n IH]; [reflexivity|]. exact IH. Qed.

Lemma words_solid t rest : solid t ->
  (rest = [] \/ exists r, rest = space :: r) -> words (t ++ rest) = t :: words rest.
Proof.
  intros [Hne Hs] Hr. induction Hs as [|c t Hc Ht IH]; [congruence|].
  cbn [Datatypes.app words]. rewrite Hc. destruct t as [|d t'].
  - cbn [Datatypes.app]. destruct Hr as [->|(r & ->)]; [reflexivity|]. reflexivity.
  - cbn [Datatypes.app] in *. inversion Ht as [|? ? Hd]; subst. rewrite Hd.
    rewrite IH by discriminate. reflexivity.
Qed.

Lemma words_pad w t rest : solid t ->
  (rest = [] \/ exists r, rest = space :: r) -> words (pad w t ++ rest) = t :: words rest.
Proof.
  intros Ht Hr. unfold pad. rewrite <- app_assoc, words_spaces. now apply words_solid.
Qed.

Lemma pad_starts w t : List.length t < w -> exists r, pad w t = space :: r.
Proof.
  intros Hl. unfold pad. destruct (w - List.length t) as [|k] eqn:E; [lia|].
  exists (repeat space k ++ t). reflexivity.
Qed.

Lemma int_row_starts l : Forall (fun t => solid t /\ List.length t <= 4) l ->
  int_row l = [] \/ exists r, int_row l = space :: r.
Proof.
  intros Hl. destruct Hl as [|t l [_ Ht] _]; [now left|right].
  unfold int_row. cbn [map List.concat].
  destruct (pad_starts 5 t) as (r & ->); [lia|]. now exists (r ++ List.concat (map (pad 5) l)).
Qed.

Lemma words_int_row l : Forall (fun t => solid t /\ List.length t <= 4) l ->
  words (int_row l) = l.
Proof.
  induction 1 as [|t l [Hs Ht] Hl IH]; [reflexivity|].
  change (int_row (t :: l)) with (pad 5 t ++ int_row l).
  rewrite words_pad; [now rewrite IH|exact Hs|]. now apply int_row_starts.
Qed.

(** ** Integers *)
Lemma undigits_digits u : undigits (digits u) = Some u.
Proof. induction u as [|u IH|u IH|u IH|u IH|u IH|u IH|u IH|u IH|u IH|u IH];
  [reflexivity|cbn [digits undigits]; rewrite IH; reflexivity..]. Qed.

Definition is_digit (c : ascii) : Prop := In c (lit "0123456789").

Lemma digits_chars u : Forall is_digit (digits u).
Proof.
  unfold is_digit. induction u; cbn [digits]; constructor; try assumption; cbn; tauto.
Qed.

Lemma digits_nonempty u : u <> Nil -> digits u <> [].
Proof. destruct u; cbn; congruence. Qed.

Lemma show_N_nonempty n : show_N n <> [].
Proof.
  apply digits_nonempty. intros E.
  destruct n as [|p]; [discriminate|]. cbn in E.
  exact (DecimalPos.Unsigned.to_uint_nonnil p E).
Qed.

Lemma show_N_digits n : Forall is_digit (show_N n).
Proof. apply digits_chars. Qed.

Lemma digit_not_space c : is_digit c -> is_space c = false.
Proof. unfold is_digit. cbn. intros H. repeat destruct H as [<-|H]; reflexivity || destruct H. Qed.

Lemma show_N_solid n : solid (show_N n).
Proof.
  split; [apply show_N_nonempty|]. eapply Forall_impl; [|apply show_N_digits].
  apply digit_not_space.
Qed.

Lemma parse_digits_show n : parse_digits (show_N n) = Some n.
Proof.
  unfold parse_digits. pose proof (show_N_nonempty n) as Hn.
  destruct (show_N n) as [|c r] eqn:E; [congruence|]. rewrite <- E.
  unfold show_N. rewrite undigits_digits. cbn [obind]. now rewrite DecimalN.Unsigned.of_to.
Qed.

Lemma digit_not_sign c : is_digit c -> Ascii.eqb c "+" = false /\ Ascii.eqb c "-" = false.
Proof. unfold is_digit. cbn. intros H. repeat destruct H as [<-|H]; (split; reflexivity) || destruct H. Qed.

Lemma show_N_head n : exists c r, show_N n = c :: r /\ is_digit c.
Proof.
  pose proof (show_N_nonempty n) as Hn. pose proof (show_N_digits n) as Hd.
  destruct (show_N n) as [|c r]; [congruence|]. inversion Hd; subst. eauto.
Qed.

Lemma parse_show_N n : (n <= u64_max)%N -> parse_N (show_N n) = Some n.
Proof.
  intros Hn. unfold parse_N.
  destruct (show_N_head n) as (c & r & E & Hc). rewrite E.
  rewrite (proj1 (digit_not_sign c Hc)). rewrite <- E, parse_digits_show. cbn [obind].
  destruct (N.leb_spec n u64_max); [reflexivity|lia].
Qed.

Lemma parse_show_Z z : (-9223372036854775808 <= z <= 9223372036854775807)%Z ->
  parse_Z (show_Z z) = Some z.
Proof.
  intros Hz. unfold show_Z. destruct (Z.ltb_spec z 0).
  - cbn [parse_Z]. cbv [Ascii.eqb Bool.eqb].
    rewrite parse_digits_show. cbn [obind].
    destruct (N.leb_spec (Z.to_N (- z)) 9223372036854775808); [|lia].
    f_equal. lia.
  - destruct (show_N_head (Z.to_N z)) as (c & r & E & Hc). rewrite E. cbn [parse_Z].
    destruct (digit_not_sign c Hc) as [-> ->]. rewrite <- E, parse_digits_show. cbn [obind].
    destruct (N.leb_spec (Z.to_N z) 9223372036854775807); [|lia]. f_equal. lia.
Qed.

(** every number up to 9999 has at most four digits *)
Lemma short_all :
  forallb (fun k => List.length (show_N (N.of_nat k)) <=? 4) (seq 0 (N.to_nat 10000)) = true.
Proof. vm_compute. reflexivity. Qed.

Lemma show_N_short n : (n <= 9999)%N -> List.length (show_N n) <= 4.
Proof.
  intros Hn. pose proof short_all as H. rewrite forallb_forall in H.
  specialize (H (N.to_nat n)). rewrite N2Nat.id in H. apply Nat.leb_le, H, in_seq. lia.
Qed.

Lemma short_all3 :
  forallb (fun k => List.length (show_N (N.of_nat k)) <=? 3) (seq 0 (N.to_nat 1000)) = true.
Proof. vm_compute. reflexivity. Qed.

Lemma show_Z_short z : (-999 <= z <= 9999)%Z -> List.length (show_Z z) <= 4.
Proof.
  intros Hz. unfold show_Z. destruct (Z.ltb_spec z 0).
  - cbn [List.length]. apply le_n_S.
    pose proof short_all3 as H'. rewrite forallb_forall in H'.
    specialize (H' (N.to_nat (Z.to_N (- z)))). rewrite N2Nat.id in H'.
    apply Nat.leb_le, H', in_seq. lia.
  - apply show_N_short. lia.
Qed.

Lemma show_Z_solid z : solid (show_Z z).
Proof.
  unfold show_Z. destruct (z <? 0)%Z; [|apply show_N_solid].
  split; [discriminate|]. constructor; [reflexivity|]. apply show_N_solid.
Qed.

(** ** Lines *)
Lemma lines_row r rest :
  Forall (fun c => Ascii.eqb c newline = false /\ Ascii.eqb c carriage = false) r ->
  lines (r ++ newline :: rest) = r :: lines rest.
Proof.
  induction 1 as [|c r [Hn Hc] Hr IH].
  - cbn [Datatypes.app lines]. reflexivity.
  - cbn [Datatypes.app lines]. rewrite Hn, Hc. cbn [andb].
    destruct (r ++ newline :: rest) as [|d t] eqn:E.
    + destruct r; discriminate.
    + rewrite IH. reflexivity.
Qed.

Definition one_line (r : text) : Prop :=
  Forall (fun c => Ascii.eqb c newline = false /\ Ascii.eqb c carriage = false) r.

Lemma lines_unlines l : Forall one_line l -> lines (unlines l) = l.
Proof.
  induction 1 as [|r l Hr Hl IH]; [reflexivity|].
  change (unlines (r :: l)) with ((r ++ [newline]) ++ unlines l).
  rewrite <- app_assoc. cbn [Datatypes.app]. now rewrite lines_row, IH.
Qed.

(** ** Keywords *)
Lemma contains_no c k t : ~ In c t -> contains (c :: k) t = false.
Proof.
  induction t as [|d t IH]; intros Hn; [reflexivity|]. cbn [contains starts].
  destruct (Ascii.eqb_spec c d) as [->|Hd].
  - exfalso. apply Hn. now left.
  - cbn [andb orb]. apply IH. intros Hi. apply Hn. now right.
Qed.

(** a row of numbers: number characters and spaces *)
Definition row_char (c : ascii) : Prop := number_char c \/ c = space.

Lemma row_char_not c : row_char c -> forall k, In k (lit "SGWCD") -> c <> k.
Proof.
  intros [Hc| ->]; [|cbn; intros k H; repeat destruct H as [<-|H]; (discriminate || destruct H)].
  unfold number_char in Hc. cbn in Hc.
  repeat destruct Hc as [<-|Hc]; try destruct Hc;
    cbn; intros k H; repeat destruct H as [<-|H]; (discriminate || destruct H).
Qed.

Lemma row_no_keyword r : Forall row_char r ->
  contains (lit "SPECTRO") r = false /\ contains (lit "GEOM") r = false /\
  contains (lit "WEIGHT") r = false /\ contains (lit "CURVIL") r = false /\
  contains (lit "DEGMODE") r = false /\ contains (lit "CORIOL") r = false.
Proof.
  intros Hr. rewrite Forall_forall in Hr.
  assert (Hn : forall k, In k (lit "SGWCD") -> ~ In k r).
  { intros k Hk Hi. exact (row_char_not k (Hr k Hi) k Hk eq_refl). }
  cbn [lit list_ascii_of_string].
  repeat split; apply contains_no, Hn; cbn; tauto.
Qed.

Lemma row_one_line r : Forall row_char r -> one_line r.
Proof.
  apply Forall_impl. intros c [Hc| ->]; [|split; reflexivity].
  unfold number_char in Hc. cbn in Hc.
  repeat destruct Hc as [<-|Hc]; try destruct Hc; split; reflexivity.
Qed.

Lemma digit_row c : is_digit c -> row_char c.
Proof. unfold is_digit, row_char, number_char. cbn. tauto. Qed.

Lemma show_N_row n : Forall row_char (show_N n).
Proof. eapply Forall_impl; [|apply show_N_digits]. apply digit_row. Qed.
Lemma show_Z_row z : Forall row_char (show_Z z).
Proof.
  unfold show_Z. destruct (z <? 0)%Z; [|apply show_N_row].
  constructor; [left; cbn; unfold number_char; cbn; tauto|apply show_N_row].
Qed.
Lemma pad_row w t : Forall row_char t -> Forall row_char (pad w t).
Proof.
  intros Ht. unfold pad. apply Forall_app. split; [|exact Ht].
  apply Forall_forall. intros c Hc. apply repeat_spec in Hc. now right.
Qed.
Lemma int_row_row l : Forall (Forall row_char) l -> Forall row_char (int_row l).
Proof.
  induction 1 as [|t l Ht Hl IH]; [constructor|].
  change (int_row (t :: l)) with (pad 5 t ++ int_row l).
  apply Forall_app. split; [now apply pad_row|exact IH].
Qed.

Lemma number_char_solid c : number_char c -> is_space c = false.
Proof.
  unfold number_char. cbn. intros Hc. repeat destruct Hc as [<-|Hc]; try destruct Hc; reflexivity.
Qed.

(** ** Loops *)
Lemma omap_app {A B} (f : A -> option B) l g acc :
  (forall a, In a l -> f a = Some (g a)) ->
  ofold (fun acc a => let* b := f a in Some (acc ++ [b])) l acc = Some (acc ++ map g l).
Proof.
  revert acc. induction l as [|a l IH]; intros acc Hf; cbn.
  - now rewrite app_nil_r.
  - rewrite (Hf a) by now left. cbn. rewrite IH by (intros; apply Hf; now right).
    now rewrite <- app_assoc.
Qed.

Lemma omap_some {A B} (f : A -> option B) l g :
  (forall a, In a l -> f a = Some (g a)) -> omap f l = Some (map g l).
Proof. intros Hf. exact (omap_app f l g [] Hf). Qed.

Lemma omap_back {A} (f : text -> option A) (g : A -> text) l :
  (forall a, In a l -> f (g a) = Some a) -> omap f (map g l) = Some l.
Proof.
  intros Hf. unfold omap.
  enough (H : forall acc, ofold (fun acc t => let* b := f t in Some (acc ++ [b])) (map g l) acc
                          = Some (acc ++ l)) by exact (H []).
  induction l as [|a l IH]; intros acc; cbn.
  - now rewrite app_nil_r.
  - rewrite (Hf a) by now left. cbn. rewrite IH by (intros; apply Hf; now right).
    now rewrite <- app_assoc.
Qed.

(** the converse: what a successful [omap] returned *)
Lemma omap_inv {A B} (f : A -> option B) l r : omap f l = Some r ->
  Forall2 (fun a b => f a = Some b) l r.
Proof.
  unfold omap.
  enough (H : forall acc r, ofold (fun acc a => let* b := f a in Some (acc ++ [b])) l acc = Some r ->
            exists r', r = acc ++ r' /\ Forall2 (fun a b => f a = Some b) l r').
  { intros Hr. destruct (H [] r Hr) as (r' & -> & Hf). exact Hf. }
  induction l as [|a l IH]; intros acc q; cbn.
  - intros [= <-]. exists []. now rewrite app_nil_r.
  - destruct (f a) as [b|] eqn:E; [|discriminate]. cbn. intros Hq.
    destruct (IH _ _ Hq) as (r' & -> & Hf). exists (b :: r').
    rewrite <- app_assoc. split; [reflexivity|now constructor].
Qed.
