(** Lemmas about the text form of a result. *)
From Coq Require Import List ZArith NArith Arith Lia Bool Ascii String.
From Verif Require Import Num Loops Index ListFacts LoadFacts Text TextFacts Modes ModesFacts StatesFacts Anharm VibRot
  Distort Transform SymAnharm Polyads Report OutputFacts Geom SymRotFacts Finish FinishFacts OutText.
Import ListNotations.
Open Scope list_scope.
Open Scope nat_scope.

Definition colon : ascii := ":"%char.

(** What is assumed of the printing of numbers and labels: a number is not empty and made of
    number characters, with the letter e in the exponential form; a label padded to eight
    columns is its name behind at least one space, without colons. *)
Record prints {F I} `{FText F} (eprint : nat -> F -> text) (ishow : nat -> I -> text) (name : I -> text) : Prop := {
  print_f : forall p x, fprint p x <> [] /\ Forall number_char (fprint p x);
  print_e : forall p x, eprint p x <> [] /\ Forall (fun c => number_char c \/ c = "e"%char) (eprint p x);
  print_i : forall i, solid (name i) /\ ~ In colon (name i) /\
    exists k, ishow 8 i = repeat space (S k) ++ name i }.

(** a line without colon *)
Definition plain (l : text) : Prop := one_line l /\ ~ In colon l.

(** the names of the distortion constants and their printed values *)
Definition labelled {F} `{FText F} (eprint : nat -> F -> text) (q : quartic F) (s : sextic F) : list (text * text) :=
  map (fun '(l, x) => (lit l, fprint 12 x))
    [("Delta  J", delj q); ("Delta JK", deljk q); ("Delta  K", delk q); ("delta  J", sdelj q); ("delta  k", sdelk q);
     ("D J ", dj q); ("D JK", djk q); ("D K ", dk q); ("d 1 ", sd1 q); ("d 2 ", sd2 q); ("De  ", de q)]%string ++
  map (fun '(l, x) => (lit l, eprint 12 x))
    [("Phi  J", phij s); ("Phi JK", phijk s); ("Phi KJ", phikj s); ("Phi  K", phik s);
     ("phi  J", sphij s); ("phi JK", sphijk s); ("phi  k", sphik s);
     ("H  J", hj s); ("H JK", hjk s); ("H KJ", hkj s); ("H  K", hk s);
     ("h  1", h1 s); ("h  2", h2 s); ("h  3", h3 s); ("He  ", he s)]%string.

(** ** characters *)
Lemma solid_one_line t : solid t -> one_line t.
Proof.
  intros [_ Ht]. eapply Forall_impl; [|exact Ht]. intros c Hc. cbn beta in Hc. unfold is_space in Hc.
  cbn [existsb] in Hc. rewrite !orb_false_iff in Hc. tauto.
Qed.
Lemma plain_app a b : plain a -> plain b -> plain (a ++ b).
Proof.
  intros [A1 A2] [B1 B2]. split; [now apply Forall_app|]. rewrite in_app_iff. tauto.
Qed.
Ltac flist := repeat match goal with |- Forall _ (_ :: _) => apply Forall_cons | |- Forall _ [] => apply Forall_nil end.
Ltac papp := match goal with |- plain (_ ++ _) => apply plain_app end.
Lemma plain_nil : plain [].
Proof. split; [constructor|intros []]. Qed.
Lemma plain_concat l : Forall plain l -> plain (List.concat l).
Proof. induction 1; cbn; [apply plain_nil|now apply plain_app]. Qed.
Lemma plain_spaces n : plain (repeat space n).
Proof.
  split.
  - apply Forall_forall. intros c Hc. apply repeat_spec in Hc as ->. split; reflexivity.
  - intros Hc. apply repeat_spec in Hc. discriminate.
Qed.
Lemma plain_pad w t : plain t -> plain (pad w t).
Proof. intros Ht. apply plain_app; [apply plain_spaces|exact Ht]. Qed.
Lemma plain_show n : plain (show_N n).
Proof.
  split; [apply solid_one_line, show_N_solid|]. intros Hc.
  pose proof (show_N_digits n) as Hd. rewrite Forall_forall in Hd. specialize (Hd _ Hc).
  unfold is_digit in Hd. cbn in Hd. repeat destruct Hd as [Hd|Hd]; try discriminate; destruct Hd.
Qed.
Lemma plain_int5 n : plain (int5 n).
Proof. apply plain_pad, plain_show. Qed.
Ltac plain_lit := split; [unfold one_line; repeat constructor|cbn; intuition discriminate].

Lemma some_eq {A} (a b : A) : Some a = Some b -> a = b.
Proof. congruence. Qed.
Lemma plain_state s t : state_text s = Some t -> plain t.
Proof.
  destruct s; cbn [state_text]; cbv zeta; intros E; try discriminate; apply some_eq in E; subst t; apply plain_concat; apply Forall_forall; intros x Hx;
    apply in_map_iff in Hx as (y & <- & _).
  - apply plain_int5.
  - destruct y as [a b]. repeat papp; try apply plain_show; plain_lit.
  - destruct y as [a [b c]]. repeat papp; try apply plain_show; plain_lit.
Qed.

Section Out.
  Context {F I : Type} `{N0 : Num F} `{T0 : FText F}.
  Variables (eprint : nat -> F -> text) (ishow : nat -> I -> text) (name : I -> text).
  Hypothesis Pr : prints eprint ishow name.

  Lemma f_solid p x : solid (fprint p x).
  Proof.
    destruct (print_f _ _ _ Pr p x) as [Hn Hc]. split; [exact Hn|].
    eapply Forall_impl; [|exact Hc]. apply number_char_solid.
  Qed.
  Lemma e_solid p x : solid (eprint p x).
  Proof.
    destruct (print_e _ _ _ Pr p x) as [Hn Hc]. split; [exact Hn|].
    eapply Forall_impl; [|exact Hc]. intros c [Hd| ->]; [now apply number_char_solid|reflexivity].
  Qed.
  Lemma number_not_colon : ~ number_char colon.
  Proof. unfold number_char. cbn. intuition discriminate. Qed.
  Lemma plain_f p x : plain (fprint p x).
  Proof.
    split; [apply solid_one_line, f_solid|]. intros Hc. destruct (print_f _ _ _ Pr p x) as [_ Hf].
    rewrite Forall_forall in Hf. exact (number_not_colon (Hf _ Hc)).
  Qed.
  Lemma plain_e p x : plain (eprint p x).
  Proof.
    split; [apply solid_one_line, e_solid|]. intros Hc. destruct (print_e _ _ _ Pr p x) as [_ Hf].
    rewrite Forall_forall in Hf. destruct (Hf _ Hc) as [Hn|Hn]; [exact (number_not_colon Hn)|discriminate].
  Qed.
  Lemma plain_i i : plain (ishow 8 i).
  Proof.
    destruct (print_i _ _ _ Pr i) as (S1 & S2 & k & ->). apply plain_app; [apply plain_spaces|].
    split; [now apply solid_one_line|exact S2].
  Qed.

  Lemma Forall2_right {A B} (P : A -> B -> Prop) (Q : B -> Prop) l l' :
    Forall2 P l l' -> (forall a b, P a b -> Q b) -> Forall Q l'.
  Proof. induction 1; constructor; eauto. Qed.

  Lemma mode_lines_plain (o : output F I) l : mode_lines ishow o = Some l -> Forall plain l.
  Proof.
    unfold mode_lines. destruct (table (out_lists o)) as [rows|]; [|discriminate]. cbn [obind].
    intros E. apply some_eq in E; rewrite <- E; clear E. apply Forall_forall. intros x Hx. apply in_map_iff in Hx as (r & <- & _).
    repeat papp; try (apply plain_pad, plain_f); [apply plain_int5|apply plain_i].
  Qed.

  Lemma plain_centre w t : plain t -> plain (centre w t).
  Proof. intros Ht. unfold centre. repeat papp; try apply plain_spaces. exact Ht. Qed.

  Lemma rot_lines_plain (o : output F I) l : rot_lines o = Some l -> Forall plain l.
  Proof.
    unfold rot_lines. destruct (out_rots o) as [|r0 rs] eqn:Er.
    { intros E. apply some_eq in E; rewrite <- E; clear E. constructor. }
    destruct (state_len (rot_state r0)) as [n|]; [|discriminate]. cbn [obind].
    destruct (negb (out_linear o)).
    - destruct (omap rot_text (r0 :: rs)) as [rows|] eqn:E; [|discriminate]. cbn [obind].
      intros Q. apply some_eq in Q; rewrite <- Q; clear Q. constructor.
      { repeat papp; apply plain_centre; plain_lit. }
      apply (Forall2_right _ _ _ _ (omap_inv _ _ _ E)). intros r t Ht. unfold rot_text in Ht.
      destruct (state_text (rot_state r)) as [s|] eqn:Es; [|discriminate]. cbn [obind] in Ht. apply some_eq in Ht; rewrite <- Ht; clear Ht.
      repeat papp; try (apply plain_pad, plain_f). exact (plain_state _ _ Es).
    - destruct (omap _ _) as [rows|] eqn:E; [|discriminate]. cbn [obind].
      intros Q. apply some_eq in Q; rewrite <- Q; clear Q. constructor.
      { repeat papp; apply plain_centre; plain_lit. }
      apply (Forall2_right _ _ _ _ (omap_inv _ _ _ E)). intros [s b] t Ht. cbn beta iota in Ht.
      destruct (state_text s) as [u|] eqn:Es; [|discriminate]. cbn [obind] in Ht. apply some_eq in Ht; rewrite <- Ht; clear Ht.
      apply plain_app; [exact (plain_state _ _ Es)|apply plain_pad, plain_f].
  Qed.

  Lemma coriolis_plain r l : coriolis_lines r = Some l -> Forall plain l.
  Proof.
    unfold coriolis_lines. intros E. apply (Forall2_right _ _ _ _ (omap_inv _ _ _ E)).
    intros [[i j] x] t Ht. cbn beta iota in Ht. destruct (axis_text x) as [u|] eqn:Eu; [|discriminate].
    cbn [obind] in Ht. apply some_eq in Ht; rewrite <- Ht; clear Ht. repeat papp; try apply plain_int5. apply plain_pad.
    destruct x as [|[|[|x]]]; cbn in Eu; try discriminate; apply some_eq in Eu; rewrite <- Eu; clear Eu; plain_lit.
  Qed.
  Lemma fermi1_plain r : Forall plain (fermi1_lines r).
  Proof.
    apply Forall_forall. intros x Hx. apply in_map_iff in Hx as ([i j] & <- & _). apply plain_app; apply plain_int5.
  Qed.
  Lemma fermi2_plain r : Forall plain (fermi2_lines r).
  Proof.
    apply Forall_forall. intros x Hx. apply in_map_iff in Hx as ([[i j] k] & <- & _). repeat papp; apply plain_int5.
  Qed.

  (** ** all lines *)
  Definition equil_lines (linear : bool) (rotcon : nat -> F) : list text :=
    if negb linear
    then [centre 20 (lit "A") ++ centre 20 (lit "B") ++ centre 20 (lit "C");
          pad 20 (fprint 12 (rotcon 0)) ++ pad 20 (fprint 12 (rotcon 1)) ++ pad 20 (fprint 12 (rotcon 2)); []]
    else [centre 20 (lit "B"); pad 20 (fprint 12 (rotcon 1)); []].

  Lemma equil_plain linear rotcon : Forall plain (equil_lines linear rotcon).
  Proof.
    unfold equil_lines. destruct (negb linear); flist; try apply plain_nil;
      repeat papp; try (apply plain_pad, plain_f); apply plain_centre; plain_lit.
  Qed.

  Ltac lit_line := unfold one_line; repeat (apply Forall_cons; [split; reflexivity|]); apply Forall_nil.
  Ltac value_line :=
    match goal with
    | |- one_line (lit _ ++ _) => unfold one_line; apply Forall_app; split; [lit_line|]
    | |- one_line _ => lit_line
    end.
  Lemma quartic_one_line q : Forall one_line (quartic_lines q).
  Proof.
    unfold quartic_lines. flist; value_line; apply (proj1 (plain_pad _ _ (plain_f _ _))).
  Qed.
  Lemma sextic_one_line s : Forall one_line (sextic_lines eprint s).
  Proof.
    unfold sextic_lines. flist; value_line; apply (proj1 (plain_pad _ _ (plain_e _ _))).
  Qed.

  Lemma write_lines_lemma geo rotcon ogeo (o : output F I) t :
    Forall plain geo -> Forall plain ogeo ->
    write_output eprint ishow geo rotcon ogeo o = Some t ->
    exists modes rots cor,
      mode_lines ishow o = Some modes /\ rot_lines o = Some rots /\ coriolis_lines (out_resonances o) = Some cor /\
      lines t =
        [[]; lit "Transformed Geometry (Å):"] ++ geo
        ++ [[]; lit "Equilibrium Rotational Constants (cm-1):"]
        ++ equil_lines (out_linear o) rotcon
        ++ [lit "Geometry: " ++ hd [] ogeo] ++ tl ogeo
        ++ [lit "Vibrational Frequencies (cm-1):";
            pad 5 (lit "Mode") ++ pad 8 (lit "Symm") ++ pad 8 (lit "Harm") ++ pad 8 (lit "Fund") ++ pad 8 (lit "Corr")]
        ++ modes
        ++ [[]; lit "ZPT = " ++ pad 8 (fprint 1 (out_zpt o)); []; lit "Rotational Constants (cm-1):"]
        ++ rots
        ++ [[]; lit "Quartic Distortion Constants (cm-1):"] ++ quartic_lines (out_quartic o) ++ [[]]
        ++ [lit "Sextic Distortion Constants (cm-1):"] ++ sextic_lines eprint (out_sextic o) ++ [[]]
        ++ [[]; lit "Coriolis Resonances:"] ++ cor
        ++ [[]; lit "Type 1 Fermi Resonances:"] ++ fermi1_lines (out_resonances o)
        ++ [[]; lit "Type 2 Fermi Resonances:"] ++ fermi2_lines (out_resonances o) ++ [[]].
  Proof.
    intros G1 G2. unfold write_output, display.
    destruct (mode_lines ishow o) as [modes|] eqn:E1; [|discriminate]. cbn [obind].
    destruct (rot_lines o) as [rots|] eqn:E2; [|discriminate]. cbn [obind].
    destruct (coriolis_lines (out_resonances o)) as [cor|] eqn:E3; [|discriminate]. cbn [obind].
    intros E. apply some_eq in E; rewrite <- E; clear E. exists modes, rots, cor. split; [reflexivity|]. split; [reflexivity|]. split; [reflexivity|].
    fold (equil_lines (out_linear o) rotcon).
    assert (PO : forall l, Forall plain l -> Forall one_line l)
      by (intros l Hl; eapply Forall_impl; [|exact Hl]; intros a [Ha _]; exact Ha).
    rewrite lines_unlines.
    2:{ repeat match goal with |- Forall one_line (_ ++ _) => apply Forall_app; split | |- Forall one_line (_ :: _) => apply Forall_cons | |- Forall one_line [] => apply Forall_nil end;
          try (apply PO; assumption || apply equil_plain || apply fermi1_plain || apply fermi2_plain
               || exact (mode_lines_plain _ _ E1) || exact (rot_lines_plain _ _ E2) || exact (coriolis_plain _ _ E3));
          try apply quartic_one_line; try apply sextic_one_line;
          try (lit_line; fail).
        - apply Forall_app; split; [lit_line|]. destruct G2 as [|g ogeo [Hg _] _]; [constructor|exact Hg].
        - apply PO. destruct G2; [constructor|assumption].
        - apply Forall_app; split; [lit_line|apply (proj1 (plain_pad _ _ (plain_f _ _)))]. }
    unfold equil_lines. cbn [List.app]. repeat (rewrite <- !app_assoc; cbn [List.app]). reflexivity.
  Qed.

  (** ** looking up a constant by its name *)
  Lemma starts_in k t : starts k t = true -> forall c, In c k -> In c t.
  Proof.
    revert t. induction k as [|a k IH]; intros t Ht c Hc; [destruct Hc|].
    destruct t as [|b t]; [discriminate|]. cbn [starts] in Ht. apply andb_true_iff in Ht as [Hab Ht].
    apply Ascii.eqb_eq in Hab as ->. destruct Hc as [->|Hc]; [now left|right]. eauto.
  Qed.
  Lemma filter_plain k l : Forall plain l -> In colon k -> filter (starts k) l = [].
  Proof.
    intros Hl Hk. induction Hl as [|t l [_ Ht] _ IH]; [reflexivity|]. cbn [filter].
    destruct (starts k t) eqn:E; [|exact IH]. elim Ht. exact (starts_in _ _ E _ Hk).
  Qed.

  Lemma words_value t : solid t -> words (space :: pad 20 t) = [t].
  Proof.
    intros Ht. change (words (space :: pad 20 t)) with (words (pad 20 t)).
    rewrite <- (app_nil_r (pad 20 t)), words_pad; auto.
  Qed.

  Lemma labelled_lemma geo rotcon ogeo (o : output F I) t :
    Forall plain geo -> Forall plain ogeo ->
    write_output eprint ishow geo rotcon ogeo o = Some t ->
    forall l v, In (l, v) (labelled eprint (out_quartic o) (out_sextic o)) ->
    exists line, filter (starts (l ++ [colon])) (lines t) = [line] /\
      words (skipn (List.length l + 1) line) = [v].
  Proof.
    intros G1 G2 E l v Hl.
    destruct (write_lines_lemma _ _ _ _ _ G1 G2 E) as (modes & rots & cor & E1 & E2 & E3 & ->).
    set (k := l ++ [colon]).
    assert (Hk : In colon k) by (apply in_app_iff; right; now left).
    rewrite !filter_app.
    rewrite (filter_plain k geo), (filter_plain k (equil_lines _ _)), (filter_plain k (tl ogeo)),
      (filter_plain k modes), (filter_plain k rots), (filter_plain k cor), (filter_plain k (fermi1_lines _)),
      (filter_plain k (fermi2_lines _)); try exact Hk; try apply fermi1_plain; try apply fermi2_plain;
      try exact (mode_lines_plain _ _ E1); try exact (rot_lines_plain _ _ E2); try exact (coriolis_plain _ _ E3);
      try apply equil_plain; try assumption.
    2:{ destruct G2; [constructor|assumption]. }
    unfold labelled in Hl. cbn [map List.app] in Hl.
    assert (Hs : solid v).
    { repeat (destruct Hl as [Hl|Hl]; [injection Hl as _ <-; first [apply f_solid|apply e_solid]|]). destruct Hl. }
    exists (k ++ space :: pad 20 v). split.
    2:{ unfold k. rewrite <- app_assoc.
        replace (List.length l + 1) with (List.length (l ++ [colon])) by (rewrite app_length; reflexivity).
        rewrite app_assoc, skipn_app, skipn_all, Nat.sub_diag. cbn [skipn List.app]. now apply words_value. }
    clear E E1 E2 E3 Hs. generalize (hd [] ogeo). intros g. generalize (pad 8 (fprint 1 (out_zpt o))). intros z.
    subst k. cbn [List.app]. unfold quartic_lines, sextic_lines.
    repeat (destruct Hl as [Hl|Hl]; [injection Hl as <- <-;
      repeat (let y := fresh "y" in match goal with |- context [pad 20 ?x] => generalize (pad 20 x); intros y end);
      vm_compute; reflexivity|]).
    destruct Hl.
  Qed.
End Out.
