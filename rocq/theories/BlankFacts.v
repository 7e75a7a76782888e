(** Blank lines in the input file. *)
From Coq Require Import List ZArith NArith Arith Bool Ascii String Lia.
From Verif Require Import Num Loops Index ListFacts Text TextFacts SpacingFacts DummyFacts OutFacts.
Import ListNotations.
Open Scope list_scope.
Open Scope nat_scope.

(** ** the specification side *)
Definition keywords : list text := map lit ["SPECTRO"; "GEOM"; "WEIGHT"; "CURVIL"; "DEGMODE"; "CORIOL"]%string.
Definition ordinary (l : text) : Prop := forall k, In k keywords -> contains k l = false.

(** [in_section k a]: the lines [a] end in the section of the keyword [k]: the line of the
    keyword, which has no other keyword and is not the line of the count in another section,
    is followed by ordinary lines *)
Definition in_section (k : text) (a : list text) : Prop :=
  exists a1 h a2, a = a1 ++ h :: a2 /\ contains k h = true /\
    (forall k', In k' keywords -> k' <> k -> contains k' h = false) /\
    (forall p a0, a1 = a0 ++ [p] -> contains (lit "GEOM") p = false /\ contains (lit "WEIGHT") p = false) /\
    Forall ordinary a2 /\ (In k (map lit ["GEOM"; "WEIGHT"]%string) -> a2 <> []).

Section Blank.
  Context {F : Type} `{T0 : FText F}.

  Definition section_of (k : text) (s : section_) : Prop :=
    In (k, s) [(lit "SPECTRO", InHeader); (lit "GEOM", InGeom); (lit "WEIGHT", InWeight); (lit "CURVIL", InCurvil);
               (lit "DEGMODE", InDegmode); (lit "CORIOL", Outside)]%string.

  Lemma ordinary_line (s s' : reading F) l : ordinary l -> read_line s l = Some s' ->
    state s' = state s /\ skip s' = skip s - 1.
  Proof.
    intros Ho E. unfold read_line in E. destruct (0 <? skip s) eqn:Ek; [apply some_eq in E; now subst|].
    apply Nat.ltb_ge in Ek. assert (K0 : skip s = 0) by lia.
    repeat (match type of E with (if contains ?k l then _ else _) = _ =>
      rewrite (Ho k) in E by (unfold keywords; cbn [map In]; tauto) end).
    rewrite K0. cbn [Nat.sub].
    destruct (state s) eqn:Es; cbv zeta in E.
    - destruct (omap parse_Z (words l)); [|discriminate]. cbn [obind] in E. apply some_eq in E. subst s'. cbn. auto.
    - unfold read_geom in E. destruct (words l) as [|n fs]; [discriminate|].
      destruct (fparse n) as [v|]; [|discriminate]. cbn [obind] in E. cbv zeta in E. destruct (f_to_N v =? 0)%N.
      + destruct (omap _ fs) as [[|x [|y [|z [|]]]]|]; try discriminate. cbn [obind] in E. apply some_eq in E. subst s'. cbn. auto.
      + destruct fs as [|x [|y [|z fs]]]; try discriminate.
        destruct (fparse x); [|discriminate]. cbn [obind] in E. destruct (fparse y); [|discriminate]. cbn [obind] in E.
        destruct (fparse z); [|discriminate]. cbn [obind] in E. apply some_eq in E. subst s'. cbn. auto.
    - destruct (words l) as [|x [|y r]]; try discriminate. destruct (parse_N x); [|discriminate]. cbn [obind] in E.
      destruct (fparse y); [|discriminate]. cbn [obind] in E. apply some_eq in E. subst s'. cbn. auto.
    - destruct (omap parse_N (words l)) as [v|]; [|discriminate]. cbn [obind] in E.
      destruct v as [|i [|j [|k [|m [|]]]]]; try discriminate; apply some_eq in E; subst s'; cbn; auto.
    - destruct (omap parse_N (words l)) as [[|i v]|]; [| |discriminate]; cbn [obind] in E; apply some_eq in E; subst s'; cbn; auto.
    - apply some_eq in E. subst s'. auto.
  Qed.

  Lemma skip_one (s s' : reading F) l : skip s <= 1 -> read_line s l = Some s' ->
    skip s' <= 1 /\ (contains (lit "GEOM") l = false -> contains (lit "WEIGHT") l = false -> skip s' = 0).
  Proof.
    intros Hs E. destruct (0 <? skip s) eqn:Ek.
    { unfold read_line in E. rewrite Ek in E. apply some_eq in E. subst s'. cbn. split; lia. }
    assert (Dec : ordinary l \/ exists k, In k keywords /\ contains k l = true).
    { unfold ordinary. generalize keywords. intros ks. induction ks as [|k ks [IH|(k' & A & B)]].
      - left. intros k [].
      - destruct (contains k l) eqn:C; [right; exists k; cbn; auto|]. left. intros k' [<-|Hk]; auto.
      - right. exists k'. cbn. auto. }
    destruct Dec as [Ho|(k & Hk & Ck)].
    - destruct (ordinary_line _ _ _ Ho E) as [_ ->]. lia.
    - unfold read_line in E. rewrite Ek in E.
      repeat match type of E with (if ?c then _ else _) = _ =>
        let C := fresh "C" in destruct c eqn:C; [apply some_eq in E; subst s'; cbn; split; [lia|congruence]|] end.
      exfalso. unfold keywords in Hk. cbn [map In] in Hk. intuition congruence.
  Qed.

  Lemma section_end k a st (c : section_) : section_of k c -> in_section k a ->
    ofold read_line a start = Some st -> state st = c /\ skip st = 0.
  Proof.
    intros Hc (a1 & h & a2 & -> & Ch & Ho & Hp & H2 & Hne) E.
    rewrite ofold_app in E. destruct (ofold read_line a1 start) as [s1|] eqn:E1; [|discriminate]. cbn [obind ofold] in E.
    assert (S1 : skip s1 = 0).
    { destruct a1 as [|p a1 _] using rev_ind; [cbn in E1; apply some_eq in E1; now subst|].
      rewrite ofold_app in E1. destruct (ofold read_line a1 start) as [s0|] eqn:E0; [|discriminate]. cbn [obind ofold] in E1.
      destruct (read_line s0 p) as [s1'|] eqn:Er; [|discriminate]. apply some_eq in E1. subst s1'.
      destruct (Hp p a1 eq_refl) as [P1 P2]. apply (skip_one s0 s1 p); auto.
      clear - E0. assert (Q : forall l (s s' : reading F), skip s <= 1 -> ofold read_line l s = Some s' -> skip s' <= 1).
      { induction l as [|x l IH]; intros s s' Hs E; cbn [ofold] in E; [apply some_eq in E; now subst|].
        destruct (read_line s x) as [s2|] eqn:Er; [|discriminate]. cbn [obind] in E. apply (IH s2 s'); auto.
        now apply (skip_one s s2 x). }
      apply (Q a1 start s0); cbn; auto. }
    destruct (read_line s1 h) as [s2|] eqn:Eh; [|discriminate]. cbn [obind] in E.
    assert (S2 : state s2 = c /\ skip s2 = (if match c with InGeom | InWeight => true | _ => false end then 1 else 0)).
    { unfold read_line in Eh. rewrite S1 in Eh. cbn [Nat.ltb Nat.leb] in Eh.
      unfold section_of in Hc. cbn [In] in Hc.
      repeat destruct Hc as [Hc|Hc]; try contradiction; apply pair_equal_spec in Hc as [<- <-];
      repeat match type of Eh with (if contains ?x h then _ else _) = _ =>
        first [rewrite Ch in Eh | rewrite (Ho x) in Eh; [|unfold keywords; cbn [map In]; tauto|discriminate]] end;
      apply some_eq in Eh; subst s2; cbn; auto. }
    clear Eh S1 Ho Ch Hp E1.
    assert (K : forall l (s s' : reading F), Forall ordinary l -> ofold read_line l s = Some s' ->
      state s' = state s /\ skip s' = skip s - List.length l).
    { induction l as [|x l IH]; intros s s' Hl Ef; cbn [ofold] in Ef; [apply some_eq in Ef; subst; cbn; split; [auto|lia]|].
      destruct (read_line s x) as [s3|] eqn:Er; [|discriminate]. cbn [obind] in Ef.
      apply Forall_cons_iff in Hl as [Hx Hl]. destruct (ordinary_line _ _ _ Hx Er) as [Q1 Q2].
      destruct (IH _ _ Hl Ef) as [Q3 Q4]. rewrite Q3, Q4, Q2. cbn. split; [auto|lia]. }
    destruct (K a2 s2 st H2 E) as [Q1 Q2]. destruct S2 as [S3 S4]. rewrite Q1, Q2, S3, S4. split; [reflexivity|].
    destruct c; try lia; (assert (a2 <> []); [apply Hne|destruct a2; [congruence|cbn; lia]]);
      unfold section_of in Hc; cbn [In] in Hc; repeat destruct Hc as [Hc|Hc]; try contradiction; try discriminate;
      apply pair_equal_spec in Hc as [<- _]; cbn; auto.
  Qed.

  Lemma blank_ordinary l : words l = [] -> ordinary l.
  Proof.
    intros Hl k Hk. rewrite contains_words, Hl; [reflexivity| |];
      unfold keywords in Hk; cbn [map In] in Hk; repeat destruct Hk as [Hk|Hk]; try contradiction; subst k; try discriminate;
      repeat constructor; intros Q; apply blank_is_space in Q; discriminate.
  Qed.

  (** in the header, in the sections of coordinates and outside the sections *)
  Lemma blank_lines_lemma t t' a b l : lines t = a ++ b -> lines t' = a ++ l :: b -> words l = [] ->
    (exists k, In k (map lit ["SPECTRO"; "CURVIL"; "DEGMODE"; "CORIOL"]%string) /\ in_section k a) \/ Forall ordinary a ->
    read (F := F) t' = read t.
  Proof.
    intros Et Et' Hl Hs. unfold read. rewrite Et, Et'. rewrite !ofold_app.
    destruct (ofold read_line a start) as [st|] eqn:Ea; [|reflexivity]. cbn [obind ofold].
    assert (Q : skip st = 0 /\ In (state st) [InHeader; InCurvil; InDegmode; Outside]).
    { destruct Hs as [(k & Hk & Hi)|Ho].
      - assert (exists c, section_of k c /\ In c [InHeader; InCurvil; InDegmode; Outside]) as (c & C1 & C2).
        { unfold section_of. cbn [map In] in Hk |- *. repeat destruct Hk as [<-|Hk]; try contradiction;
            [exists InHeader|exists InCurvil|exists InDegmode|exists Outside]; tauto. }
        destruct (section_end k a st c C1 Hi Ea) as [-> ->]. auto.
      - assert (K : forall l (s s' : reading F), Forall ordinary l -> skip s = 0 -> state s = Outside -> ofold read_line l s = Some s' ->
          skip s' = 0 /\ state s' = Outside).
        { clear. induction l as [|x l IH]; intros s s' Hl Hk Hs E; cbn [ofold] in E; [apply some_eq in E; now subst|].
          destruct (read_line s x) as [s3|] eqn:Er; [|discriminate]. cbn [obind] in E.
          apply Forall_cons_iff in Hl as [Hx Hl]. destruct (ordinary_line _ _ _ Hx Er) as [Q1 Q2].
          apply (IH s3 s'); [exact Hl|rewrite Q2, Hk; reflexivity|congruence|exact E]. }
        destruct (K a start st Ho eq_refl eq_refl Ea) as [-> ->]. split; [reflexivity|cbn; tauto]. }
    destruct Q as [Q1 Q2]. assert (El : read_line st l = Some st).
    { pose proof (blank_ordinary l Hl) as Ho. unfold read_line. rewrite Q1. cbn [Nat.ltb Nat.leb].
      repeat match goal with |- (if contains ?k l then _ else _) = _ => rewrite (Ho k) by (unfold keywords; cbn [map In]; tauto) end.
      rewrite Hl. cbn [In] in Q2. repeat destruct Q2 as [<-|Q2]; try contradiction; cbn [omap ofold obind]; try reflexivity.
      rewrite app_nil_r. destruct st as [cm sta sk r]. cbn in *. unfold with_ret. cbn. now destruct r. }
    now rewrite El.
  Qed.

  (** in the sections of atoms and of masses *)
  Lemma blank_lines_panic_lemma t' a b l : lines t' = a ++ l :: b -> words l = [] ->
    (exists k, In k (map lit ["GEOM"; "WEIGHT"]%string) /\ in_section k a) -> read (F := F) t' = None.
  Proof.
    intros Et' Hl (k & Hk & Hi). unfold read. rewrite Et', ofold_app.
    destruct (ofold read_line a start) as [st|] eqn:Ea; [|reflexivity]. cbn [obind ofold].
    assert (Q : skip st = 0 /\ (state st = InGeom \/ state st = InWeight)).
    { assert (exists c, section_of k c /\ (c = InGeom \/ c = InWeight)) as (c & C1 & C2).
      { unfold section_of. cbn [map In] in Hk |- *. repeat destruct Hk as [<-|Hk]; try contradiction;
          [exists InGeom|exists InWeight]; tauto. }
      destruct (section_end k a st c C1 Hi Ea) as [-> ->]. auto. }
    destruct Q as [Q1 Q2]. pose proof (blank_ordinary l Hl) as Ho. unfold read_line. rewrite Q1. cbn [Nat.ltb Nat.leb].
    repeat match goal with |- context [if contains ?k l then _ else _] => rewrite (Ho k) by (unfold keywords; cbn [map In]; tauto) end.
    unfold read_geom. rewrite Hl. destruct Q2 as [-> | ->]; reflexivity.
  Qed.
End Blank.

(** two hydrogen atoms, and an empty line at the end *)
Lemma blank_lines_refuted_lemma : exists t t' a b l,
  lines t = a ++ b /\ lines t' = a ++ l :: b /\ words l = [] /\
  read (F := Z) t <> None /\ read (F := Z) t' = None.
Proof.
  set (a := map lit ["# SPECTRO ####"; "1 1 1 1 1 1 1 4"; "# GEOM ####"; "2 0"; "1 0 0 0"; "1 0 0 1"]%string).
  exists (unlines a), (unlines (a ++ [[]])), a, [], []. split; [vm_compute; reflexivity|]. split; [vm_compute; reflexivity|].
  split; [reflexivity|]. split; [vm_compute; discriminate|vm_compute; reflexivity].
Qed.
