(** The printed tables can be read back. *)
From Coq Require Import List Arith Lia Ascii String.
From Verif Require Import Num Loops ListFacts Index Text TextFacts RoundFacts SpacingFacts DummyFacts Program ProgramFacts TableText.
Import ListNotations.
Open Scope list_scope.
Open Scope nat_scope.

Section Table.
  Context {F : Type} `{T0 : FText F}.
  Hypothesis L : float_text F.

  Lemma printed_solid p x : solid (fprint p x).
  Proof.
    destruct (fprint_chars L p x) as [Hn Hc]. split; [exact Hn|]. eapply Forall_impl; [|exact Hc]. apply number_char_solid.
  Qed.

  Lemma table_words w p (v : list F) : words (unlines (map (fun x => pad w (fprint p x)) v)) = map (fprint p) v.
  Proof.
    unfold unlines. induction v as [|x v IH]; [reflexivity|]. cbn [map List.concat]. unfold pad at 1.
    rewrite <- !app_assoc, words_spaces. cbn [List.app]. rewrite words_solid_blank by (apply printed_solid || reflexivity).
    now rewrite IH.
  Qed.

  Lemma table_no_tab w p (v : list F) : no_vertical_tab (unlines (map (fun x => pad w (fprint p x)) v)).
  Proof.
    unfold no_vertical_tab, unlines. intros Hin. apply in_concat in Hin as (r & Hr & Hc). rewrite map_map in Hr.
    apply in_map_iff in Hr as (x & <- & _). unfold pad in Hc. rewrite !in_app_iff in Hc. destruct Hc as [[Hc|Hc]|Hc].
    - apply repeat_spec in Hc. discriminate.
    - destruct (printed_solid p x) as [_ Hs]. rewrite Forall_forall in Hs. apply Hs in Hc. discriminate.
    - destruct Hc as [Hc|[]]. discriminate.
  Qed.

  Lemma table_reread_lemma width prec (v : list F) :
    let p := match prec with Some p => p | None => 8 end in
    exists v', load_vec (table_text width prec v) = Some v' /\ numbers (table_text width prec v) = Some v' /\
      Forall2 (fun x y => fparse (fprint p x) = Some y /\ fprint p y = fprint p x) v v' /\
      table_text width prec v' = table_text width prec v /\
      (forall i j k x, f3qcm_get v i j k = Some x -> exists y, f3qcm_get v' i j k = Some y /\ fprint p y = fprint p x) /\
      (forall i j k l x, f4qcm_get v i j k l = Some x -> exists y, f4qcm_get v' i j k l = Some y /\ fprint p y = fprint p x).
  Proof.
    intros p. set (w := match width with Some w => w | None => 16 end).
    assert (E : exists v', omap fparse (map (fprint p) v) = Some v').
    { enough (Ea : forall acc, exists v', ofold (fun acc a => let* b := fparse a in Some (acc ++ [b])) (map (fprint p) v) acc = Some v')
        by apply Ea.
      induction v as [|x v IH]; intros acc; cbn [map ofold]; [eauto|].
      destruct (fprint_parse L p x) as (y & Ey & _). rewrite Ey. cbn [obind]. apply IH. }
    destruct E as (v' & E). pose proof (omap_inv _ _ _ E) as Q.
    assert (Q' : Forall2 (fun x y => fparse (fprint p x) = Some y /\ fprint p y = fprint p x) v v').
    { clear E. revert v' Q. induction v as [|x v IH]; intros v' Q; cbn [map] in Q; inversion Q as [|a b l l' Hab Hl]; subst; constructor.
      - split; [exact Hab|]. destruct (fprint_parse L p x) as (y & Ey & Py). rewrite Ey in Hab. injection Hab as ->. exact Py.
      - now apply IH. }
    assert (G : forall n x, nth_error v n = Some x -> exists y, nth_error v' n = Some y /\ fprint p y = fprint p x).
    { clear Q E. induction Q' as [|x y l l' [_ Hy] _ IH]; intros [|n] z Hz; cbn in *; try discriminate.
      - injection Hz as <-. eauto.
      - now apply IH. }
    exists v'. split; [|split; [|split; [|split; [|split]]]].
    - unfold load_vec, table_text. cbv zeta. fold w. fold p. rewrite ascii_words_same by apply table_no_tab. now rewrite table_words.
    - unfold numbers, table_text. cbv zeta. fold w. fold p. now rewrite table_words.
    - exact Q'.
    - unfold table_text. cbv zeta. fold w. fold p. f_equal. clear G Q E. induction Q' as [|x y l l' [_ Hy] _ IH]; [reflexivity|].
      cbn [map]. now rewrite Hy, IH.
    - intros i j k x. apply G.
    - intros i j k l x. apply G.
  Qed.

  Lemma table_lines_lemma width prec (v : list F) :
    let w := match width with Some w => w | None => 16 end in
    let p := match prec with Some p => p | None => 8 end in
    Forall2 (fun x r => exists n, r = repeat space n ++ fprint p x /\ List.length r = max w (List.length (fprint p x)))
      v (lines (table_text width prec v)).
  Proof.
    intros w p. unfold table_text. cbv zeta. fold w. fold p. rewrite lines_unlines.
    - induction v as [|x v IH]; cbn [map]; constructor; [|exact IH].
      exists (w - List.length (fprint p x)). split; [reflexivity|]. unfold pad. rewrite app_length, repeat_length. lia.
    - apply Forall_forall. intros r Hr. apply in_map_iff in Hr as (x & <- & _). unfold pad, one_line. apply Forall_app. split.
      + apply Forall_forall. intros c Hc. apply repeat_spec in Hc. subst c. split; reflexivity.
      + destruct (printed_solid p x) as [_ Hs]. eapply Forall_impl; [|exact Hs]. intros c Hc. destruct c as [[] [] [] [] [] [] [] []]; try discriminate; split; reflexivity.
  Qed.
End Table.
