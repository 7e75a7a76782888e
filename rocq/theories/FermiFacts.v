(** Lemmas about the two-level treatment of Fermi resonances. *)
From Coq Require Import Reals Lra List ZArith Arith Permutation Lia Bool.
From Verif Require Import Num Loops Index Modes ListFacts IndexFacts ModesFacts StatesFacts ResFacts
  ResWitness Anharm AnharmFacts EnergyFacts.
Import ListNotations.
Open Scope nat_scope.

(** ** which resonances are treated *)
Section Ops.
  Variables (c : fermi_checks) (modes : list mode) (t : tables).
  Let n1 := n1dm modes.
  Let n2 := n2dm modes.
  Let a := m1 modes.
  Let e ii := fst (m2 modes ii).

  Definition is_rs1 (i : nat) (deg : bool) (o : fermi_op) : Prop :=
    exists j st st', ifrm1 c i = Some j /\ nth_error (t_ovrtn t) i = Some st /\
      nth_error (t_funda t) j = Some st' /\ o = Rs1 st st' i j deg.
  Definition is_rs2 (i j : nat) (found : option nat) (o : fermi_op) : Prop :=
    exists k st st', found = Some k /\ nth_error (t_combn t) (pair_index i j) = Some st /\
      nth_error (t_funda t) k = Some st' /\ o = Rs2 st st' i j k.

  Let rs1 ivib deg :=
    match ifrm1 c ivib with
    | Some jvib => let* ist := nth_error (t_ovrtn t) ivib in
                   let* jst := nth_error (t_funda t) jvib in
                   Some [Rs1 ist jst ivib jvib deg]
    | None => Some []
    end.
  Let rs2 ivib jvib (k : option nat) :=
    match k with
    | Some kvib => let* ijst := nth_error (t_combn t) (pair_index ivib jvib) in
                   let* kst := nth_error (t_funda t) kvib in
                   Some [Rs2 ijst kst ivib jvib kvib]
    | None => Some []
    end.
  Lemma rs1_in i deg r o : rs1 i deg = Some r -> (In o r <-> is_rs1 i deg o).
  Proof.
    unfold rs1, is_rs1. destruct (ifrm1 c i) as [j|].
    - destruct (nth_error (t_ovrtn t) i) as [st|]; cbn [obind]; [|discriminate].
      destruct (nth_error (t_funda t) j) as [st'|] eqn:E; cbn [obind]; [|discriminate].
      intros Q. injection Q as <-. split.
      + intros [<-|[]]. exists j, st, st'. auto.
      + intros (j' & s & s' & E1 & E2 & E3 & ->). injection E1 as <-. injection E2 as <-.
        rewrite E in E3. injection E3 as <-. now left.
    - intros Q. injection Q as <-. split; [intros []|]. intros (j & s & s' & Q & _). discriminate.
  Qed.
  Lemma rs2_in i j k r o : rs2 i j k = Some r -> (In o r <-> is_rs2 i j k o).
  Proof.
    unfold rs2, is_rs2. destruct k as [k|].
    - destruct (nth_error (t_combn t) _) as [st|]; cbn [obind]; [|discriminate].
      destruct (nth_error (t_funda t) k) as [st'|] eqn:E; cbn [obind]; [|discriminate].
      intros Q. injection Q as <-. split.
      + intros [<-|[]]. exists k, st, st'. auto.
      + intros (j' & s & s' & E1 & E2 & E3 & ->). injection E1 as <-. injection E2 as <-.
        rewrite E in E3. injection E3 as <-. now left.
    - intros Q. injection Q as <-. split; [intros []|]. intros (k & s & s' & Q & _). discriminate.
  Qed.

  Lemma enrgy_ops_in ops o :
    enrgy_ops c modes t = Some ops ->
    (In o ops <->
      (exists p, p < n1 /\ is_rs1 (a p) false o) \/
      (exists p q, p < q /\ q < n1 /\ is_rs2 (a p) (a q) (ifrm2 c (a q) (a p)) o) \/
      (exists p q, p < n1 /\ q < n2 /\ is_rs2 (a p) (e q) (get_either (ifrm2 c) (e q) (a p)) o) \/
      (exists p, p < n2 /\ is_rs1 (e p) true o) \/
      (exists p q, p < q /\ q < n2 /\ is_rs2 (e p) (e q) (get_either (ifrm2 c) (e q) (e p)) o)).
  Proof.
    intros E. change (oapp
      (ocollect (range 0 n1) (fun iii =>
         oapp (rs1 (a iii) false)
           (ocollect (range (iii + 1) n1) (fun jjj => rs2 (a iii) (a jjj) (ifrm2 c (a jjj) (a iii))))))
      (oapp
        (ocollect (range 0 n1) (fun ii =>
           ocollect (range 0 n2) (fun jj => rs2 (a ii) (e jj) (get_either (ifrm2 c) (e jj) (a ii)))))
        (ocollect (range 0 n2) (fun ii =>
           oapp (rs1 (e ii) true)
             (ocollect (range (ii + 1) n2) (fun jj => rs2 (e ii) (e jj) (get_either (ifrm2 c) (e jj) (e ii)))))))
      = Some ops) in E.
    apply oapp_in with (z := o) in E as (r1 & r23 & E1 & E23 & ->).
    apply oapp_in with (z := o) in E23 as (r2 & r3 & E2 & E3 & ->).
    rewrite (ocollect_in _ _ _ o E1), (ocollect_in _ _ _ o E2), (ocollect_in _ _ _ o E3).
    split.
    - intros [H|[H|H]].
      + destruct H as (p & r & Hp & Hr & Ho). apply in_range in Hp.
        apply oapp_in with (z := o) in Hr as (x & y & Hx & Hy & Hor). apply Hor in Ho as [Ho|Ho].
        * left. exists p. split; [lia|]. now apply (rs1_in _ _ _ _ Hx).
        * apply (ocollect_in _ _ _ _ Hy) in Ho as (q & r' & Hq & Hr' & Ho). apply in_range in Hq.
          right; left. exists p, q. split; [lia|]. split; [lia|]. now apply (rs2_in _ _ _ _ _ Hr').
      + destruct H as (p & r & Hp & Hr & Ho). apply in_range in Hp.
        apply (ocollect_in _ _ _ _ Hr) in Ho as (q & r' & Hq & Hr' & Ho). apply in_range in Hq.
        right; right; left. exists p, q. split; [lia|]. split; [lia|]. now apply (rs2_in _ _ _ _ _ Hr').
      + destruct H as (p & r & Hp & Hr & Ho). apply in_range in Hp.
        apply oapp_in with (z := o) in Hr as (x & y & Hx & Hy & Hor). apply Hor in Ho as [Ho|Ho].
        * right; right; right; left. exists p. split; [lia|]. now apply (rs1_in _ _ _ _ Hx).
        * apply (ocollect_in _ _ _ _ Hy) in Ho as (q & r' & Hq & Hr' & Ho). apply in_range in Hq.
          right; right; right; right. exists p, q. split; [lia|]. split; [lia|].
          now apply (rs2_in _ _ _ _ _ Hr').
    - intros [(p & Hp & Ho)|[(p & q & Hpq & Hq & Ho)|[(p & q & Hp & Hq & Ho)|
        [(p & Hp & Ho)|(p & q & Hpq & Hq & Ho)]]]].
      + left. assert (In p (range 0 n1)) as Hin by (apply in_range; lia).
        destruct (ocollect_each _ _ _ E1 p Hin) as (r & Hr). exists p, r. split; [exact Hin|].
        split; [exact Hr|]. apply oapp_in with (z := o) in Hr as (x & y & Hx & Hy & ->).
        left. now apply (rs1_in _ _ _ _ Hx).
      + left. assert (In p (range 0 n1)) as Hin by (apply in_range; lia).
        destruct (ocollect_each _ _ _ E1 p Hin) as (r & Hr). exists p, r. split; [exact Hin|].
        split; [exact Hr|]. apply oapp_in with (z := o) in Hr as (x & y & Hx & Hy & ->).
        right. assert (In q (range (p + 1) n1)) as Hin' by (apply in_range; lia).
        destruct (ocollect_each _ _ _ Hy q Hin') as (r' & Hr').
        apply (ocollect_in _ _ _ _ Hy). exists q, r'. split; [exact Hin'|]. split; [exact Hr'|].
        now apply (rs2_in _ _ _ _ _ Hr').
      + right; left. assert (In p (range 0 n1)) as Hin by (apply in_range; lia).
        destruct (ocollect_each _ _ _ E2 p Hin) as (r & Hr). exists p, r. split; [exact Hin|].
        split; [exact Hr|]. assert (In q (range 0 n2)) as Hin' by (apply in_range; lia).
        destruct (ocollect_each _ _ _ Hr q Hin') as (r' & Hr').
        apply (ocollect_in _ _ _ _ Hr). exists q, r'. split; [exact Hin'|]. split; [exact Hr'|].
        now apply (rs2_in _ _ _ _ _ Hr').
      + right; right. assert (In p (range 0 n2)) as Hin by (apply in_range; lia).
        destruct (ocollect_each _ _ _ E3 p Hin) as (r & Hr). exists p, r. split; [exact Hin|].
        split; [exact Hr|]. apply oapp_in with (z := o) in Hr as (x & y & Hx & Hy & ->).
        left. now apply (rs1_in _ _ _ _ Hx).
      + right; right. assert (In p (range 0 n2)) as Hin by (apply in_range; lia).
        destruct (ocollect_each _ _ _ E3 p Hin) as (r & Hr). exists p, r. split; [exact Hin|].
        split; [exact Hr|]. apply oapp_in with (z := o) in Hr as (x & y & Hx & Hy & ->).
        right. assert (In q (range (p + 1) n2)) as Hin' by (apply in_range; lia).
        destruct (ocollect_each _ _ _ Hy q Hin') as (r' & Hr').
        apply (ocollect_in _ _ _ _ Hy). exists q, r'. split; [exact Hin'|]. split; [exact Hr'|].
        now apply (rs2_in _ _ _ _ _ Hr').
  Qed.

  (** no index is out of range when the recorded modes exist *)
  Lemma enrgy_ops_total nvib :
    Permutation (flat_map members modes) (seq 0 nvib) ->
    restst_tables nvib (ioff (nvib + 1)) modes = Some t ->
    (forall i j, ifrm1 c i = Some j -> j < nvib) ->
    (forall i j k, ifrm2 c i j = Some k -> k < nvib) ->
    exists ops, enrgy_ops c modes t = Some ops.
  Proof.
    intros Hpart Et H1 H2.
    destruct (tables_main nvib modes Hpart) as (t' & E' & _ & L1 & L2 & L3 & _).
    assert (t' = t) as -> by congruence.
    assert (A1 : forall p, p < n1 -> a p < nvib).
    { intros p Hp. apply (part_lt nvib modes Hpart). apply in_app_iff. left.
      eapply nth_error_In. now apply (m1_nth modes). }
    assert (A2 : forall p, p < n2 -> e p < nvib).
    { intros p Hp. apply (part_lt nvib modes Hpart). rewrite !in_app_iff. right. left.
      apply in_flat_map. exists (m2 modes p). split; [eapply nth_error_In; now apply (m2_nth modes)|].
      unfold e. destruct (m2 modes p). cbn. auto. }
    assert (T1 : forall i deg, i < nvib -> exists r, rs1 i deg = Some r).
    { intros i deg Hi. unfold rs1. destruct (ifrm1 c i) as [j|] eqn:Ej; [|eauto].
      apply H1 in Ej.
      destruct (nth_error (t_ovrtn t) i) eqn:Q1; [|apply nth_error_None in Q1; lia].
      destruct (nth_error (t_funda t) j) eqn:Q2; [|apply nth_error_None in Q2; lia].
      cbn. eauto. }
    assert (T2 : forall i j k, i < nvib -> j < nvib -> (forall x, k = Some x -> x < nvib) ->
                 exists r, rs2 i j k = Some r).
    { intros i j k Hi Hj Hk. unfold rs2. destruct k as [k|]; [|eauto].
      specialize (Hk k eq_refl). pose proof (pair_index_lt nvib i j Hi Hj).
      destruct (nth_error (t_combn t) _) eqn:Q1; [|apply nth_error_None in Q1; lia].
      destruct (nth_error (t_funda t) k) eqn:Q2; [|apply nth_error_None in Q2; lia].
      cbn. eauto. }
    assert (T3 : forall i j x, get_either (ifrm2 c) i j = Some x -> x < nvib).
    { intros i j x. unfold get_either. destruct (ifrm2 c i j) eqn:Q; [|apply H2].
      intros Q'. injection Q' as <-. eapply H2, Q. }
    change (exists ops, oapp
      (ocollect (range 0 n1) (fun iii =>
         oapp (rs1 (a iii) false)
           (ocollect (range (iii + 1) n1) (fun jjj => rs2 (a iii) (a jjj) (ifrm2 c (a jjj) (a iii))))))
      (oapp
        (ocollect (range 0 n1) (fun ii =>
           ocollect (range 0 n2) (fun jj => rs2 (a ii) (e jj) (get_either (ifrm2 c) (e jj) (a ii)))))
        (ocollect (range 0 n2) (fun ii =>
           oapp (rs1 (e ii) true)
             (ocollect (range (ii + 1) n2) (fun jj => rs2 (e ii) (e jj) (get_either (ifrm2 c) (e jj) (e ii)))))))
      = Some ops).
    assert (OC : forall {A B} (l : list A) (f : A -> option (list B)),
       (forall x, In x l -> exists r, f x = Some r) -> exists r, ocollect l f = Some r).
    { intros A B l f. induction l as [|x l IH]; intros Q; [cbn; eauto|]. cbn.
      destruct (Q x (or_introl eq_refl)) as (r & ->). cbn.
      destruct IH as (r' & ->); [intros; apply Q; now right|]. cbn. eauto. }
    assert (OA : forall {B} (x y : option (list B)), (exists r, x = Some r) -> (exists r, y = Some r) ->
       exists r, oapp x y = Some r).
    { intros B x y (r & ->) (r' & ->). cbn. eauto. }
    apply OA; [|apply OA]; apply OC; intros p Hp; apply in_range in Hp.
    - apply OA; [apply T1, A1; lia|]. apply OC. intros q Hq. apply in_range in Hq.
      apply T2; [apply A1; lia|apply A1; lia|]. intros. eapply H2; eauto.
    - apply OC. intros q Hq. apply in_range in Hq.
      apply T2; [apply A1; lia|apply A2; lia|]. intros. eapply T3; eauto.
    - apply OA; [apply T1, A2; lia|]. apply OC. intros q Hq. apply in_range in Hq.
      apply T2; [apply A2; lia|apply A2; lia|]. intros. eapply T3; eauto.
  Qed.

  (** no treated level is the ground state *)
  Lemma enrgy_ops_nonzero nvib ops o :
    Permutation (flat_map members modes) (seq 0 nvib) ->
    restst_tables nvib (ioff (nvib + 1)) modes = Some t ->
    enrgy_ops c modes t = Some ops -> In o ops ->
    0 < fst (op_levels o) < length (t_states t) /\ 0 < snd (op_levels o) < length (t_states t).
  Proof.
    intros Hpart Et Eo Ho.
    destruct (tables_main nvib modes Hpart) as (t' & E' & _ & L1 & _ & _ & Hl & _).
    assert (t' = t) as -> by congruence.
    assert (Wr : forall l x st, wf modes l -> In x (op_idxs (op_of nvib modes l)) ->
      nth_error (tab (op_kind (op_of nvib modes l)) t) x = Some st -> 0 < st < length (t_states t)).
    { intros l x st W Hx E. destruct (Hl l x W Hx) as (p & E1 & E2 & E3).
      assert (st = p) as -> by congruence. split; [lia|]. apply nth_error_Some. congruence. }
    assert (Fn : forall i st, nth_error (t_funda t) i = Some st -> 0 < st < length (t_states t)).
    { intros i st E. assert (i < nvib) as Hi by (rewrite <- L1; apply nth_error_Some; congruence).
      apply (part_lt nvib modes Hpart) in Hi. rewrite !in_app_iff in Hi.
      destruct Hi as [Hi|[Hi|Hi]].
      - apply In_nth_error in Hi as (p & Hp).
        assert (p < n1) as Hn by (unfold n1; rewrite n1dm_eq; apply nth_error_Some; congruence).
        apply (Wr (LF (1, p)) i); [exact Hn| |exact E].
        cbn. left. unfold m1. now apply nth_error_nth.
      - apply in_flat_map in Hi as ([u v] & Hi & Hx). apply In_nth_error in Hi as (p & Hp).
        assert (p < n2) as Hn by (unfold n2; rewrite n2dm_eq; apply nth_error_Some; congruence).
        apply (Wr (LF (2, p)) i); [exact Hn| |exact E].
        cbn. assert (m2 modes p = (u, v)) as -> by (unfold m2; now apply nth_error_nth).
        cbn in *. tauto.
      - apply in_flat_map in Hi as ([[u v] w] & Hi & Hx). apply In_nth_error in Hi as (p & Hp).
        assert (p < n3dm modes) as Hn by (rewrite n3dm_eq; apply nth_error_Some; congruence).
        apply (Wr (LF (3, p)) i); [exact Hn| |exact E].
        cbn. assert (m3 modes p = (u, v, w)) as -> by (unfold m3; now apply nth_error_nth).
        cbn in *. tauto. }
    assert (D2 : forall p, In (e p) [fst (m2 modes p); snd (m2 modes p)]) by (intros; left; reflexivity).
    apply (enrgy_ops_in ops o Eo) in Ho.
    destruct Ho as [(p & Hp & Ho)|[(p & q & Hpq & Hq & Ho)|[(p & q & Hp & Hq & Ho)|
        [(p & Hp & Ho)|(p & q & Hpq & Hq & Ho)]]]];
      destruct Ho as (k & st & st' & _ & Q1 & Q2 & ->); cbn [op_levels fst snd];
      (split; [|eapply Fn, Q2]).
    - apply (Wr (LO (1, p)) (a p)); [exact Hp|cbn; auto|exact Q1].
    - apply (Wr (LC (1, p) (1, q)) (pair_index (a p) (a q))); [cbn; lia|cbn; auto|exact Q1].
    - apply (Wr (LC (1, p) (2, q)) (pair_index (a p) (e q))); [cbn; lia| |exact Q1].
      cbn. unfold e, a. destruct (m2 modes q). cbn. auto.
    - apply (Wr (LO (2, p)) (e p)); [exact Hp| |exact Q1].
      cbn. unfold e. destruct (m2 modes p). cbn. auto.
    - apply (Wr (LC (2, p) (2, q)) (pair_index (e p) (e q))); [cbn; lia| |exact Q1].
      cbn. unfold e. destruct (m2 modes p), (m2 modes q). cbn. auto.
  Qed.
End Ops.

(** ** effect on the list of levels *)
Lemma set_nth_spec {A} (l : list A) i x :
  i < length l -> exists l', set_nth l i x = Some l' /\ length l' = length l /\
    forall j, nth_error l' j = if j =? i then Some x else nth_error l j.
Proof.
  revert i. induction l as [|y l IH]; intros i Hi; [cbn in Hi; lia|].
  destruct i as [|i]; cbn [set_nth].
  - eexists. split; [reflexivity|]. split; [reflexivity|]. now intros [|j].
  - destruct (IH i) as (l' & -> & L & N); [cbn in Hi; lia|].
    eexists. split; [reflexivity|]. split; [cbn; lia|].
    intros [|j]; [reflexivity|]. cbn. apply N.
Qed.
Lemma set_nth_inv {A} (l : list A) i x l' :
  set_nth l i x = Some l' -> i < length l /\ length l' = length l /\
    forall j, nth_error l' j = if j =? i then Some x else nth_error l j.
Proof.
  intros E. destruct (Nat.lt_ge_cases i (length l)) as [Hi|Hi].
  - destruct (set_nth_spec l i x Hi) as (l2 & E2 & L & N). rewrite E in E2. injection E2 as <-. auto.
  - exfalso. revert i l' E Hi. induction l as [|y l IH]; intros i l' E Hi; [discriminate|].
    destruct i as [|i]; [cbn in Hi; lia|]. cbn in E.
    destruct (set_nth l i x) eqn:Q; [|discriminate]. eapply IH; [exact Q|cbn in Hi; lia].
Qed.

Section Effect.
  Context {F : Type} `{Num F}.

  (** the three couplings, in closed form *)
  Lemma rsfrm_keeps eig2 f3 o (eng eng' : list F) r :
    rsfrm eig2 f3 o eng = Some eng' ->
    r <> fst (op_levels o) -> r <> snd (op_levels o) ->
    nth_error eng' r = nth_error eng r.
  Proof.
    unfold rsfrm. destruct (op_levels o) as [p q] eqn:Eo. cbn [fst snd]. intros E Hp Hq.
    destruct (nth_error eng p) as [ep|]; [|discriminate]. cbn [obind] in E.
    destruct (nth_error eng q) as [eq|]; [|discriminate]. cbn [obind] in E.
    destruct (nth_error eng 0) as [e0|]; [|discriminate]. cbn [obind] in E.
    destruct (eig2 _ _ _) as [[l0 l1] [u v]].
    assert (T : forall p q x (f : F -> F), r <> p -> r <> q ->
       (let* en := set_nth eng p x in let* e := nth_error en 0 in set_nth en q (f e)) = Some eng' ->
       nth_error eng' r = nth_error eng r).
    { clear. intros p q x f Hp Hq E.
      destruct (set_nth eng p x) as [en|] eqn:E1; [|discriminate]. cbn [obind] in E.
      destruct (nth_error en 0); [|discriminate]. cbn [obind] in E.
      apply set_nth_inv in E1 as (_ & _ & N1). apply set_nth_inv in E as (_ & _ & N2).
      rewrite N2, N1. destruct (Nat.eqb_spec r q); [congruence|].
      destruct (Nat.eqb_spec r p); [congruence|reflexivity]. }
    destruct o; destruct (ngtb _ _).
    - apply (T p q (nadd l0 e0) (fun e => nadd l1 e)); auto.
    - apply (T p q (nadd l1 e0) (fun e => nadd l0 e)); auto.
    - apply (T p q (nadd l0 e0) (fun e => nadd l1 e)); auto.
    - apply (T q p (nadd l0 e0) (fun e => nadd l1 e)); auto.
  Qed.

  Lemma ofold_rsfrm_keeps eig2 f3 ops (eng eng' : list F) r :
    ofold (fun eng o => rsfrm eig2 f3 o eng) ops eng = Some eng' ->
    (forall o, In o ops -> r <> fst (op_levels o) /\ r <> snd (op_levels o)) ->
    nth_error eng' r = nth_error eng r.
  Proof.
    revert eng. induction ops as [|o ops IH]; intros eng E Ho; cbn [ofold] in E.
    - now injection E as <-.
    - destruct (rsfrm eig2 f3 o eng) as [e1|] eqn:E1; [|discriminate].
      rewrite (IH e1 E) by (intros; apply Ho; now right).
      destruct (Ho o (or_introl eq_refl)). now apply (rsfrm_keeps eig2 f3 o).
  Qed.

  Lemma rsfrm_total eig2 f3 o (eng : list F) :
    fst (op_levels o) < length eng -> snd (op_levels o) < length eng ->
    exists eng', rsfrm eig2 f3 o eng = Some eng' /\ length eng' = length eng.
  Proof.
    unfold rsfrm. destruct (op_levels o) as [p q] eqn:Eo. cbn [fst snd]. intros Hp Hq.
    destruct (nth_error eng p) as [ep|] eqn:Ep; [|apply nth_error_None in Ep; lia]. cbn [obind].
    destruct (nth_error eng q) as [eq|] eqn:Eq; [|apply nth_error_None in Eq; lia]. cbn [obind].
    destruct (nth_error eng 0) as [e0|] eqn:E0; [|apply nth_error_None in E0; lia]. cbn [obind].
    destruct (eig2 _ _ _) as [[l0 l1] [u v]].
    assert (T : forall p q x (f : F -> F), p < length eng -> q < length eng -> exists eng',
       (let* en := set_nth eng p x in let* e := nth_error en 0 in set_nth en q (f e)) = Some eng' /\
       length eng' = length eng).
    { clear. intros p q x f Hp Hq.
      destruct (set_nth_spec eng p x Hp) as (l1 & -> & L1 & N1). cbn [obind].
      destruct (nth_error l1 0) as [e|] eqn:E; [|apply nth_error_None in E; lia]. cbn [obind].
      destruct (set_nth_spec l1 q (f e)) as (l2 & -> & L2 & _); [lia|].
      exists l2. split; [reflexivity|lia]. }
    destruct o; destruct (ngtb _ _).
    - apply (T p q (nadd l0 e0) (fun e => nadd l1 e)); auto.
    - apply (T p q (nadd l1 e0) (fun e => nadd l0 e)); auto.
    - apply (T p q (nadd l0 e0) (fun e => nadd l1 e)); auto.
    - apply (T q p (nadd l0 e0) (fun e => nadd l1 e)); auto.
  Qed.

  Lemma ofold_rsfrm_total eig2 f3 ops (eng : list F) :
    (forall o, In o ops -> fst (op_levels o) < length eng /\ snd (op_levels o) < length eng) ->
    exists eng', ofold (fun eng o => rsfrm eig2 f3 o eng) ops eng = Some eng' /\
      length eng' = length eng.
  Proof.
    revert eng. induction ops as [|o ops IH]; intros eng Ho; cbn [ofold]; [eauto|].
    destruct (Ho o (or_introl eq_refl)) as [H1 H2].
    destruct (rsfrm_total eig2 f3 o eng H1 H2) as (e1 & -> & L1).
    destruct (IH e1) as (e2 & -> & L2).
    - intros o' Ho'. rewrite L1. apply Ho. now right.
    - exists e2. split; [reflexivity|lia].
  Qed.

  (** recorded modes are among the reported ones *)
  Lemma ifrm2_any fm1 fm2 i j k :
    ifrm2 (make_fermi_checks fm1 fm2) i j = Some k ->
    In (i, j, k) fm2 \/ i = j /\ In (i, k) fm1.
  Proof.
    unfold make_fermi_checks. rewrite fold_ifrm2'.
    destruct (last_for eqb2 (i, j) fm2) eqn:Q.
    - intros E. injection E as <-. left. now apply (last_for_in eqb2 eqb2_spec).
    - clear Q. assert (G : forall c, ifrm2 (fold_left (fun c '(i, j) =>
        mk_checks (upd3 (ifrmchk c) i i j 1) (insert1 (ifrm1 c) i j)
                  (insert2 (ifrm2 c) (i, i) j)) fm1 c) i j = Some k ->
        ifrm2 c i j = Some k \/ i = j /\ In (i, k) fm1).
      { clear fm2. induction fm1 as [|[x y] l IH]; intros c; cbn [fold_left]; [auto|].
        intros E. apply IH in E as [E|[E1 E2]]; [|right; cbn; auto].
        cbn [ifrm2] in E. unfold insert2, upd2 in E. cbn [fst snd] in E.
        destruct (Nat.eqb_spec i x), (Nat.eqb_spec j x); cbn [andb] in E; auto.
        subst. injection E as ->. right. cbn. auto. }
      intros E. apply G in E as [E|E]; [discriminate|auto].
  Qed.

  Lemma ground_kept_lemma eig2 f3 fm1 fm2 nvib modes t (eng : list F) :
    Permutation (flat_map members modes) (seq 0 nvib) ->
    restst_tables nvib (ioff (nvib + 1)) modes = Some t ->
    length eng = length (t_states t) ->
    (forall i j, In (i, j) fm1 -> j < nvib) ->
    (forall i j k, In (i, j, k) fm2 -> k < nvib) ->
    exists eng', enrgy eig2 f3 (make_fermi_checks fm1 fm2) modes t eng = Some eng' /\
      length eng' = length eng /\ nth_error eng' 0 = nth_error eng 0.
  Proof.
    intros Hpart Et L B1 B2. unfold enrgy.
    destruct (enrgy_ops_total (make_fermi_checks fm1 fm2) modes t nvib Hpart Et) as (ops & Eo).
    { intros i j E. rewrite ifrm1_eq in E. apply (last_for_in Nat.eqb Nat.eqb_eq) in E. eauto. }
    { intros i j k E. apply ifrm2_any in E as [E|[_ E]]; eauto. }
    rewrite Eo. cbn [obind].
    destruct (ofold_rsfrm_total eig2 f3 ops eng) as (eng' & E & L').
    { intros o Ho. destruct (enrgy_ops_nonzero _ _ _ nvib ops o Hpart Et Eo Ho). lia. }
    exists eng'. split; [exact E|]. split; [exact L'|].
    eapply ofold_rsfrm_keeps; [exact E|]. intros o Ho.
    destruct (enrgy_ops_nonzero _ _ _ nvib ops o Hpart Et Eo Ho). lia.
  Qed.
End Effect.

(** ** which levels, for an asymmetric top *)
Lemma treated_asym_lemma fm1 fm2 n :
  asym_lists fm1 fm2 ->
  (forall i j, In (i, j) fm1 -> i < n /\ j < n) ->
  (forall i j k, In (i, j, k) fm2 -> i < n /\ j < n /\ k < n) ->
  exists t ops,
    restst_tables n (ioff (n + 1)) (singles n) = Some t /\
    enrgy_ops (make_fermi_checks fm1 fm2) (singles n) t = Some ops /\
    (forall o, In o ops -> exists p q,
       op_levels o = (p, q) /\ p <> q /\
       ((exists i j, In (i, j) fm1 /\ o = Rs1 p q i j false /\
           nth_error (t_states t) p = Some (I1st (unit1 n i 2)) /\
           nth_error (t_states t) q = Some (I1st (unit1 n j 1))) \/
        (exists i j k, In (i, j, k) fm2 /\ o = Rs2 p q j i k /\
           nth_error (t_states t) p = Some (I1st (unit11 n j i)) /\
           nth_error (t_states t) q = Some (I1st (unit1 n k 1))))) /\
    (forall i j, In (i, j) fm1 -> (forall j', In (i, j') fm1 -> j' = j) ->
       exists p q, In (Rs1 p q i j false) ops) /\
    (forall i j k, In (i, j, k) fm2 -> (forall k', In (i, j, k') fm2 -> k' = k) ->
       exists p q, In (Rs2 p q j i k) ops).
Proof.
  intros [A1 A2] B1 B2.
  destruct (tables_lemma n (singles n) (singles_part n)) as
    (t & Et & _ & L1 & L2 & L3 & Ha & _ & _ & Hc & _).
  destruct (enrgy_ops_total (make_fermi_checks fm1 fm2) (singles n) t n (singles_part n) Et) as (ops & Eo).
  { intros i j E. rewrite ifrm1_eq in E. apply (last_for_in Nat.eqb Nat.eqb_eq) in E. now apply B1 in E. }
  { intros i j k E. apply ifrm2_any in E as [E|[_ E]]; [now apply B2 in E|now apply B1 in E]. }
  exists t, ops. split; [exact Et|]. split; [exact Eo|].
  assert (Sg : forall p, p < n -> nth_error (flat_map get1 (singles n)) p = Some p).
  { intros p Hp. rewrite <- i1mode_eq, i1mode_singles. now apply nth_error_seq. }
  split; [|split].
  - intros o Ho. apply (enrgy_ops_in _ _ _ _ _ Eo) in Ho. rewrite n1dm_singles, n2dm_singles in Ho.
    destruct Ho as [(p & Hp & Ho)|[(p & q & Hpq & Hq & Ho)|[(p & q & Hp & Hq & Ho)|
        [(p & Hp & Ho)|(p & q & Hpq & Hq & Ho)]]]]; try lia.
    + rewrite m1_singles in Ho by lia. destruct Ho as (j & st & st' & E & Q1 & Q2 & ->).
      exists st, st'. split; [reflexivity|].
      rewrite ifrm1_eq in E. apply (last_for_in Nat.eqb Nat.eqb_eq) in E.
      destruct (B1 _ _ E) as [_ Hj].
      destruct (Ha p p (Sg p Hp)) as [_ (s1 & S1 & S1')].
      destruct (Ha j j (Sg j Hj)) as [(s2 & S2 & S2') _].
      split.
      { intros ->. assert (I1st (unit1 n p 2) = I1st (unit1 n j 1)) as Q by congruence.
        injection Q as Q. apply (f_equal total) in Q. rewrite !total_unit1 in Q by assumption. lia. }
      left. exists p, j.
      split; [exact E|]. split; [reflexivity|]. split; congruence.
    + rewrite !m1_singles in Ho by lia. destruct Ho as (k & st & st' & E & Q1 & Q2 & ->).
      exists st, st'. split; [reflexivity|].
      rewrite ifrm2_eq in E by lia. apply (last_for_in eqb2 eqb2_spec) in E.
      destruct (B2 _ _ _ E) as (_ & _ & Hk).
      destruct (Hc p q p q Hpq (Sg p ltac:(lia)) (Sg q Hq)) as (s1 & S1 & S1').
      destruct (Ha k k (Sg k Hk)) as [(s2 & S2 & S2') _].
      split.
      { intros ->. assert (I1st (unit11 n p q) = I1st (unit1 n k 1)) as Q by congruence.
        injection Q as Q. apply (f_equal total) in Q.
        rewrite total_unit1, total_unit11 in Q by lia. lia. }
      right. exists q, p, k.
      split; [exact E|]. split; [reflexivity|]. split; congruence.
  - intros i j Hin U. destruct (B1 _ _ Hin) as [Hi Hj].
    destruct (Ha i i (Sg i Hi)) as [_ (s1 & S1 & S1')].
    destruct (Ha j j (Sg j Hj)) as [(s2 & S2 & S2') _].
    exists s1, s2. apply (enrgy_ops_in _ _ _ _ _ Eo). left. exists i. rewrite n1dm_singles.
    split; [exact Hi|]. rewrite m1_singles by exact Hi. exists j, s1, s2.
    split; [|auto]. rewrite ifrm1_eq. now apply (last_for_unique Nat.eqb Nat.eqb_eq).
  - intros i j k Hin U. destruct (B2 _ _ _ Hin) as (Hi & Hj & Hk). pose proof (A2 _ _ _ Hin) as Ho.
    destruct (Hc j i j i ltac:(lia) (Sg j Hj) (Sg i Hi)) as (s1 & S1 & S1').
    destruct (Ha k k (Sg k Hk)) as [(s2 & S2 & S2') _].
    exists s1, s2. apply (enrgy_ops_in _ _ _ _ _ Eo). right. left. exists j, i. rewrite n1dm_singles.
    split; [lia|]. split; [exact Hi|]. rewrite !m1_singles by assumption. exists k, s1, s2.
    split; [|auto]. rewrite ifrm2_eq by lia. now apply (last_for_unique eqb2 eqb2_spec).
Qed.

(** ** one two-level problem over the reals *)
Section TwoLevel.
  Local Open Scope R_scope.

  (** what is asked of the eigensolver for the matrix [a b; b c]: values in ascending
      order with orthonormal eigenvectors; only the first vector is used *)
  Definition eig_ok (eig2 : R -> R -> R -> R * R * (R * R)) (a b c : R) : Prop :=
    exists l0 l1 u v u' v', eig2 a b c = (l0, l1, (u, v)) /\ l0 <= l1 /\
      u * u + v * v = 1 /\ u' * u' + v' * v' = 1 /\ u * u' + v * v' = 0 /\
      a * u + b * v = l0 * u /\ b * u + c * v = l0 * v /\
      a * u' + b * v' = l1 * u' /\ b * u' + c * v' = l1 * v'.

  Lemma eig_facts a b c l0 l1 u v u' v' :
    u * u + v * v = 1 -> u' * u' + v' * v' = 1 -> u * u' + v * v' = 0 ->
    a * u + b * v = l0 * u -> b * u + c * v = l0 * v ->
    a * u' + b * v' = l1 * u' -> b * u' + c * v' = l1 * v' ->
    l0 + l1 = a + c /\ l0 * l1 = a * c - b * b /\ c - a = (l1 - l0) * (u * u - v * v).
  Proof.
    intros N0 N1 O E1 E2 E3 E4.
    (* u' = - s v and v' = s u with s = u v' - v u' *)
    set (s := u * v' - v * u').
    assert (Hu : u' = - s * v).
    { unfold s. transitivity (u' * (u * u + v * v) - u * (u * u' + v * v')); [rewrite N0, O; ring|ring]. }
    assert (Hv : v' = s * u).
    { unfold s. transitivity (v' * (u * u + v * v) - v * (u * u' + v * v')); [rewrite N0, O; ring|ring]. }
    assert (Hs : s * s = 1).
    { transitivity ((s * s) * (u * u + v * v)); [rewrite N0; ring|].
      transitivity (u' * u' + v' * v'); [rewrite Hu, Hv; ring|exact N1]. }
    assert (F3 : a * v - b * u = l1 * v).
    { transitivity ((s * s) * (a * v - b * u)); [rewrite Hs; ring|].
      transitivity (- s * (a * u' + b * v')); [rewrite Hu, Hv; ring|]. rewrite E3, Hu.
      transitivity ((s * s) * (l1 * v)); [ring|]. rewrite Hs. ring. }
    assert (F4 : c * u - b * v = l1 * u).
    { transitivity ((s * s) * (c * u - b * v)); [rewrite Hs; ring|].
      transitivity (s * (b * u' + c * v')); [rewrite Hu, Hv; ring|]. rewrite E4, Hv.
      transitivity ((s * s) * (l1 * u)); [ring|]. rewrite Hs. ring. }
    assert (Ea : a = l0 * (u * u) + l1 * (v * v)).
    { transitivity (a * (u * u + v * v)); [rewrite N0; ring|].
      transitivity (u * (a * u + b * v) + v * (a * v - b * u)); [ring|]. rewrite E1, F3. ring. }
    assert (Ec : c = l0 * (v * v) + l1 * (u * u)).
    { transitivity (c * (u * u + v * v)); [rewrite N0; ring|].
      transitivity (v * (b * u + c * v) + u * (c * u - b * v)); [ring|]. rewrite E2, F4. ring. }
    assert (Eb : b = (l0 - l1) * (u * v)).
    { transitivity (b * (u * u + v * v)); [rewrite N0; ring|].
      transitivity (v * (a * u + b * v) - u * (a * v - b * u)); [ring|]. rewrite E1, F3. ring. }
    split; [|split].
    - rewrite Ea, Ec. transitivity ((l0 + l1) * (u * u + v * v)); [rewrite N0; ring|ring].
    - rewrite Ea, Ec, Eb.
      transitivity (l0 * l1 * ((u * u + v * v) * (u * u + v * v))); [rewrite N0; ring|ring].
    - rewrite Ea, Ec. ring.
  Qed.

  (** the coupling matrix elements *)
  Definition spec_coupling (f3 : nat -> nat -> nat -> R) (o : fermi_op) : R :=
    match o with
    | Rs1 _ _ i j false => f3 i i j / 4
    | Rs1 _ _ i j true => f3 i i j / (2 * sqrt 2)
    | Rs2 _ _ i j k => f3 i j k / (2 * sqrt 2)
    end.
  Lemma coupling_R f3 o : coupling f3 o = spec_coupling f3 o.
  Proof.
    destruct o as [p q i j []|p q i j k]; cbn [coupling spec_coupling]; unfold sqrt2;
      rewrite ?nz_R; cbn; try reflexivity; lra.
  Qed.

  Lemma two_level_lemma eig2 f3 o (eng : list R) p q Ep Eq E0 :
    op_levels o = (p, q) -> p <> q -> p <> 0%nat -> q <> 0%nat ->
    nth_error eng p = Some Ep -> nth_error eng q = Some Eq -> nth_error eng 0 = Some E0 ->
    eig_ok eig2 (Ep - E0) (spec_coupling f3 o) (Eq - E0) ->
    exists eng' Ep' Eq', rsfrm eig2 f3 o eng = Some eng' /\
      length eng' = length eng /\
      nth_error eng' p = Some Ep' /\ nth_error eng' q = Some Eq' /\
      (forall r, r <> p -> r <> q -> nth_error eng' r = nth_error eng r) /\
      Ep' + Eq' = Ep + Eq /\
      (Ep' - E0) * (Eq' - E0) = (Ep - E0) * (Eq - E0) - spec_coupling f3 o ^ 2 /\
      (Ep' - Eq') ^ 2 = (Ep - Eq) ^ 2 + 4 * spec_coupling f3 o ^ 2 /\
      (Ep < Eq -> Ep' < Eq') /\ (Eq < Ep -> Eq' < Ep').
  Proof.
    intros Eo Hpq Hp Hq Np Nq N0 (l0 & l1 & u & v & u' & v' & He & Hl & X1 & X2 & X3 & X4 & X5 & X6 & X7).
    destruct (eig_facts _ _ _ _ _ _ _ _ _ X1 X2 X3 X4 X5 X6 X7) as (Tr & Dt & Df).
    assert (Lp : (p < length eng)%nat) by (apply nth_error_Some; congruence).
    assert (Lq : (q < length eng)%nat) by (apply nth_error_Some; congruence).
    set (W := spec_coupling f3 o) in *.
    assert (Sq : forall x y, x + y = (Ep - E0) + (Eq - E0) -> x * y = (Ep - E0) * (Eq - E0) - W * W ->
                 (x - y) ^ 2 = (Ep - Eq) ^ 2 + 4 * W ^ 2).
    { intros x y S P. replace ((x - y) ^ 2) with ((x + y) * (x + y) - 4 * (x * y)) by ring.
      rewrite S, P. ring. }
    assert (T : forall a b x y, a <> b -> (a < length eng)%nat -> (b < length eng)%nat ->
       a <> 0%nat -> exists eng',
       (let* en := set_nth eng a (x + E0) in let* e := nth_error en 0 in set_nth en b (y + e)) = Some eng' /\
       length eng' = length eng /\ nth_error eng' a = Some (x + E0) /\ nth_error eng' b = Some (y + E0) /\
       (forall r, r <> a -> r <> b -> nth_error eng' r = nth_error eng r)).
    { intros a b x y Hab Ha Hb Ha0.
      destruct (set_nth_spec eng a (x + E0) Ha) as (en & -> & L1 & N1). cbn [obind].
      rewrite N1. destruct (Nat.eqb_spec 0 a); [lia|]. rewrite N0. cbn [obind].
      destruct (set_nth_spec en b (y + E0)) as (en' & -> & L2 & N2); [lia|].
      exists en'. split; [reflexivity|]. split; [lia|]. rewrite !N2, Nat.eqb_refl, N1, Nat.eqb_refl.
      destruct (Nat.eqb_spec a b); [congruence|]. split; [reflexivity|]. split; [reflexivity|].
      intros r Hra Hrb. rewrite N2, N1. destruct (Nat.eqb_spec r b); [congruence|].
      destruct (Nat.eqb_spec r a); [congruence|reflexivity]. }
    unfold rsfrm. rewrite Eo, Np, Nq, N0. cbn [obind]. rewrite coupling_R. fold W.
    cbn [nsub Rnum]. rewrite He.
    assert (Gt : ngtb (nabs u) (nabs v) = true <-> Rabs v < Rabs u) by apply Rltb_true.
    assert (Gf : ngtb (nabs u) (nabs v) = false <-> Rabs u <= Rabs v) by apply Rltb_false.
    destruct (ngtb (nabs u) (nabs v)) eqn:G.
    - (* first level takes the lower value *)
      assert (Hlt : Rabs v < Rabs u) by now apply Gt.
      assert (Uv : v * v < u * u) by (apply Rsqr_lt_abs_1; exact Hlt).
      destruct (T p q l0 l1 Hpq Lp Lq Hp) as (eng' & E & L & Np' & Nq' & Nr).
      exists eng', (l0 + E0), (l1 + E0).
      split; [destruct o; exact E|]. split; [exact L|]. split; [exact Np'|]. split; [exact Nq'|].
      split; [exact Nr|]. split; [lra|]. split; [replace (l0 + E0 - E0) with l0 by ring;
        replace (l1 + E0 - E0) with l1 by ring; rewrite Dt; ring|].
      split; [replace (l0 + E0 - (l1 + E0)) with (l0 - l1) by ring; apply Sq; [lra|rewrite Dt; ring]|].
      split; intros Hlt'.
      + destruct (Req_dec l0 l1) as [Heq|Hne]; [|lra]. exfalso. rewrite Heq in Df. nra.
      + exfalso. nra.
    - assert (Hle : Rabs u <= Rabs v) by now apply Gf.
      assert (Uv : u * u <= v * v) by (apply Rsqr_le_abs_1; exact Hle).
      assert (C : exists eng', rsfrm eig2 f3 o eng = Some eng' /\ length eng' = length eng /\
         nth_error eng' p = Some (l1 + E0) /\ nth_error eng' q = Some (l0 + E0) /\
         (forall r, r <> p -> r <> q -> nth_error eng' r = nth_error eng r)).
      { unfold rsfrm. rewrite Eo, Np, Nq, N0. cbn [obind]. rewrite coupling_R. fold W.
        cbn [nsub Rnum]. rewrite He, G. destruct o.
        - destruct (T p q l1 l0 Hpq Lp Lq Hp) as (eng' & E & L & Np' & Nq' & Nr).
          exists eng'. repeat split; assumption.
        - destruct (T q p l0 l1 ltac:(auto) Lq Lp Hq) as (eng' & E & L & Nq' & Np' & Nr).
          exists eng'. repeat split; try assumption. intros; apply Nr; assumption. }
      unfold rsfrm in C. rewrite Eo, Np, Nq, N0 in C. cbn [obind] in C. rewrite coupling_R in C.
      fold W in C. cbn [nsub Rnum] in C. rewrite He, G in C.
      destruct C as (eng' & E & L & Np' & Nq' & Nr).
      exists eng', (l1 + E0), (l0 + E0).
      split; [exact E|]. split; [exact L|]. split; [exact Np'|]. split; [exact Nq'|].
      split; [exact Nr|]. split; [lra|]. split; [replace (l0 + E0 - E0) with l0 by ring;
        replace (l1 + E0 - E0) with l1 by ring; rewrite Rmult_comm, Dt; ring|].
      split; [replace (l1 + E0 - (l0 + E0)) with (l1 - l0) by ring; apply Sq;
              [lra|rewrite Rmult_comm, Dt; ring]|].
      split; intros Hlt'.
      + exfalso. nra.
      + destruct (Req_dec l0 l1) as [Heq|Hne]; [|lra]. exfalso. rewrite Heq in Df. nra.
  Qed.
End TwoLevel.

(** ** a rigid shift *)
Section Shift.
  Local Open Scope R_scope.
  Variable d : R.
  Let sh := map (fun E => E + d).

  Lemma set_nth_sh (l : list R) i x : set_nth (sh l) i (x + d) = option_map sh (set_nth l i x).
  Proof.
    revert i. induction l as [|y l IH]; intros [|i]; cbn; try reflexivity.
    fold sh. rewrite IH. now destruct (set_nth l i x).
  Qed.
  Lemma nth_sh (l : list R) i : nth_error (sh l) i = option_map (fun E => E + d) (nth_error l i).
  Proof. apply nth_error_map. Qed.

  Lemma rsfrm_sh eig2 f3 o (eng : list R) :
    rsfrm eig2 f3 o (sh eng) = option_map sh (rsfrm eig2 f3 o eng).
  Proof.
    unfold rsfrm. destruct (op_levels o) as [p q]. rewrite !nth_sh.
    destruct (nth_error eng p) as [Ep|]; cbn [option_map obind]; [|reflexivity].
    destruct (nth_error eng q) as [Eq|]; cbn [option_map obind]; [|reflexivity].
    destruct (nth_error eng 0) as [E0|]; cbn [option_map obind]; [|reflexivity].
    cbn [nsub Rnum]. replace (Ep + d - (E0 + d)) with (Ep - E0) by ring.
    replace (Eq + d - (E0 + d)) with (Eq - E0) by ring.
    destruct (eig2 _ _ _) as [[l0 l1] [u v]].
    assert (T : forall a b x y,
      (let* en := set_nth (sh eng) a (x + (E0 + d)) in let* e := nth_error en 0 in set_nth en b (y + e))
      = option_map sh (let* en := set_nth eng a (x + E0) in let* e := nth_error en 0 in set_nth en b (y + e))).
    { intros a b x y. rewrite <- Rplus_assoc, set_nth_sh.
      destruct (set_nth eng a (x + E0)) as [en|]; cbn [option_map obind]; [|reflexivity].
      rewrite nth_sh. destruct (nth_error en 0) as [e|]; cbn [option_map obind]; [|reflexivity].
      rewrite <- Rplus_assoc. apply set_nth_sh. }
    destruct o; destruct (ngtb _ _); apply T.
  Qed.

  Lemma shift_lemma freq modes x gc e0 states eig2 f3 c t (eng : list R) :
    part1 freq modes x gc (e0 + d) states = option_map sh (part1 freq modes x gc e0 states) /\
    enrgy eig2 f3 c modes t (sh eng) = option_map sh (enrgy eig2 f3 c modes t eng) /\
    corrs modes (sh eng) = corrs modes eng.
  Proof.
    split; [|split].
    - unfold part1.
      assert (L : forall v1 v2, level freq modes x gc (e0 + d) v1 v2
                = option_map (fun E => E + d) (level freq modes x gc e0 v1 v2)).
      { intros v1 v2. unfold level. destruct (ofold _ _ _); cbn [obind option_map]; [|reflexivity].
        f_equal. cbn [nadd Rnum]. ring. }
      assert (P : forall l acc, ofold (fun eng s =>
           let* x := level freq modes x gc (e0 + d)
             (fun ii => nth ii (state_i1 s) 0%nat) (fun ii => nth ii (state_i2 s) (0, 0)%nat) in
           Some (eng ++ [x])) l (sh acc)
        = option_map sh (ofold (fun eng s =>
           let* x := level freq modes x gc e0
             (fun ii => nth ii (state_i1 s) 0%nat) (fun ii => nth ii (state_i2 s) (0, 0)%nat) in
           Some (eng ++ [x])) l acc)).
      { induction l as [|s l IH]; intros acc; cbn [ofold]; [reflexivity|].
        rewrite L. destruct (level _ _ _ _ e0 _ _) as [E|]; cbn [option_map obind]; [|reflexivity].
        rewrite <- IH. unfold sh. now rewrite map_app. }
      apply (P states []).
    - unfold enrgy. destruct (enrgy_ops c modes t) as [ops|]; cbn [obind]; [|reflexivity].
      revert eng. induction ops as [|o ops IH]; intros eng; cbn [ofold]; [reflexivity|].
      rewrite rsfrm_sh. destruct (rsfrm eig2 f3 o eng); cbn [option_map]; [apply IH|reflexivity].
    - unfold corrs. apply ofold_ext. intros acc i. rewrite !nth_sh.
      destruct (nth_error eng i) as [E|]; cbn [option_map obind]; [|reflexivity].
      destruct (nth_error eng 0) as [E0|]; cbn [option_map obind]; [|reflexivity].
      cbn [nsub Rnum]. now replace (E + d - (E0 + d)) with (E - E0) by ring.
  Qed.
End Shift.

(** ** no Fermi resonance *)
Lemma no_fermi_ops_lemma nvib modes t :
  Permutation (flat_map members modes) (seq 0 nvib) ->
  restst_tables nvib (ioff (nvib + 1)) modes = Some t ->
  enrgy_ops (make_fermi_checks [] []) modes t = Some [].
Proof.
  intros Hpart Et.
  destruct (enrgy_ops_total (make_fermi_checks [] []) modes t nvib Hpart Et) as (ops & Eo);
    [discriminate..|].
  rewrite Eo. destruct ops as [|o ops]; [reflexivity|].
  assert (In o (o :: ops)) as Ho by now left.
  apply (enrgy_ops_in _ _ _ _ _ Eo) in Ho.
  destruct Ho as [(p & _ & k & ? & ? & Q & _)|[(p & q & _ & _ & k & ? & ? & Q & _)|
    [(p & q & _ & _ & k & ? & ? & Q & _)|[(p & _ & k & ? & ? & Q & _)|(p & q & _ & _ & k & ? & ? & Q & _)]]]];
    discriminate.
Qed.

Lemma no_fermi_lemma n (freq : nat -> R) x gc e0 eig2 f3 :
  (forall i j, x i j = x j i) ->
  exists t eng,
    restst_tables n (ioff (n + 1)) (singles n) = Some t /\
    part1 freq (singles n) x gc e0 (t_states t) = Some eng /\
    enrgy eig2 f3 (make_fermi_checks [] []) (singles n) t eng = Some eng /\
    corrs (singles n) eng = Some (make_funds n freq x) /\
    nth_error eng 0 = Some (Rsum (seq 0 n) (fun i => freq i / 2)
      + Rsum (seq 0 n) (fun i => Rsum (seq 0 (i + 1)) (fun j => x i j / 4)) + e0)%R.
Proof.
  intros Sym.
  destruct (funds_asym_lemma n freq x gc e0 Sym) as (t & eng & Et & Ep & Lf & Hf).
  exists t, eng. split; [exact Et|]. split; [exact Ep|].
  split. { unfold enrgy. rewrite (no_fermi_ops_lemma n); [reflexivity|apply singles_part|exact Et]. }
  destruct (states_asym_lemma n) as (t' & vs & Et' & Hs & Nd & _ & _ & Hvs).
  assert (t' = t) as -> by congruence.
  assert (Hg : gc <> None \/ n2dm (singles n) = 0) by (right; apply n2dm_singles).
  assert (Ee : eng = map (state_energy (singles n) freq x gc e0) (t_states t)).
  { rewrite part1_R in Ep by exact Hg. congruence. }
  split.
  - unfold corrs. rewrite n1dm_singles, n2dm_singles, n3dm_singles.
    assert (H0 : exists E0, nth_error eng 0 = Some E0).
    { rewrite Ee, Hs, Hvs. cbn. eauto. }
    destruct H0 as (E0 & H0).
    set (step := fun (acc : list R) i => let* x := nth_error eng i in let* e0 := nth_error eng 0 in
        Some (acc ++ [nsub x e0])).
    assert (Q : forall l acc, (forall i, In i l -> 1 <= i <= n) ->
      ofold step l acc
      = Some (acc ++ map (fun i => nth (i - 1) (make_funds n freq x) 0%R) l)).
    { induction l as [|i l IH]; intros acc Hl; cbn [ofold map]; [now rewrite app_nil_r|].
      assert (1 <= i <= n) as Hi by (apply Hl; now left).
      destruct (Hf (i - 1) ltac:(lia)) as (p & Ei & E0' & P1 & P2 & P3 & P4 & P5).
      (* the state of mode i - 1 is at place i *)
      assert (nth_error (t_states t) i = Some (I1st (unit1 n (i - 1) 1))) as P6.
      { rewrite Hs, Hvs. destruct i as [|i]; [lia|]. cbn [app map nth_error].
        rewrite map_app, nth_error_app1 by (rewrite !map_length, seq_length; lia).
        rewrite map_map, nth_error_map_seq by lia. now rewrite Nat.sub_succ, Nat.sub_0_r. }
      assert (p = i) as ->.
      { destruct (tables_lemma n (singles n) (singles_part n)) as (t2 & Et2 & Nd2 & _).
        assert (t2 = t) as -> by congruence. exact (NoDup_nth_eq _ _ _ _ Nd2 P2 P6). }
      assert (step acc i = Some (acc ++ [Ei - E0']%R)) as ->
        by (unfold step; now rewrite P3, P4).
      rewrite IH by (intros; apply Hl; now right).
      rewrite <- app_assoc. cbn [app]. do 3 f_equal.
      symmetry. now apply nth_error_nth. }
    rewrite Q by (intros i Hi; apply in_range in Hi; lia). cbn [app]. f_equal.
    unfold range. replace (n + 0 + 0 + 1 - 1) with n by lia.
    rewrite <- seq_shift, map_map. apply list_ext; [now rewrite map_length, seq_length|].
    rewrite map_length, seq_length. intros i Hi.
    rewrite nth_error_map_seq by exact Hi. cbn [Nat.sub]. rewrite Nat.sub_0_r.
    symmetry. apply nth_error_nth'. now rewrite Lf.
  - rewrite Ee, Hs, Hvs. cbn [app map nth_error]. f_equal.
    rewrite energy_ground. unfold spec_level. rewrite n1dm_singles, n2dm_singles.
    cbn [seq Rsum fold_right].
    rewrite (Rsum_ext (fun i => freq (m1 (singles n) i) * (INR 0 + / 2))%R (fun i => freq i / 2)%R).
    2:{ intros i Hi. apply in_seq in Hi. rewrite m1_singles by lia. cbn [INR]. lra. }
    rewrite (Rsum_ext (fun i => Rsum (seq 0 (i + 1)) (fun j =>
       x (m1 (singles n) i) (m1 (singles n) j) * ((INR 0 + / 2) * (INR 0 + / 2))))%R
       (fun i => Rsum (seq 0 (i + 1)) (fun j => x i j / 4))%R).
    2:{ intros i Hi. apply in_seq in Hi. apply Rsum_ext. intros j Hj. apply in_seq in Hj.
        rewrite !m1_singles by lia. cbn [INR]. field. }
    rewrite (Rsum_0 (fun i => 0)%R). 2: reflexivity. lra.
Qed.
