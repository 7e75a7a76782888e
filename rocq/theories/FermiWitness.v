(** Concrete counterexamples for the treatment of Fermi resonances, and an eigensolver
    that meets its contract. *)
From Coq Require Import Reals Lra List ZArith Arith Permutation Lia Bool.
From Verif Require Import Num Loops Index Modes ListFacts ModesFacts StatesFacts ResFacts
  ResWitness Anharm AnharmFacts EnergyFacts FermiFacts.
Import ListNotations.

(** ** a resonance that is dropped but not diagonalised *)
Definition two_res_freq : nat -> f64 := dfreq [(2050, 1); (1950, 1); (1000, 1)]%Z.
Lemma dropped_untreated_refuted_lemma :
  exists n (freq : nat -> f64) f3 fm1 fm2 t ops i j,
    fermi1 AsymmTop (singles n) freq f3 = Some fm1 /\
    fermi2 AsymmTop (singles n) freq f3 = Some fm2 /\
    restst_tables n (ioff (n + 1)) (singles n) = Some t /\
    enrgy_ops (make_fermi_checks fm1 fm2) (singles n) t = Some ops /\
    In (i, j) fm1 /\ flagged (make_fermi_checks fm1 fm2) i i j = true /\
    forall p q d, ~ In (Rs1 p q i j d) ops.
Proof.
  exists 3, two_res_freq, (const3 (nz 20)), [(2, 0); (2, 1)], [].
  destruct (restst_tables 3 (ioff (3 + 1)) (singles 3)) as [t|] eqn:Et; [|vm_compute in Et; discriminate].
  destruct (enrgy_ops (make_fermi_checks [(2, 0); (2, 1)] []) (singles 3) t) as [ops|] eqn:Eo;
    [|vm_compute in Et; injection Et as <-; vm_compute in Eo; discriminate].
  exists t, ops, 2, 0.
  split; [vm_compute; reflexivity|]. split; [vm_compute; reflexivity|].
  split; [reflexivity|]. split; [exact Eo|]. split; [cbn; auto|]. split; [reflexivity|].
  vm_compute in Et. injection Et as <-. vm_compute in Eo. injection Eo as <-.
  intros p q d [E|[]]. discriminate.
Qed.

(** ** E0 with a resonance of either type *)
Section E0.
  Local Open Scope R_scope.

  Definition at_list (l : list R) (i : nat) : R := nth i l 0.

  Lemma e0_type1_refuted_lemma :
    exists n (w : nat -> R) f3 f4 fm1 fm2,
      (forall i, (i < n)%nat -> 0 < w i) /\
      fermi1 AsymmTop (singles n) w f3 = Some fm1 /\
      fermi2 AsymmTop (singles n) w f3 = Some fm2 /\
      (forall i j, In (i, j) fm1 <-> i = 1%nat /\ j = 0%nat) /\ fm2 = [] /\
      make_e0 f4 w f3 (make_fermi_checks fm1 fm2) (singles n) <>
      spec_e0 n f4 w f3 (flagged (make_fermi_checks fm1 fm2)).
  Proof.
    pose (w := at_list [2010; 1000]). pose (f3 := fun _ _ _ : nat => 20).
    assert (Dm : deg_modes AsymmTop 2 w = Some (singles 2)) by (apply deg_modes_asym_lemma; auto).
    destruct (fermi1_exact_lemma 2 w f3 _ Dm) as (fm1 & E1 & _ & H1).
    assert (E2 : fermi2 AsymmTop (singles 2) w f3 = Some []) by reflexivity.
    assert (I1 : forall i j, In (i, j) fm1 <-> i = 1%nat /\ j = 0%nat).
    { intros i j. rewrite H1. rewrite !nz_R. cbn [nleb nabs nsub nmul Rnum]. rewrite !Rleb_true.
      split.
      - intros (Hi & Hj & Q & _).
        destruct i as [|[|i]]; [| |lia]; (destruct j as [|[|j]]; [| |lia]);
          unfold w, at_list in Q; cbn [nth] in Q; try (split; reflexivity);
          exfalso; revert Q; unfold Rabs; destruct (Rcase_abs _); lra.
      - intros [-> ->]. split; [lia|]. split; [lia|]. unfold w, at_list, f3. cbn [nth].
        split; unfold Rabs; destruct (Rcase_abs _); lra. }
    exists 2%nat, w, f3, (fun _ _ _ _ => 0), fm1, [].
    assert (Hw : forall i, (i < 2)%nat -> 0 < w i).
    { intros [|[|i]] Hi; unfold w, at_list; cbn; try lra; lia. }
    assert (Fl : forall i j k, flagged (make_fermi_checks fm1 []) i j k = true <->
       i = 1%nat /\ j = 1%nat /\ k = 0%nat).
    { intros i j k. rewrite flagged_resonant. unfold resonant. cbn. rewrite I1. intuition lia. }
    split; [exact Hw|]. split; [exact E1|]. split; [exact E2|]. split; [exact I1|]. split; [reflexivity|].
    rewrite e0_exact_lemma.
    - unfold e0_excess. cbn [seq].
      assert (T : flagged (make_fermi_checks fm1 []) 1 1 0 = true) by (apply Fl; auto).
      assert (T' : flagged (make_fermi_checks fm1 []) 0 0 1 = false).
      { apply not_true_iff_false. rewrite Fl. lia. }
      unfold Rsum at 1 2 3 4 5. cbn [fold_right Nat.eqb seq]. rewrite T, T'.
      unfold f3, w, at_list. cbn [nth].
      match goal with |- ?x + ?y <> ?x => assert (y > 0); [|lra] end.
      match goal with |- ?y > 0 => replace y with (3 / 64 * (20 * 20) / (2 * 1000 + 2010)) by (field; lra) end.
      lra.
    - split; [|intros ? ? ? []]. intros i j Hin. apply I1 in Hin. lia.
    - intros i j j' A B. apply I1 in A, B. lia.
    - exact Hw.
    - intros i j m Hi Hj Hm Q. 
      destruct i as [|[|i]]; [| |lia]; (destruct j as [|[|j]]; [| |lia]);
        (destruct m as [|[|m]]; [| |lia]); unfold w, at_list; cbn [nth]; lra.
  Qed.

  Definition distinct3 (x : R) (i j k : nat) : R :=
    if ((i =? j) || (j =? k) || (i =? k))%nat%bool then 0 else x.

  Lemma e0_type2_refuted_lemma :
    exists n (w : nat -> R) f3 f4 fm1 fm2,
      (forall i, (i < n)%nat -> 0 < w i) /\
      fermi1 AsymmTop (singles n) w f3 = Some fm1 /\
      fermi2 AsymmTop (singles n) w f3 = Some fm2 /\
      fm1 = [] /\ (forall i j k, In (i, j, k) fm2 <-> i = 2%nat /\ j = 1%nat /\ k = 0%nat) /\
      make_e0 f4 w f3 (make_fermi_checks fm1 fm2) (singles n) <>
      spec_e0 n f4 w f3 (flagged (make_fermi_checks fm1 fm2)).
  Proof.
    pose (w := at_list [3000; 1800; 1250]). pose (f3 := distinct3 20).
    assert (Dm : deg_modes AsymmTop 3 w = Some (singles 3)) by (apply deg_modes_asym_lemma; auto).
    destruct (fermi1_exact_lemma 3 w f3 _ Dm) as (fm1 & E1 & _ & H1).
    assert (fm1 = []) as ->.
    { destruct fm1 as [|[i j] l]; [reflexivity|]. exfalso.
      assert (In (i, j) ((i, j) :: l)) as Hin by now left.
      apply H1 in Hin as (_ & _ & _ & Q). rewrite nz_R in Q. cbn [nleb nabs Rnum] in Q.
      apply Rleb_true in Q. unfold f3, distinct3 in Q. rewrite Nat.eqb_refl in Q. cbn [orb] in Q.
      rewrite Rabs_R0 in Q. lra. }
    destruct (fermi2_exact_lemma 3 w f3 (singles 3)) as (fm2 & E2 & _ & H2).
    { intros a b Hab Hb. destruct a as [|[|[|a]]]; [| | |lia]; (destruct b as [|[|[|b]]]; [| | |lia]);
        unfold w, at_list; cbn [nth]; try lra; lia. }
    { exact Dm. }
    assert (I2 : forall i j k, In (i, j, k) fm2 <-> i = 2%nat /\ j = 1%nat /\ k = 0%nat).
    { intros i j k. rewrite H2. split; [lia|]. intros (-> & -> & ->). split; [lia|].
      unfold spec_fermi2, f3, distinct3, w, at_list. cbn [Nat.eqb orb nth].
      rewrite Rabs_pos_eq by lra. split; [lra|]. right.
      unfold Rabs. destruct (Rcase_abs _); lra. }
    exists 3%nat, w, f3, (fun _ _ _ _ => 0), [], fm2.
    assert (Hw : forall i, (i < 3)%nat -> 0 < w i).
    { intros [|[|[|i]]] Hi; unfold w, at_list; cbn; try lra; lia. }
    assert (Fl : forall i j k, flagged (make_fermi_checks [] fm2) i j k = true <->
       (i = 2%nat /\ j = 1%nat /\ k = 0%nat) \/ (i = 1%nat /\ j = 2%nat /\ k = 0%nat)).
    { intros i j k. rewrite flagged_resonant. unfold resonant. cbn. rewrite !I2. intuition lia. }
    split; [exact Hw|]. split; [exact E1|]. split; [exact E2|]. split; [reflexivity|]. split; [exact I2|].
    rewrite e0_exact_lemma.
    - unfold e0_excess. cbn [seq].
      assert (T : flagged (make_fermi_checks [] fm2) 2 1 0 = true) by (apply Fl; auto).
      assert (T' : forall k l, flagged (make_fermi_checks [] fm2) k k l = false).
      { intros k l. apply not_true_iff_false. rewrite Fl. lia. }
      match goal with |- ?x + ?y <> ?x => cut (y <> 0); [intros Q1 Q2; apply Q1; lra|] end.
      rewrite (Rsum_0 _ [0; 1; 2]%nat).
      2:{ intros k _. apply Rsum_0. intros l _. rewrite T'. now destruct (l =? k)%nat. }
      unfold Rsum. cbn [fold_right Nat.eqb seq]. rewrite T.
      unfold f3, distinct3, w, at_list. cbn [nth Nat.eqb orb]. intros Q.
      assert (G : / 32 * (20 * 20) * (1 / (1250 + 1800 + 3000) + 3 / (1250 - 1800 + 3000)
          + 1 / (1250 - 1800 - 3000)) > 0).
      { replace (1250 - 1800 - 3000) with (- (3550)) by ring.
        replace (1 / - (3550)) with (- (1 / 3550)) by (field). lra. }
      lra.
    - split; [intros ? ? []|]. intros i j k Hin. apply I2 in Hin. lia.
    - intros i j j' [].
    - exact Hw.
    - intros i j m Hi Hj Hm Q.
      destruct i as [|[|[|i]]]; [| | |lia]; (destruct j as [|[|[|j]]]; [| | |lia]);
        (destruct m as [|[|[|m]]]; [| | |lia]); unfold w, at_list; cbn [nth]; lra.
  Qed.

  (** ** a solver for symmetric 2 by 2 matrices *)
  Definition eig_solve (a b c : R) : R * R * (R * R) :=
    let d := sqrt ((a - c) ^ 2 + 4 * b ^ 2) in
    let l0 := (a + c - d) / 2 in
    let l1 := (a + c + d) / 2 in
    if Rltb 0 (Rabs b) then
      let n := sqrt (b ^ 2 + (l0 - a) ^ 2) in (l0, l1, (b / n, (l0 - a) / n))
    else if Rleb a c then (l0, l1, (1, 0)) else (l0, l1, (0, 1)).

  Lemma eig_solve_ok a b c : eig_ok eig_solve a b c.
  Proof.
    unfold eig_ok, eig_solve.
    set (d := sqrt ((a - c) ^ 2 + 4 * b ^ 2)).
    assert (Hd0 : 0 <= d) by apply sqrt_pos.
    assert (Hd : d * d = (a - c) ^ 2 + 4 * b ^ 2) by
      (apply sqrt_sqrt; pose proof (pow2_ge_0 (a - c)); pose proof (pow2_ge_0 b); lra).
    destruct (Rltb 0 (Rabs b)) eqn:B.
    - apply Rltb_true in B. assert (b <> 0) as Hb by (intros ->; rewrite Rabs_R0 in B; lra).
      set (l0 := (a + c - d) / 2). set (l1 := (a + c + d) / 2).
      set (n := sqrt (b ^ 2 + (l0 - a) ^ 2)).
      assert (P : 0 < b ^ 2 + (l0 - a) ^ 2) by
        (pose proof (pow2_ge_0 (l0 - a)); pose proof (Rsqr_pos_lt b Hb); unfold Rsqr in *; lra).
      assert (Hn : 0 < n) by (apply sqrt_lt_R0; exact P).
      assert (Hn2 : n * n = b ^ 2 + (l0 - a) ^ 2) by (apply sqrt_sqrt; lra).
      assert (Hch : (l0 - a) * (l0 - c) = b * b) by (unfold l0; lra).
      assert (Hs : l1 - a = - (l0 - c)) by (unfold l0, l1; lra).
      exists l0, l1, (b / n), ((l0 - a) / n), (- ((l0 - a) / n)), (b / n).
      split; [reflexivity|]. split; [unfold l0, l1; lra|].
      split; [transitivity ((b ^ 2 + (l0 - a) ^ 2) / (n * n)); [field; lra|rewrite Hn2; field; lra]|].
      split; [transitivity ((b ^ 2 + (l0 - a) ^ 2) / (n * n)); [field; lra|rewrite Hn2; field; lra]|].
      split; [field; lra|].
      assert (E2 : b * b + c * (l0 - a) = l0 * (l0 - a)) by (rewrite <- Hch; ring).
      assert (E3 : - (a * (l0 - a)) + b * b = - (l1 * (l0 - a))).
      { rewrite <- Hch. replace l1 with (a + c - l0) by (unfold l0, l1; lra). ring. }
      split; [field; lra|].
      split; [transitivity ((b * b + c * (l0 - a)) / n); [field; lra|rewrite E2; field; lra]|].
      split; [transitivity ((- (a * (l0 - a)) + b * b) / n); [field; lra|rewrite E3; field; lra]|].
      replace l1 with (a + c - l0) by (unfold l0, l1; lra). field. lra.
    - apply Rltb_false in B. assert (b = 0) as ->.
      { destruct (Req_dec b 0) as [|Hb]; [assumption|]. apply Rabs_pos_lt in Hb. lra. }
      assert (Hd' : d = Rabs (a - c)).
      { unfold d. replace ((a - c) ^ 2 + 4 * 0 ^ 2) with (Rsqr (a - c)) by (unfold Rsqr; ring).
        apply sqrt_Rsqr_abs. }
      destruct (Rleb a c) eqn:C.
      + apply Rleb_true in C. rewrite Rabs_left1 in Hd' by lra.
        do 2 eexists. exists 1, 0, 0, 1. split; [reflexivity|]. rewrite Hd'. repeat split; lra.
      + apply Rleb_false in C. rewrite Rabs_pos_eq in Hd' by lra.
        do 2 eexists. exists 0, 1, 1, 0. split; [reflexivity|]. rewrite Hd'. repeat split; lra.
  Qed.
End E0.

Lemma e0_refuted_lemma :
  (exists n (w : nat -> R) f3 f4 fm1 fm2 res,
     (forall i, i < n -> (0 < w i)%R) /\
     fermi1 AsymmTop (singles n) w f3 = Some fm1 /\ fermi2 AsymmTop (singles n) w f3 = Some fm2 /\
     reported fm1 fm2 res /\
     (forall i j, In (i, j) fm1 <-> i = 1 /\ j = 0) /\ fm2 = [] /\
     make_e0 f4 w f3 (make_fermi_checks fm1 fm2) (singles n) <> spec_e0 n f4 w f3 res) /\
  (exists n (w : nat -> R) f3 f4 fm1 fm2 res,
     (forall i, i < n -> (0 < w i)%R) /\
     fermi1 AsymmTop (singles n) w f3 = Some fm1 /\ fermi2 AsymmTop (singles n) w f3 = Some fm2 /\
     reported fm1 fm2 res /\
     fm1 = [] /\ (forall i j k, In (i, j, k) fm2 <-> i = 2 /\ j = 1 /\ k = 0) /\
     make_e0 f4 w f3 (make_fermi_checks fm1 fm2) (singles n) <> spec_e0 n f4 w f3 res).
Proof.
  split.
  - destruct e0_type1_refuted_lemma as (n & w & f3 & f4 & fm1 & fm2 & A & B & C & D & E & G).
    exists n, w, f3, f4, fm1, fm2, (flagged (make_fermi_checks fm1 fm2)).
    repeat (split; [assumption|]). split; [intros i j k; apply flagged_resonant|]. auto.
  - destruct e0_type2_refuted_lemma as (n & w & f3 & f4 & fm1 & fm2 & A & B & C & D & E & G).
    exists n, w, f3, f4, fm1, fm2, (flagged (make_fermi_checks fm1 fm2)).
    repeat (split; [assumption|]). split; [intros i j k; apply flagged_resonant|]. auto.
Qed.

(** ** used in examples *)
Definition ex_w : nat -> R := at_list [2010; 1000]%R.
Definition ex_res (i j k : nat) : bool := (i =? 1) && (j =? 1) && (k =? 0).
Lemma ex_hyps :
  reported [(1, 0)] [] ex_res /\ asym_lists [(1, 0)] [] /\
  (forall i j j', In (i, j) [(1, 0)] -> In (i, j') [(1, 0)] -> j = j') /\
  (forall l, l < 2 -> (0 < ex_w l)%R) /\
  (forall i j m, i < 2 -> j < 2 -> m < 2 ->
     ex_res i j m = false -> (ex_w i + ex_w j - ex_w m <> 0)%R).
Proof.
  split; [|split; [|split; [|split]]].
  - intros i j k. unfold ex_res, resonant. cbn.
    destruct (Nat.eqb_spec i 1), (Nat.eqb_spec j 1), (Nat.eqb_spec k 0); cbn; subst;
      intuition (try discriminate; try congruence).
  - split; cbn; [|tauto]. intros i j [E|[]]. injection E as <- <-. discriminate.
  - cbn. intros i j j' [E|[]] [E'|[]]. congruence.
  - intros [|[|l]] Hl; unfold ex_w, at_list; cbn; try lra; lia.
  - intros i j m Hi Hj Hm _.
    destruct i as [|[|i]]; [| |lia]; (destruct j as [|[|j]]; [| |lia]);
      (destruct m as [|[|m]]; [| |lia]); unfold ex_w, at_list; cbn [nth]; lra.
Qed.
