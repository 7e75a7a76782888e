(** The signs of the normal modes, symmetric tops and whole results. *)
From Coq Require Import Reals Lra List ZArith Arith Lia Bool Permutation FunctionalExtensionality.
From Verif Require Import Num Loops ListFacts Index IndexFacts LoadFacts Modes ModesFacts ResFacts Anharm AnharmFacts
  FermiFacts VibRot Distort Transform TransformFacts SymAnharm SymE0 Report Polyads Geom Finish FinishFacts RunFacts SignFacts.
Import ListNotations.
Open Scope nat_scope.
Local Open Scope R_scope.

Section Sym.
  Variable s : nat -> R.
  Hypothesis Hs : forall i, s i = 1 \/ s i = -1.
  Variables (f4 : nat -> nat -> nat -> nat -> R) (freq : nat -> R)
    (f3 : nat -> nat -> nat -> R) (zm : nat -> nat -> nat -> R) (wl : nat -> nat -> R)
    (rotcon primat : nat -> R).
  Notation f3' := (sg3 s f3).
  Notation f4' := (sg4 s f4).
  Notation zm' := (sg2 s zm).
  Notation wl' := (sg1 s wl).

  Lemma sq3 i j k : nsq (f3' i j k) = nsq (f3 i j k).
  Proof. unfold nsq, sg3. cbn [nmul Rnum]. destruct (Hs i) as [-> | ->], (Hs j) as [-> | ->], (Hs k) as [-> | ->]; ring. Qed.
  Lemma sq2 i j a : nsq (zm' i j a) = nsq (zm i j a).
  Proof. unfold nsq, sg2. cbn [nmul Rnum]. destruct (Hs i) as [-> | ->], (Hs j) as [-> | ->]; ring. Qed.
  Lemma sq1 i a : nsq (wl' i a) = nsq (wl i a).
  Proof. unfold nsq, sg1. cbn [nmul Rnum]. destruct (Hs i) as [-> | ->]; ring. Qed.
  Lemma p33 k l m : nmul (f3' k k m) (f3' l l m) = nmul (f3 k k m) (f3 l l m).
  Proof. unfold sg3. cbn [nmul Rnum]. destruct (Hs k) as [-> | ->], (Hs l) as [-> | ->], (Hs m) as [-> | ->]; ring. Qed.
  Lemma p13 j k a : nmul (wl' j a) (f3' j k k) = nmul (wl j a) (f3 j k k).
  Proof. unfold sg3, sg1. cbn [nmul Rnum]. destruct (Hs k) as [-> | ->], (Hs j) as [-> | ->]; ring. Qed.
  Lemma p31 j k a : nmul (f3' j k k) (wl' j a) = nmul (f3 j k k) (wl j a).
  Proof. unfold sg3, sg1. cbn [nmul Rnum]. destruct (Hs k) as [-> | ->], (Hs j) as [-> | ->]; ring. Qed.
  Lemma q4 k l : f4' k k l l = f4 k k l l.
  Proof. unfold sg4. destruct (Hs k) as [-> | ->], (Hs l) as [-> | ->]; ring. Qed.
  Lemma abs1 i a : nabs (wl' i a) = nabs (wl i a).
  Proof. unfold sg1. cbn [nabs Rnum]. destruct (Hs i) as [-> | ->]; [f_equal; ring|]. rewrite <- (Rabs_Ropp (wl i a)). f_equal. ring. Qed.

  Lemma make_e2_sg c modes : make_e2 f4' freq f3' c modes = make_e2 f4 freq f3 c modes.
  Proof.
    assert (E : e2_kss freq f3' c = e2_kss freq f3 c).
    { extensionality k. extensionality l. unfold e2_kss. now rewrite sq3. }
    unfold make_e2. rewrite E. unfold acc_add. f_equal. f_equal.
    - apply fold_ext. intros a k _. now rewrite q4.
    - apply fold_ext. intros a k _. now rewrite sq3.
  Qed.
  Lemma make_e3_sg c modes : make_e3 freq f3' c modes = make_e3 freq f3 c modes.
  Proof.
    assert (E : e3_sst freq f3' c = e3_sst freq f3 c).
    { extensionality k. extensionality l. unfold e3_sst. now rewrite sq3. }
    assert (E1 : e3_kst freq f3' c = e3_kst freq f3 c).
    { extensionality k. extensionality l. extensionality m. unfold e3_kst. now rewrite sq3. }
    assert (E2 : e3_stu freq f3' c = e3_stu freq f3 c).
    { extensionality k. extensionality l. extensionality m. unfold e3_stu. now rewrite sq3. }
    unfold make_e3, e3_loop. now rewrite E, E1, E2.
  Qed.
  Lemma diag_term_sg c : diag_term freq f3' c = diag_term freq f3 c.
  Proof. extensionality k. extensionality l. unfold diag_term. now rewrite sq3. Qed.
  Lemma nn_value_sg c i1 ia k l : nn_value f4' freq f3' zm' rotcon c i1 ia k l = nn_value f4 freq f3 zm rotcon c i1 ia k l.
  Proof.
    unfold nn_value, acc_sub, nsum, acc_add. rewrite q4, sq2. f_equal. f_equal; [f_equal|].
    - apply fold_ext. intros a m _. now rewrite p33.
    - apply fold_ext. intros a m _. now rewrite sq3.
  Qed.
  Lemma nondeg_nondeg_sg r c i1 ia x : nondeg_nondeg f4' freq f3' zm' rotcon r c i1 ia x
    = nondeg_nondeg f4 freq f3 zm rotcon r c i1 ia x.
  Proof.
    unfold nondeg_nondeg. rewrite diag_term_sg.
    assert (E : nn_value f4' freq f3' zm' rotcon c i1 ia = nn_value f4 freq f3 zm rotcon c i1 ia).
    { extensionality k. extensionality l. apply nn_value_sg. }
    rewrite E. destruct (is_diatomic r); [reflexivity|]. do 2 f_equal.
    apply fold_ext. intros a k _. now rewrite q4.
  Qed.
  Lemma nondeg_deg_sg c i1 i2 ib x : nondeg_deg f4' freq f3' zm' rotcon c i1 i2 ib x
    = nondeg_deg f4 freq f3 zm rotcon c i1 i2 ib x.
  Proof.
    assert (E : nd_value f4' freq f3' zm' rotcon c i1 i2 ib = nd_value f4 freq f3 zm rotcon c i1 i2 ib).
    { extensionality k. extensionality l. unfold nd_value, acc_sub, nsum, acc_add. rewrite q4, !sq2.
      f_equal. f_equal; [f_equal|].
      - apply fold_ext. intros a m _. now rewrite p33.
      - apply fold_ext. intros a m _. now rewrite sq3. }
    unfold nondeg_deg. now rewrite E.
  Qed.
  Lemma deg_deg_sg c i1 i2 ia ib ixyz x : deg_deg f4' freq f3' zm' rotcon c i1 i2 ia ib ixyz x
    = deg_deg f4 freq f3 zm rotcon c i1 i2 ia ib ixyz x.
  Proof.
    assert (E1 : dd1_value f4' freq f3' c i1 i2 = dd1_value f4 freq f3 c i1 i2).
    { extensionality k. unfold dd1_value. now rewrite q4, diag_term_sg. }
    assert (U : dd_u freq f3' c = dd_u freq f3 c).
    { extensionality k. extensionality l. extensionality m. unfold dd_u. now rewrite sq3. }
    assert (U1 : dd_us freq f3' c = dd_us freq f3 c).
    { extensionality k. extensionality l. extensionality m. unfold dd_us. now rewrite sq3. }
    assert (E2 : dd_value f4' freq f3' zm' rotcon c i1 i2 ia ib ixyz = dd_value f4 freq f3 zm rotcon c i1 i2 ia ib ixyz).
    { extensionality k. extensionality l. extensionality l2. unfold dd_value, nsum, acc_add.
      rewrite !q4, !sq2, U, U1. do 3 f_equal. f_equal. apply fold_ext. intros a m _. now rewrite p33. }
    unfold deg_deg, deg_deg1. now rewrite E1, E2.
  Qed.
  Lemma make_gcnst_sg c i1 i2 ia ib ixyz : (forall k k2, In (k, k2) i2 -> s k = s k2) ->
    make_gcnst f4' freq f3' zm' rotcon c i1 i2 ia ib ixyz = make_gcnst f4 freq f3 zm rotcon c i1 i2 ia ib ixyz.
  Proof.
    intros Hp.
    assert (E1 : gcnst1 f4' freq f3' zm' rotcon c i1 i2 ia = gcnst1 f4 freq f3 zm rotcon c i1 i2 ia).
    { assert (U : g1_u freq f3' c = g1_u freq f3 c).
      { extensionality k. extensionality l. unfold g1_u. now rewrite sq3. }
      assert (U1 : g1_us freq f3' c = g1_us freq f3 c).
      { extensionality k. extensionality l. unfold g1_us. now rewrite sq3. }
      extensionality g. unfold gcnst1. apply fold_ext. intros a kk _. destruct (nth kk i2 (0, 0)%nat) as [k k2].
      unfold g1_value. now rewrite U, U1, sq2, q4. }
    unfold make_gcnst. rewrite E1. apply fold_ext. intros g kk Hk%in_range.
    destruct (nth kk i2 (0, 0)%nat) as [k k2] eqn:Ek.
    assert (Ik : In (k, k2) i2). { rewrite <- Ek. apply nth_In. lia. }
    apply fold_ext. intros a ll Hl%in_range. destruct (nth ll i2 (0, 0)%nat) as [l l2] eqn:El.
    assert (Il : In (l, l2) i2). { rewrite <- El. apply nth_In. lia. }
    f_equal. unfold g_value, nsum, acc_add. rewrite !sq2. f_equal; [f_equal|f_equal].
    - apply fold_ext. intros a0 m _. now rewrite sq3.
    - apply fold_ext. intros a0 m _. now rewrite sq3.
    - unfold sg2. cbn [nmul Rnum]. rewrite (Hp k k2 Ik), (Hp l l2 Il).
      destruct (Hs k2) as [-> | ->], (Hs l2) as [-> | ->]; ring.
  Qed.
  Lemma xcals_sg r fm1 fm2 modes : (forall k k2, In (k, k2) (i2mode modes) -> s k = s k2) ->
    xcals f4' freq f3' zm' rotcon r fm1 fm2 modes wl' = xcals f4 freq f3 zm rotcon r fm1 fm2 modes wl.
  Proof.
    intros Hp. unfold xcals.
    assert (E : xcals_ixyz r (i2mode modes) wl' = xcals_ixyz r (i2mode modes) wl).
    { unfold xcals_ixyz. destruct (is_linear r); [reflexivity|].
      assert (Q : forall t, fold_left (fun n '(_, i2) => if nleb (nabs (wl' i2 t)) XTOL then (n + 1)%nat else n) (i2mode modes) 0%nat
        = fold_left (fun n '(_, i2) => if nleb (nabs (wl i2 t)) XTOL then (n + 1)%nat else n) (i2mode modes) 0%nat).
      { intros t. apply fold_ext. intros a [k k2] _. now rewrite abs1. }
      now rewrite !Q. }
    rewrite E, make_e0_sg, make_e2_sg, make_e3_sg, nondeg_nondeg_sg by exact Hs.
    destruct (nondeg_nondeg _ _ _ _ _ _ _ _ _ _); [|reflexivity]. cbn [obind].
    now rewrite nondeg_deg_sg, deg_deg_sg, make_gcnst_sg by exact Hp.
  Qed.

  Lemma alphas_sg r modes states cor : alphas rotcon primat freq wl' zm' f3' r modes states cor
    = alphas rotcon primat freq wl zm f3 r modes states cor.
  Proof.
    assert (R2 : forall i j a x y, cor_res (zm' i j a) x y = cor_res (zm i j a) x y).
    { intros. unfold cor_res. now rewrite sq2. }
    assert (R3 : forall i j a x y, cor_def (zm' i j a) x y = cor_def (zm i j a) x y).
    { intros. unfold cor_def. now rewrite sq2. }
    assert (R4 : forall i j a x y, cor_def' (zm' i j a) x y = cor_def' (zm i j a) x y).
    { intros. unfold cor_def'. now rewrite sq2. }
    assert (CA : forall t, cubic_a freq wl' f3' modes t = cubic_a freq wl f3 modes t).
    { intros t. extensionality k. unfold cubic_a, nsum, acc_add. apply fold_ext. intros a j _. now rewrite p13. }
    assert (CB : forall t, cubic_b freq wl' f3' modes t = cubic_b freq wl f3 modes t).
    { intros t. extensionality k. unfold cubic_b, nsum, acc_add. apply fold_ext. intros a j _. now rewrite p31. }
    assert (E : sym_alpha rotcon primat freq wl' zm' f3' r modes cor = sym_alpha rotcon primat freq wl zm f3 r modes cor).
    { unfold sym_alpha. destruct (match r with ProlateSymmTop => (3, 0) | _ => (4, 2) end)%nat as [iaib ibib].
      set (ico := make_icorol cor).
      assert (BC : bc_step freq zm' ico 1 0 = bc_step freq zm ico 1 0).
      { extensionality k. extensionality a. extensionality j. unfold bc_step. now rewrite !R2, !R4. }
      assert (A1 : alpha_a_nondeg rotcon primat freq wl' zm' f3' modes ico 2 5 = alpha_a_nondeg rotcon primat freq wl zm f3 modes ico 2 5).
      { extensionality k. unfold alpha_a_nondeg. rewrite sq1, CA. do 3 f_equal. apply fold_ext. intros a jj _.
        now rewrite R2, R3. }
      assert (A2 : alpha_a_deg rotcon primat freq wl' zm' f3' modes ico 2 1 5 iaib = alpha_a_deg rotcon primat freq wl zm f3 modes ico 2 1 5 iaib).
      { extensionality kk. unfold alpha_a_deg. rewrite sq1, CA. do 3 f_equal. apply fold_ext. intros a jj _.
        destruct (m2 modes jj) as [j1 j2]. now rewrite R2, R3. }
      assert (A3 : alpha_b_nondeg rotcon primat freq wl' zm' f3' modes ico 1 0 ibib 1 = alpha_b_nondeg rotcon primat freq wl zm f3 modes ico 1 0 ibib 1).
      { extensionality k. unfold alpha_b_nondeg. now rewrite !sq1, CB, BC. }
      assert (A4 : alpha_b_deg rotcon primat freq wl' zm' f3' r modes ico 2 1 0 iaib ibib = alpha_b_deg rotcon primat freq wl zm f3 r modes ico 2 1 0 iaib ibib).
      { extensionality k. unfold alpha_b_deg. now rewrite !sq1, CB, BC. }
      unfold make_alpha. now rewrite A1, A2, A3, A4. }
    unfold alphas. now rewrite E.
  Qed.
End Sym.
