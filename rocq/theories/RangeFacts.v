(** The results of an asymmetric top depend on the constants of the vibrations only: two
    families of constants that agree for mode numbers below [n] give the same results. *)
From Coq Require Import List ZArith Arith Lia Bool FunctionalExtensionality.
From Verif Require Import Num Loops ListFacts Index Modes ModesFacts ResFacts Anharm
  FermiFacts VibRot Distort SymE0 StatesFacts.
Import ListNotations.
Open Scope nat_scope.

Section Range.
  Context {F : Type} `{Num F}.
  Variable n : nat.
  Variables (f4 f4' : nat -> nat -> nat -> nat -> F) (freq : nat -> F)
    (f3 f3' : nat -> nat -> nat -> F) (zm zm' : nat -> nat -> nat -> F) (wl wl' : nat -> nat -> F)
    (rotcon primat : nat -> F).
  Hypothesis A1 : forall i t, i < n -> wl' i t = wl i t.
  Hypothesis A2 : forall i j a, i < n -> j < n -> zm' i j a = zm i j a.
  Hypothesis A3 : forall i j k, i < n -> j < n -> k < n -> f3' i j k = f3 i j k.
  Hypothesis A4 : forall i j k l, i < n -> j < n -> k < n -> l < n -> f4' i j k l = f4 i j k l.
  Local Open Scope num_scope.

  Lemma tau_rg pr : make_tau n freq pr wl' = make_tau n freq pr wl.
  Proof.
    extensionality i. extensionality j. extensionality k. extensionality l. unfold make_tau, nsum, acc_add.
    f_equal. apply fold_ext. intros a v Hv%in_range. now rewrite !A1 by lia.
  Qed.
  Lemma quartic_rg r : quartic_new r n rotcon primat freq wl' = quartic_new r n rotcon primat freq wl.
  Proof. unfold quartic_new. now rewrite tau_rg. Qed.

  Lemma collect_rg {A B} (l : list A) (f g : A -> list B) : (forall a, In a l -> f a = g a) -> collect l f = collect l g.
  Proof. apply collect_ext. Qed.
  Lemma ocollect_rg {A B} (l : list A) (f g : A -> option (list B)) :
    (forall a, In a l -> f a = g a) -> ocollect l f = ocollect l g.
  Proof.
    intros E. induction l as [|a l IH]; [reflexivity|]. cbn [ocollect].
    rewrite E by now left. rewrite IH; [reflexivity|]. intros; apply E; now right.
  Qed.
  Lemma m1_sg i : i < n -> m1 (singles n) i = i.
  Proof. intros Hi. unfold m1. now rewrite i1mode_singles, seq_nth. Qed.

  Lemma coriolis_rg : coriolis AsymmTop (singles n) freq zm' = coriolis AsymmTop (singles n) freq zm.
  Proof.
    unfold coriolis. rewrite n1dm_singles. f_equal. apply collect_rg. intros ii Hi%in_range.
    apply collect_rg. intros jj Hj%in_range. rewrite !m1_sg by lia. apply collect_rg. intros z _.
    unfold cor_test. now rewrite A2 by lia.
  Qed.
  Lemma fermi1_rg : fermi1 AsymmTop (singles n) freq f3' = fermi1 AsymmTop (singles n) freq f3.
  Proof.
    unfold fermi1. rewrite i1mode_singles. f_equal. apply collect_rg. intros i Hi%in_seq.
    apply collect_rg. intros j Hj%in_seq. unfold ferm1_test. now rewrite A3 by lia.
  Qed.
  Lemma fermi2_rg : fermi2 AsymmTop (singles n) freq f3' = fermi2 AsymmTop (singles n) freq f3.
  Proof.
    unfold fermi2. rewrite n1dm_singles. apply ocollect_rg. intros i Hi%in_range.
    apply ocollect_rg. intros j Hj%in_range. apply ocollect_rg. intros k Hk%in_range.
    rewrite !m1_sg by lia. unfold ferm2_test. now rewrite A3 by lia.
  Qed.

  Lemma xcalc_rg fm1 fm2 : xcalc n f4' freq f3' zm' rotcon fm1 fm2 = xcalc n f4 freq f3 zm rotcon fm1 fm2.
  Proof.
    unfold xcalc. set (c := make_fermi_checks fm1 fm2).
    match goal with |- fold_left ?f ?l ?a = fold_left ?g ?l ?b => transitivity (fold_left g l a) end.
    - apply fold_ext. intros a k Hk%in_range. apply fold_ext. intros b l Hl%in_range.
      assert (E : xcalc_off n f4' freq f3' zm' rotcon c k l = xcalc_off n f4 freq f3 zm rotcon c k l).
      { unfold xcalc_off, acc_sub, nsum, acc_add. rewrite A4 by lia. rewrite !A2 by lia.
        f_equal. f_equal; [f_equal|]; apply fold_ext; intros x m Hm%in_range; now rewrite !A3 by lia. }
      now rewrite E.
    - f_equal. apply fold_ext. intros a k Hk%in_range.
      assert (E : xcalc_diag n f4' freq f3' c k = xcalc_diag n f4 freq f3 c k).
      { unfold xcalc_diag, acc_sub. rewrite A4 by lia. f_equal. apply fold_ext; intros x m Hm%in_range.
        now rewrite !A3 by lia. }
      now rewrite E.
  Qed.

  Lemma make_e0_rg c : make_e0 f4' freq f3' c (singles n) = make_e0 f4 freq f3 c (singles n).
  Proof.
    unfold make_e0, nsum, acc_add, acc_sub. rewrite i1mode_singles.
    f_equal; [f_equal; [f_equal|]|].
    - apply fold_ext. intros a k Hk%in_seq. now rewrite A4 by lia.
    - apply fold_ext. intros a k Hk%in_seq. now rewrite A3 by lia.
    - apply fold_ext. intros a k Hk%in_seq. apply fold_ext. intros b l Hl.
      apply filter_In in Hl as [Hl%in_seq _]. unfold e0_kkl. now rewrite A3 by lia.
    - apply fold_ext. intros a k Hk%in_seq. apply fold_ext. intros b l Hl. apply fold_ext. intros x m Hm.
      apply filter_In in Hl as [Hl%in_seq _]. apply filter_In in Hm as [Hm%in_seq _]. unfold e0_klm. now rewrite A3 by lia.
  Qed.

  Lemma alpha_rg cor i x : i < n -> alpha n rotcon primat freq wl' zm' f3' cor i x = alpha n rotcon primat freq wl zm f3 cor i x.
  Proof.
    intros Hi. unfold alpha, nsum, acc_add. f_equal. f_equal; [f_equal|].
    - f_equal. apply fold_ext. intros a y _. now rewrite A1.
    - apply fold_ext. intros a j Hj%in_range. now rewrite A2 by lia.
    - f_equal. apply fold_ext. intros a j Hj%in_range. now rewrite A1, A3 by lia.
  Qed.
  Lemma alphaa_rg states cor : alphaa n rotcon primat freq wl' zm' f3' (singles n) states cor
    = alphaa n rotcon primat freq wl zm f3 (singles n) states cor.
  Proof.
    assert (E : forall x s, alphaa_sum (singles n) (fun i => alpha n rotcon primat freq wl' zm' f3' cor i x) s
      = alphaa_sum (singles n) (fun i => alpha n rotcon primat freq wl zm f3 cor i x) s).
    { intros x s. unfold alphaa_sum. rewrite n1dm_singles. apply ofold_ext. intros a ii Hi%in_range.
      unfold singles. rewrite nth_error_map_seq by lia. cbn [obind]. destruct s; try reflexivity.
      now rewrite alpha_rg by lia. }
    unfold alphaa. apply ofold_ext. intros a k _. destruct (nth_error states k); [|reflexivity]. cbn [obind].
    now rewrite !E.
  Qed.

  (** the tensors of the sextic constants *)
  Lemma c_mat_rg mc pr : c_mat mc n freq pr wl' = c_mat mc n freq pr wl.
  Proof.
    unfold c_mat. apply fold_ext. intros c i Hi%in_range. apply fold_ext. intros c1 x _.
    apply fold_ext. intros c2 y _. now rewrite A1 by lia.
  Qed.
  Lemma cc_tensor_rg mc c : cc_tensor n mc freq c zm' rotcon = cc_tensor n mc freq c zm rotcon.
  Proof.
    unfold cc_tensor. apply fold_ext. intros cc i Hi%in_range. apply fold_ext. intros c1 x _.
    assert (E1 : cc_diag n freq c zm' rotcon i x = cc_diag n freq c zm rotcon i x).
    { unfold cc_diag, nsum, acc_add. f_equal. apply fold_ext. intros a j Hj%in_range. now rewrite A2 by lia. }
    rewrite E1. apply fold_ext. intros c2 y _.
    assert (E2 : cc_pair n freq c zm' rotcon i x y = cc_pair n freq c zm rotcon i x y).
    { unfold cc_pair, nsum, acc_add. f_equal. apply fold_ext. intros a j Hj%in_range. now rewrite !A2 by lia. }
    rewrite E2. destruct (Nat.eqb x y); [reflexivity|]. apply fold_ext. intros c3 z _.
    assert (E3 : cc_triple n freq c zm' rotcon i x y z = cc_triple n freq c zm rotcon i x y z).
    { unfold cc_triple, nsum, acc_add. f_equal. apply fold_ext. intros a j Hj%in_range. now rewrite !A2 by lia. }
    now rewrite E3.
  Qed.
  Lemma sextic_rg r nfreq g3 : sextic_new r n nfreq rotcon primat freq wl' zm' g3
    = sextic_new r n nfreq rotcon primat freq wl zm g3.
  Proof. unfold sextic_new. cbv zeta. now rewrite tau_rg, c_mat_rg, cc_tensor_rg. Qed.
End Range.
