(** Lemmas about the resonance searches. *)
From Coq Require Import List ZArith Arith Lia Bool Permutation Reals Lra.
From Coq Require Import ZifyBool ZifyNat.
From Verif Require Import Num Loops Index Modes ListFacts IndexFacts ModesFacts.
Import ListNotations.

(** ** boolean comparisons over the reals *)
Lemma Rltb_true x y : Rltb x y = true <-> (x < y)%R.
Proof. unfold Rltb. destruct (Rlt_dec x y); split; intros; auto; discriminate || contradiction. Qed.
Lemma Rleb_true x y : Rleb x y = true <-> (x <= y)%R.
Proof. unfold Rleb. destruct (Rle_dec x y); split; intros; auto; discriminate || contradiction. Qed.
Lemma Reqb_true x y : Reqb x y = true <-> x = y.
Proof. unfold Reqb. destruct (Req_EM_T x y); split; intros; auto; discriminate || contradiction. Qed.
Lemma Rltb_false x y : Rltb x y = false <-> (y <= x)%R.
Proof. unfold Rltb. destruct (Rlt_dec x y); split; intros; auto; try discriminate; lra. Qed.
Lemma Rleb_false x y : Rleb x y = false <-> (y < x)%R.
Proof. unfold Rleb. destruct (Rle_dec x y); split; intros; auto; try discriminate; lra. Qed.

Lemma nz_R z : nz z = IZR z.
Proof. unfold nz. cbn. field. Qed.

Lemma collect_ext {A B} (l : list A) (f g : A -> list B) :
  (forall x, In x l -> f x = g x) -> collect l f = collect l g.
Proof.
  unfold collect. induction l as [|a l IH]; intros He; [reflexivity|]. cbn.
  rewrite He by now left. f_equal. apply IH. intros; apply He; now right.
Qed.

Section Any.
  Context {F : Type} `{Num F}.

  Lemma in_ferm1_test freq f3 i j x :
    In x (ferm1_test freq f3 i j) <->
    x = (i, j) /\ nleb (nabs (nsub (nmul (nz 2) (freq i)) (freq j))) (nz 200) = true /\
    nleb (nz 10) (nabs (f3 i i j)) = true.
  Proof.
    unfold ferm1_test, ngeb, FTOL1, F3TOL.
    destruct (nleb (nabs (nsub (nmul (nz 2) (freq i)) (freq j))) (nz 200)) eqn:E1,
             (nleb (nz 10) (nabs (f3 i i j))) eqn:E2; cbn;
      (split; [intros Hin|intros (-> & A & B)]; try discriminate; try tauto).
    destruct Hin as [<-|[]]. auto.
  Qed.

  Lemma ferm1_test_nodup freq f3 i j : NoDup (ferm1_test freq f3 i j).
  Proof. unfold ferm1_test. destruct (_ && _); repeat constructor; intros []. Qed.

  Lemma fermi1_exact_lemma nvib (freq : nat -> F) f3 modes :
    deg_modes AsymmTop nvib freq = Some modes ->
    exists ret, fermi1 AsymmTop modes freq f3 = Some ret /\ NoDup ret /\
      forall i j, In (i, j) ret <->
        i < nvib /\ j < nvib /\
        nleb (nabs (nsub (nmul (nz 2) (freq i)) (freq j))) (nz 200) = true /\
        nleb (nz 10) (nabs (f3 i i j)) = true.
  Proof.
    rewrite deg_modes_asym_lemma by auto. intros He. injection He as <-.
    fold (singles nvib). cbn [fermi1]. rewrite i1mode_singles.
    eexists. split; [reflexivity|]. split.
    - apply NoDup_flat_map; [apply seq_NoDup| |].
      + intros i _. apply NoDup_flat_map; [apply seq_NoDup| |].
        * intros j _. apply ferm1_test_nodup.
        * intros x y z _ _ Hx Hy. apply in_ferm1_test in Hx as [-> _].
          apply in_ferm1_test in Hy as [Hy _]. congruence.
      + intros x y z _ _ Hx Hy.
        apply in_flat_map in Hx as (j & _ & Hx). apply in_flat_map in Hy as (j' & _ & Hy).
        apply in_ferm1_test in Hx as [-> _]. apply in_ferm1_test in Hy as [Hy _]. congruence.
    - intros i j. rewrite in_collect. split.
      + intros (x & Hx & Hin). apply in_collect in Hin as (y & Hy & Hin).
        apply in_ferm1_test in Hin as (He & A & B). injection He as -> ->.
        apply in_seq in Hx, Hy. repeat split; auto; lia.
      + intros (Hi & Hj & A & B). exists i. split; [apply in_seq; lia|].
        apply in_collect. exists j. split; [apply in_seq; lia|].
        apply in_ferm1_test. auto.
  Qed.

  Lemma in_cor_test freq zmat i j ax lbl x :
    In x (cor_test freq zmat i j ax lbl) <->
    x = (i, j, lbl) /\ nleb (nabs (nsub (freq i) (freq j))) (nz 200) = true /\
    nleb (nlit 1 4) (nabs (zmat i j ax)) = true.
  Proof.
    unfold cor_test, ngeb, CTOL, ZTOL.
    destruct (nleb (nabs (nsub (freq i) (freq j))) (nz 200)) eqn:E1,
             (nleb (nlit 1 4) (nabs (zmat i j ax))) eqn:E2; cbn;
      (split; [intros Hin|intros (-> & A & B)]; try discriminate; try tauto).
    destruct Hin as [<-|[]]. auto.
  Qed.
  Lemma cor_test_nodup freq zmat i j ax lbl : NoDup (cor_test freq zmat i j ax lbl).
  Proof. unfold cor_test. destruct (_ && _); repeat constructor; intros []. Qed.

  Lemma coriolis_exact_lemma nvib (freq : nat -> F) zmat modes :
    deg_modes AsymmTop nvib freq = Some modes ->
    exists ret, coriolis AsymmTop modes freq zmat = Some ret /\ NoDup ret /\
      forall i j ax, In (i, j, ax) ret <->
        j < i /\ i < nvib /\ ax < 3 /\
        nleb (nabs (nsub (freq i) (freq j))) (nz 200) = true /\
        nleb (nlit 1 4) (nabs (zmat i j ax)) = true.
  Proof.
    rewrite deg_modes_asym_lemma by auto. intros He. injection He as <-.
    fold (singles nvib). cbn [coriolis]. rewrite n1dm_singles.
    eexists. split; [reflexivity|].
    rewrite (collect_ext _ _ (fun i => collect (range 0 i) (fun j =>
              collect (range 0 3) (fun z => cor_test freq zmat i j z z)))).
    2:{ intros i Hi. apply in_range in Hi. rewrite m1_singles by lia.
        apply collect_ext. intros j Hj. apply in_range in Hj.
        rewrite m1_singles by lia. reflexivity. }
    split.
    - apply NoDup_flat_map; [apply range_nodup| |].
      + intros i _. apply NoDup_flat_map; [apply range_nodup| |].
        * intros j _. apply NoDup_flat_map; [apply range_nodup| |].
          -- intros z _. apply cor_test_nodup.
          -- intros x y z _ _ Hx Hy. apply in_cor_test in Hx as [-> _].
             apply in_cor_test in Hy as [Hy _]. congruence.
        * intros x y z _ _ Hx Hy.
          apply in_flat_map in Hx as (c & _ & Hx). apply in_flat_map in Hy as (c' & _ & Hy).
          apply in_cor_test in Hx as [-> _]. apply in_cor_test in Hy as [Hy _]. congruence.
      + intros x y z _ _ Hx Hy.
        apply in_flat_map in Hx as (j & _ & Hx). apply in_flat_map in Hy as (j' & _ & Hy).
        apply in_flat_map in Hx as (c & _ & Hx). apply in_flat_map in Hy as (c' & _ & Hy).
        apply in_cor_test in Hx as [-> _]. apply in_cor_test in Hy as [Hy _]. congruence.
    - intros i j ax. rewrite in_collect_range. split.
      + intros (x & Hx & Hin). apply in_collect_range in Hin as (y & Hy & Hin).
        apply in_collect_range in Hin as (z & Hz & Hin).
        apply in_cor_test in Hin as (He & A & B). injection He as -> -> ->.
        repeat split; auto; lia.
      + intros (Hj & Hi & Hax & A & B). exists i. split; [lia|].
        apply in_collect_range. exists j. split; [lia|].
        apply in_collect_range. exists ax. split; [lia|]. apply in_cor_test. auto.
  Qed.

  Lemma in_darling_test freq i j x :
    In x (darling_test freq i j) <->
    x = (i, j) /\
    nleb (nabs (nsub (nmul (nz 2) (freq i)) (nmul (nz 2) (freq j)))) (nz 300) = true.
  Proof.
    unfold darling_test, DDTOL.
    destruct (nleb (nabs (nsub (nmul (nz 2) (freq i)) (nmul (nz 2) (freq j)))) (nz 300)) eqn:E1;
      cbn; (split; [intros Hin|intros (-> & A)]; try discriminate; try tauto).
    destruct Hin as [<-|[]]. auto.
  Qed.
  Lemma darling_test_nodup freq i j : NoDup (darling_test freq i j).
  Proof. unfold darling_test. destruct (nleb _ _); repeat constructor; intros []. Qed.

  Lemma darling_exact_lemma nvib (freq : nat -> F) modes :
    deg_modes AsymmTop nvib freq = Some modes ->
    exists ret, darling AsymmTop modes freq = Some ret /\ NoDup ret /\
      forall i j, In (i, j) ret <->
        j < i /\ i < nvib /\
        nleb (nabs (nsub (nmul (nz 2) (freq i)) (nmul (nz 2) (freq j)))) (nz 300) = true.
  Proof.
    rewrite deg_modes_asym_lemma by auto. intros He. injection He as <-.
    fold (singles nvib). cbn [darling]. rewrite n1dm_singles.
    eexists. split; [reflexivity|].
    rewrite (collect_ext _ _ (fun i => collect (range 0 i) (fun j => darling_test freq i j))).
    2:{ intros i Hi. apply in_range in Hi. rewrite m1_singles by lia.
        apply collect_ext. intros j Hj. apply in_range in Hj.
        rewrite m1_singles by lia. reflexivity. }
    split.
    - apply NoDup_flat_map; [apply range_nodup| |].
      + intros i _. apply NoDup_flat_map; [apply range_nodup| |].
        * intros j _. apply darling_test_nodup.
        * intros x y z _ _ Hx Hy. apply in_darling_test in Hx as [-> _].
          apply in_darling_test in Hy as [Hy _]. congruence.
      + intros x y z _ _ Hx Hy.
        apply in_flat_map in Hx as (j & _ & Hx). apply in_flat_map in Hy as (j' & _ & Hy).
        apply in_darling_test in Hx as [-> _]. apply in_darling_test in Hy as [Hy _]. congruence.
    - intros i j. rewrite in_collect_range. split.
      + intros (x & Hx & Hin). apply in_collect_range in Hin as (y & Hy & Hin).
        apply in_darling_test in Hin as (He & A). injection He as -> ->.
        repeat split; auto; lia.
      + intros (Hj & Hi & A). exists i. split; [lia|].
        apply in_collect_range. exists j. split; [lia|]. apply in_darling_test. auto.
  Qed.

  (** symmetric tops: what the Darling-Dennison loops look at *)
  Lemma darling_sym_lemma r modes (freq : nat -> F) :
    r = OblateSymmTop \/ r = ProlateSymmTop \/ r = Linear ->
    exists ret, darling r modes freq = Some ret /\
      forall i j, In (i, j) ret <->
        nleb (nabs (nsub (nmul (nz 2) (freq i)) (nmul (nz 2) (freq j)))) (nz 300) = true /\
        ((exists p q, q < p /\ nth_error (i1mode modes) p = Some i /\
                      nth_error (i1mode modes) q = Some j) \/
         (exists p q j', 0 < p /\ nth_error (i1mode modes) p = Some i /\
                      nth_error (i2mode modes) q = Some (j, j')) \/
         (exists p q i' j', q < p /\ nth_error (i2mode modes) p = Some (i, i') /\
                      nth_error (i2mode modes) q = Some (j, j'))).
  Proof.
    intros Hr. pose (R :=
      collect (range 1 (n1dm modes)) (fun ii =>
            collect (range 0 ii) (fun jj => darling_test freq (m1 modes ii) (m1 modes jj))
            ++
            collect (range 0 (n2dm modes)) (fun jj =>
              darling_test freq (m1 modes ii) (fst (m2 modes jj))))
          ++
          collect (range 1 (n2dm modes)) (fun ii =>
            collect (range 0 ii) (fun jj =>
              darling_test freq (fst (m2 modes ii)) (fst (m2 modes jj))))).
    exists R. split; [destruct Hr as [->|[->| ->]]; reflexivity|].
    assert (A1 : forall p, p < n1dm modes -> nth_error (i1mode modes) p = Some (m1 modes p)).
    { intros p Hp. unfold m1. apply nth_error_nth'. now rewrite <- n1dm_eq. }
    assert (A2 : forall p, p < n2dm modes -> nth_error (i2mode modes) p = Some (m2 modes p)).
    { intros p Hp. unfold m2. apply nth_error_nth'. now rewrite <- n2dm_eq. }
    assert (B1 : forall p x, nth_error (i1mode modes) p = Some x ->
                   p < n1dm modes /\ m1 modes p = x).
    { intros p x Hp. assert (p < n1dm modes) as Hl
        by (rewrite n1dm_eq; apply nth_error_Some; congruence).
      split; [exact Hl|]. rewrite A1 in Hp by exact Hl. congruence. }
    assert (B2 : forall p x, nth_error (i2mode modes) p = Some x ->
                   p < n2dm modes /\ m2 modes p = x).
    { intros p x Hp. assert (p < n2dm modes) as Hl
        by (rewrite n2dm_eq; apply nth_error_Some; congruence).
      split; [exact Hl|]. rewrite A2 in Hp by exact Hl. congruence. }
    intros i j. unfold R. rewrite in_app_iff, !in_collect_range. split.
    - intros [(p & Hp & Hin)|(p & Hp & Hin)].
      + apply in_app_iff in Hin as [Hin|Hin].
        * apply in_collect_range in Hin as (q & Hq & Hin).
          apply in_darling_test in Hin as (He & Ht). injection He as -> ->.
          split; [exact Ht|]. left. exists p, q. rewrite !A1 by lia. auto with arith.
          repeat split; lia.
        * apply in_collect_range in Hin as (q & Hq & Hin).
          apply in_darling_test in Hin as (He & Ht). injection He as -> ->.
          split; [exact Ht|]. right; left. exists p, q, (snd (m2 modes q)).
          rewrite A1, A2 by lia. rewrite <- surjective_pairing. repeat split; lia.
      + apply in_collect_range in Hin as (q & Hq & Hin).
        apply in_darling_test in Hin as (He & Ht). injection He as -> ->.
        split; [exact Ht|]. right; right. exists p, q, (snd (m2 modes p)), (snd (m2 modes q)).
        rewrite !A2 by lia. rewrite <- !surjective_pairing. repeat split; lia.
    - intros [Ht [(p & q & Hl & Hp & Hq)|[(p & q & j' & Hl & Hp & Hq)|(p & q & i' & j' & Hl & Hp & Hq)]]].
      + left. apply B1 in Hp as [Hp <-]. apply B1 in Hq as [Hq <-].
        exists p. split; [lia|]. apply in_app_iff. left.
        apply in_collect_range. exists q. split; [lia|]. apply in_darling_test. auto.
      + left. apply B1 in Hp as [Hp <-]. apply B2 in Hq as [Hq E].
        exists p. split; [lia|]. apply in_app_iff. right.
        apply in_collect_range. exists q. split; [lia|]. rewrite E.
        apply in_darling_test. auto.
      + right. apply B2 in Hp as [Hp E1]. apply B2 in Hq as [Hq E2].
        exists p. split; [lia|]. apply in_collect_range. exists q. split; [lia|].
        rewrite E1, E2. apply in_darling_test. auto.
  Qed.

  Lemma darling_sym_lemma' r modes (freq : nat -> F) :
    r = OblateSymmTop \/ r = ProlateSymmTop \/ r = Linear ->
    exists ret, darling r modes freq = Some ret /\
      forall i j, In (i, j) ret <->
        nleb (nabs (nsub (nmul (nz 2) (freq i)) (nmul (nz 2) (freq j)))) (nz 300) = true /\
        ((exists p q, q < p /\ nth_error (flat_map get1 modes) p = Some i /\
                      nth_error (flat_map get1 modes) q = Some j) \/
         (exists p q j', 0 < p /\ nth_error (flat_map get1 modes) p = Some i /\
                      nth_error (flat_map get2 modes) q = Some (j, j')) \/
         (exists p q i' j', q < p /\ nth_error (flat_map get2 modes) p = Some (i, i') /\
                      nth_error (flat_map get2 modes) q = Some (j, j'))).
  Proof.
    intros Hr. rewrite <- i1mode_eq, <- i2mode_eq. now apply darling_sym_lemma.
  Qed.

  (** ocollect *)
  Lemma ocollect_some {A B} (l : list A) (f : A -> option (list B)) g :
    (forall x, In x l -> f x = Some (g x)) -> ocollect l f = Some (collect l g).
  Proof.
    induction l as [|a l IH]; intros Hf; [reflexivity|].
    cbn. rewrite Hf by now left. cbn. rewrite IH by (intros; apply Hf; now right).
    reflexivity.
  Qed.

  Lemma ocollect_in {A B} (l : list A) (f : A -> option (list B)) ret y :
    ocollect l f = Some ret ->
    (In y ret <-> exists x r, In x l /\ f x = Some r /\ In y r).
  Proof.
    revert ret. induction l as [|a l IH]; cbn; intros ret He.
    - injection He as <-. split; [intros []|intros (x & r & [] & _)].
    - destruct (f a) as [r|] eqn:E; [|discriminate]. cbn in He.
      destruct (ocollect l f) as [r'|] eqn:E'; [|discriminate]. cbn in He.
      injection He as <-. rewrite in_app_iff, (IH r' eq_refl). split.
      + intros [Hy|(x & q & Hx & Hq & Hy)]; [exists a, r; auto|exists x, q; auto].
      + intros (x & q & [<-|Hx] & Hq & Hy); [left; congruence|right; eauto].
  Qed.

  Lemma ocollect_each {A B} (l : list A) (f : A -> option (list B)) ret :
    ocollect l f = Some ret -> forall x, In x l -> exists r, f x = Some r.
  Proof.
    revert ret. induction l as [|a l IH]; cbn; intros ret He x; [intros []|].
    destruct (f a) as [r|] eqn:E; [|discriminate]. cbn in He.
    destruct (ocollect l f) as [r'|] eqn:E'; [|discriminate].
    intros [<-|Hx]; eauto.
  Qed.

  (** type-2 resonances of asymmetric tops involve three different modes *)
  Lemma fermi2_distinct_lemma nvib (freq : nat -> F) f3 modes ret :
    deg_modes AsymmTop nvib freq = Some modes ->
    fermi2 AsymmTop modes freq f3 = Some ret ->
    forall i j k, In (i, j, k) ret -> k < j /\ j < i /\ i < nvib.
  Proof.
    rewrite deg_modes_asym_lemma by auto. intros He. injection He as <-.
    fold (singles nvib). cbn [fermi2]. rewrite n1dm_singles. intros Hret i j k Hin.
    apply (ocollect_in _ _ _ _ Hret) in Hin as (x & r & Hx & Hr & Hin).
    apply (ocollect_in _ _ _ _ Hr) in Hin as (y & r' & Hy & Hr' & Hin).
    apply (ocollect_in _ _ _ _ Hr') in Hin as (z & r'' & Hz & Hr'' & Hin).
    apply in_range in Hx, Hy, Hz. rewrite !m1_singles in Hr'' by lia.
    unfold ferm2_test in Hr''. destruct (aminjm _ _ _) as [d|]; [|discriminate].
    cbn in Hr''. injection Hr'' as <-. destruct (_ && _) in Hin; [|destruct Hin].
    destruct Hin as [He|[]]. injection He as <- <- <-. lia.
  Qed.
End Any.

(** ** the reals *)
Local Open Scope R_scope.

Lemma partial_cmp_R (a b : R) : exists c, partial_cmp a b = Some c.
Proof.
  unfold partial_cmp. cbn.
  destruct (Rltb a b) eqn:E1; [eauto|]. destruct (Rltb b a) eqn:E2; [eauto|].
  apply Rltb_false in E1, E2. rewrite (proj2 (Reqb_true a b)) by lra. eauto.
Qed.

Lemma aminjm_R (a b c : R) : aminjm a b c = Some (Rmax (Rmax a b) c).
Proof.
  unfold aminjm.
  destruct (partial_cmp_R a b) as (? & ->). destruct (partial_cmp_R a c) as (? & ->).
  destruct (partial_cmp_R b c) as (? & ->). cbn.
  destruct (Rltb b a) eqn:E1.
  - apply Rltb_true in E1. rewrite (Rmax_left a b) by lra.
    destruct (Rltb c a) eqn:E2.
    + apply Rltb_true in E2. rewrite Rmax_left by lra. reflexivity.
    + apply Rltb_false in E2. rewrite Rmax_right by lra. reflexivity.
  - apply Rltb_false in E1. rewrite (Rmax_right a b) by lra.
    destruct (Rltb c b) eqn:E2.
    + apply Rltb_true in E2. rewrite Rmax_left by lra. reflexivity.
    + apply Rltb_false in E2. rewrite Rmax_right by lra. reflexivity.
Qed.

(** for non-negative frequencies the largest of the three differences is the one
    closest to zero *)
Lemma aminjm_least_abs_lemma (x y z : R) :
  0 <= x -> 0 <= y -> 0 <= z ->
  exists d, aminjm (x - y - z) (- x + y - z) (- x - y + z) = Some d /\
    (d = x - y - z \/ d = - x + y - z \/ d = - x - y + z) /\
    Rabs d <= Rabs (x - y - z) /\ Rabs d <= Rabs (- x + y - z) /\
    Rabs d <= Rabs (- x - y + z).
Proof.
  intros Hx Hy Hz. exists (Rmax (Rmax (x - y - z) (- x + y - z)) (- x - y + z)).
  split; [apply aminjm_R|].
  unfold Rmax, Rabs. repeat destruct Rle_dec; repeat destruct Rcase_abs;
    repeat split; auto; lra.
Qed.

(** the product test and the difference test in real terms *)
Definition spec_fermi2 (freq : nat -> R) (f3 : nat -> nat -> nat -> R) (i j k : nat) : Prop :=
  10 <= Rabs (f3 i j k) /\
  (Rabs ((freq i - freq j - freq k) * (- freq i + freq j - freq k)
         * (- freq i - freq j + freq k) * (freq i + freq j + freq k)) <= 1000 \/
   Rabs (freq k - freq i - freq j) <= 200).

Lemma ferm2_test_R (freq : nat -> R) f3 i j k :
  freq i <= freq j -> freq j <= freq k ->
  exists r, ferm2_test freq f3 i j k = Some r /\
    ((spec_fermi2 freq f3 i j k /\ r = [(i, j, k)]) \/
     (~ spec_fermi2 freq f3 i j k /\ r = [])).
Proof.
  intros Hij Hjk. unfold ferm2_test. rewrite aminjm_R. cbn [obind].
  eexists. split; [reflexivity|].
  cbn [nsub nadd nopp nmul nabs Rnum].
  replace (Rmax (Rmax (freq i - freq j - freq k) (- freq i + freq j - freq k))
                (- freq i - freq j + freq k)) with (freq k - freq i - freq j).
  2:{ rewrite Rmax_right.
      - lra.
      - apply Rmax_lub; lra. }
  unfold spec_fermi2, ngeb, F3TOL, DLTOL, DFTOL. rewrite !nz_R. cbn [nleb Rnum].
  destruct (Rleb 10 (Rabs (f3 i j k))) eqn:E1;
  destruct (Rleb (Rabs ((freq i - freq j - freq k) * (- freq i + freq j - freq k)
         * (- freq i - freq j + freq k) * (freq i + freq j + freq k))) 1000) eqn:E2;
  destruct (Rleb (Rabs (freq k - freq i - freq j)) 200) eqn:E3;
  cbn [andb orb];
  repeat match goal with
         | E : Rleb _ _ = true |- _ => apply Rleb_true in E
         | E : Rleb _ _ = false |- _ => apply Rleb_false in E
         end;
  try (left; split; [|reflexivity]; split; [assumption|tauto]);
  right; (split; [|reflexivity]); intros [A [B|B]]; lra.
Qed.

Lemma fermi2_exact_lemma nvib (freq : nat -> R) f3 modes :
  (forall a b, (a <= b)%nat -> (b < nvib)%nat -> freq b <= freq a) ->
  deg_modes AsymmTop nvib freq = Some modes ->
  exists ret, fermi2 AsymmTop modes freq f3 = Some ret /\ NoDup ret /\
    forall i j k, In (i, j, k) ret <->
      (k < j /\ j < i /\ i < nvib)%nat /\ spec_fermi2 freq f3 i j k.
Proof.
  intros Hmono. rewrite deg_modes_asym_lemma by auto. intros He. injection He as <-.
  fold (singles nvib). cbn [fermi2]. rewrite n1dm_singles.
  pose (g := fun i j k => match ferm2_test freq f3 i j k with Some r => r | None => [] end).
  assert (Hg : forall i j k, (k < j /\ j < i /\ i < nvib)%nat ->
     ferm2_test freq f3 i j k = Some (g i j k) /\
     ((spec_fermi2 freq f3 i j k /\ g i j k = [(i, j, k)]) \/
      (~ spec_fermi2 freq f3 i j k /\ g i j k = []))).
  { intros i j k (H1 & H2 & H3).
    destruct (ferm2_test_R freq f3 i j k) as (r & Er & Hr).
    - apply Hmono; lia.
    - apply Hmono; lia.
    - unfold g. rewrite Er. auto. }
  rewrite (ocollect_some _ _ (fun i => collect (range 0 i) (fun j =>
             collect (range 0 j) (fun k => g i j k)))).
  2:{ intros i Hi. apply in_range in Hi. apply ocollect_some.
      intros j Hj. apply in_range in Hj. apply ocollect_some.
      intros k Hk. apply in_range in Hk.
      rewrite !m1_singles by lia. apply Hg. lia. }
  eexists. split; [reflexivity|].
  assert (Hin : forall i j k x, (k < j /\ j < i /\ i < nvib)%nat -> In x (g i j k) ->
            x = (i, j, k) /\ spec_fermi2 freq f3 i j k).
  { intros i j k x Hl Hx. destruct (Hg i j k Hl) as (_ & [(S & E)|(S & E)]);
      rewrite E in Hx; [destruct Hx as [<-|[]]; auto|destruct Hx]. }
  split.
  - apply NoDup_flat_map; [apply range_nodup| |].
    + intros i Hi. apply in_range in Hi. apply NoDup_flat_map; [apply range_nodup| |].
      * intros j Hj. apply in_range in Hj. apply NoDup_flat_map; [apply range_nodup| |].
        -- intros k Hk. apply in_range in Hk.
           destruct (Hg i j k ltac:(lia)) as (_ & [(S & E)|(S & E)]); rewrite E;
             repeat constructor; intros [].
        -- intros x y z Hx Hy Hzx Hzy. apply in_range in Hx, Hy.
           apply Hin in Hzx as [-> _]; [|lia]. apply Hin in Hzy as [Hzy _]; [|lia].
           congruence.
      * intros x y z Hx Hy Hzx Hzy. apply in_range in Hx, Hy.
        apply in_flat_map in Hzx as (k & Hk & Hzx). apply in_flat_map in Hzy as (k' & Hk' & Hzy).
        apply in_range in Hk, Hk'.
        apply Hin in Hzx as [-> _]; [|lia]. apply Hin in Hzy as [Hzy _]; [|lia]. congruence.
    + intros x y z Hx Hy Hzx Hzy. apply in_range in Hx, Hy.
      apply in_flat_map in Hzx as (j & Hj & Hzx). apply in_flat_map in Hzy as (j' & Hj' & Hzy).
      apply in_flat_map in Hzx as (k & Hk & Hzx). apply in_flat_map in Hzy as (k' & Hk' & Hzy).
      apply in_range in Hj, Hj', Hk, Hk'.
      apply Hin in Hzx as [-> _]; [|lia]. apply Hin in Hzy as [Hzy _]; [|lia]. congruence.
  - intros i j k. rewrite in_collect_range. split.
    + intros (x & Hx & Hi). apply in_collect_range in Hi as (y & Hy & Hi).
      apply in_collect_range in Hi as (z & Hz & Hi).
      apply Hin in Hi as [He S]; [|lia]. injection He as -> -> ->. split; [lia|exact S].
    + intros (Hl & S). exists i. split; [lia|].
      apply in_collect_range. exists j. split; [lia|].
      apply in_collect_range. exists k. split; [lia|].
      destruct (Hg i j k Hl) as (_ & [(_ & E)|(S' & _)]); [|contradiction].
      rewrite E. now left.
Qed.

Lemma fermi1_no_self_lemma nvib (freq : nat -> R) f3 modes ret i :
  deg_modes AsymmTop nvib freq = Some modes ->
  fermi1 AsymmTop modes freq f3 = Some ret ->
  200 < Rabs (freq i) -> ~ In (i, i) ret.
Proof.
  intros Hm Hr Hf Hin.
  destruct (fermi1_exact_lemma nvib freq f3 modes Hm) as (ret' & E & _ & Hx).
  rewrite E in Hr. injection Hr as ->.
  apply Hx in Hin as (_ & _ & Ht & _). rewrite !nz_R in Ht. cbn in Ht.
  apply Rleb_true in Ht. replace (2 * freq i - freq i) with (freq i) in Ht by ring. lra.
Qed.
