(** The effective Hamiltonian as a sum over words of four ladder operators. *)
From Coq Require Import Reals Lra List ZArith Arith Permutation Lia Bool FunctionalExtensionality.
From Verif Require Import Num Loops Index Modes ListFacts ModesFacts StatesFacts ResFacts
  Anharm AnharmFacts EnergyFacts Polyads PolyadFacts PerturbFacts PerturbSum VanVleck.
Import ListNotations.
Open Scope nat_scope.
Local Open Scope R_scope.

Lemma perm3 {A} (a b c x y z : A) : Permutation [a; b; c] [x; y; z] ->
  (a = x /\ b = y /\ c = z) \/ (a = x /\ b = z /\ c = y) \/ (a = y /\ b = x /\ c = z)
  \/ (a = y /\ b = z /\ c = x) \/ (a = z /\ b = x /\ c = y) \/ (a = z /\ b = y /\ c = x).
Proof.
  intros P. assert (I : In a [x; y; z]) by (apply (Permutation_in _ P); now left).
  destruct I as [<-|[<-|[<-|[]]]].
  - apply Permutation_cons_inv in P. apply Permutation_length_2 in P. intuition (subst; auto).
  - assert (Q : Permutation [y; b; c] [y; x; z]) by (rewrite P; constructor).
    apply Permutation_cons_inv in Q. apply Permutation_length_2 in Q. intuition (subst; auto 10).
  - assert (Q : Permutation [z; b; c] [z; x; y]).
    { rewrite P. apply Permutation_sym, (Permutation_cons_app [x; y] []). reflexivity. }
    apply Permutation_cons_inv in Q. apply Permutation_length_2 in Q. intuition (subst; auto 10).
Qed.

Definition sgn (x : letter) : sign := if snd x then Plus (fst x) else Minus (fst x).

Section Energy.
  Variables (n : nat) (w : nat -> R).
  Definition energy (l : list letter) : R := fold_right (fun x r => es x * w (fst x) + r) 0 l.
  Lemma energy_sum l : of_word n l -> Rsum (seq 0 n) (fun i => w i * IZR (shift l i)) = energy l.
  Proof.
    induction l as [|x l IH]; intros Hl.
    - apply Rsum_0. intros i _. cbn. ring.
    - assert (Hx : (fst x < n)%nat) by (apply Hl; now left).
      assert (Hl' : of_word n l) by (intros y Hy; apply Hl; now right).
      change (energy (x :: l)) with (es x * w (fst x) + energy l). rewrite <- (IH Hl').
      rewrite (Rsum_ext _ (fun i => (if (i =? fst x)%nat then es x * w i else 0) + w i * IZR (shift l i))).
      + rewrite Rsum_plus. f_equal. apply (Rsum_single (fun i => es x * w i)); [apply seq_NoDup|apply in_seq; lia].
      + intros i _. rewrite shift_cons, plus_IZR, mult_IZR. unfold dl, es, sg.
        destruct (i =? fst x)%nat, (snd x); ring.
  Qed.
  Lemma energy_support l v u : of_word n l -> (forall i, (i < n)%nat -> Z.of_nat (u i) = (Z.of_nat (v i) + shift l i)%Z) ->
    harm_energy n w v - harm_energy n w u = - energy l.
  Proof.
    intros Hl S. rewrite <- (energy_sum l Hl). unfold harm_energy. rewrite <- Rsum_minus, <- Rsum_opp.
    apply Rsum_ext. intros i Hi. apply in_seq in Hi. rewrite !INR_IZR_INZ, (S i) by lia. rewrite plus_IZR. ring.
  Qed.
End Energy.

Section Second.
  Variables (n : nat) (w : nat -> R) (f3 : nat -> nat -> nat -> R) (res : nat -> nat -> nat -> bool).
  Hypothesis Hf1 : forall i j k, f3 i j k = f3 j i k.
  Hypothesis Hf2 : forall i j k, f3 i j k = f3 i k j.
  Hypothesis Hrs : forall i j k, res i j k = res j i k.
  Hypothesis Hrd : forall i j k, res i j k = true -> i <> k /\ j <> k.
  Notation SL := (SL n).
  Notation tsum := (tsum n).

  Definition drop (a b c : letter) : bool := dropped res (sgn a) (sgn b) (sgn c).
  Definition Den (a b c : letter) : R := if drop a b c then 0 else / - energy w [a; b; c].

  Lemma drop_12 a b c : drop a b c = drop b a c.
  Proof. destruct a as [i []], b as [j []], c as [k []]; unfold drop; cbn; auto. Qed.
  Lemma drop_23 a b c : drop a b c = drop a c b.
  Proof. destruct a as [i []], b as [j []], c as [k []]; unfold drop; cbn; auto. Qed.
  Lemma drop_bar a b c : drop (bar a) (bar b) (bar c) = drop a b c.
  Proof. destruct a as [i []], b as [j []], c as [k []]; unfold drop; cbn; auto. Qed.
  Lemma Den_12 a b c : Den a b c = Den b a c.
  Proof. unfold Den. rewrite drop_12. destruct (drop b a c); [reflexivity|]. do 2 f_equal. unfold energy. cbn. ring. Qed.
  Lemma Den_23 a b c : Den a b c = Den a c b.
  Proof. unfold Den. rewrite drop_23. destruct (drop a c b); [reflexivity|]. do 2 f_equal. unfold energy. cbn. ring. Qed.
  Lemma Den_bar a b c : Den (bar a) (bar b) (bar c) = - Den a b c.
  Proof.
    unfold Den. rewrite drop_bar. destruct (drop a b c); [lra|].
    replace (energy w [bar a; bar b; bar c]) with (- energy w [a; b; c]).
    - destruct (Req_dec (energy w [a; b; c]) 0) as [E|E]; [rewrite E, Ropp_0, Ropp_0, Rinv_0; lra|field; exact E].
    - unfold energy. cbn [fold_right]. rewrite !es_bar. unfold bar. cbn [fst]. ring.
  Qed.

  Lemma near_support a b c v u : of_word n [a; b; c] ->
    (forall i, (i < n)%nat -> Z.of_nat (u i) = (Z.of_nat (v i) + shift [a; b; c] i)%Z) ->
    near n res v u = drop a b c.
  Proof.
    intros Hw S. apply eq_true_iff_eq. rewrite (near_iff n w f3 v res Hf1 Hf2 Hrs Hrd). split.
    - intros (i & j & k & s & Hi & Hj & Hk & Hr & H).
      destruct (Hrd i j k Hr) as [N1 N2].
      set (p := [(i, s); (j, s); (k, negb s)]).
      assert (P : Permutation [a; b; c] p).
      { apply forced_word.
        - intros x Hx Hb. unfold p in *. cbn [In] in Hx, Hb. unfold bar in Hb.
          destruct Hx as [<-|[<-|[<-|[]]]], Hb as [E|[E|[E|[]]]]; cbn [fst snd] in E; injection E; intros;
            try (destruct s; discriminate); lia.
        - reflexivity.
        - intros x [y [Hy <-]]. assert (Hx : (fst y < n)%nat).
          { apply in_app_or in Hy. destruct Hy as [Hy|Hy]; [now apply Hw|].
            unfold p in Hy. cbn [In] in Hy. intuition (subst; assumption). }
          specialize (H _ Hx). rewrite (S _ Hx) in H.
          unfold p, shift in *. cbn [fold_right fst snd] in *. destruct s; cbn [negb sg] in *; lia. }
      unfold p in P. unfold drop.
      destruct (perm3 _ _ _ _ _ _ P) as [(-> & -> & ->)|[(-> & -> & ->)|[(-> & -> & ->)|[(-> & -> & ->)|[(-> & -> & ->)|(-> & -> & ->)]]]]];
        destruct s; cbn; rewrite ?Hr; auto; rewrite Hrs; exact Hr.
    - assert (Ha : (fst a < n)%nat) by (apply Hw; cbn; auto).
      assert (Hb : (fst b < n)%nat) by (apply Hw; cbn; auto).
      assert (Hc : (fst c < n)%nat) by (apply Hw; cbn; auto).
      unfold drop. destruct a as [i si], b as [j sj], c as [k sk]. cbn [fst] in *. intros Hd.
      assert (G : forall i j k s, (i < n)%nat -> (j < n)%nat -> (k < n)%nat -> res i j k = true ->
        (forall x, (x < n)%nat -> (Z.of_nat (u x) = Z.of_nat (v x) + sg s * (dl i x + dl j x - dl k x))%Z) ->
        exists i j k s, (i < n)%nat /\ (j < n)%nat /\ (k < n)%nat /\ res i j k = true /\
        forall x, (x < n)%nat -> (Z.of_nat (u x) = Z.of_nat (v x) + sg s * (dl i x + dl j x - dl k x))%Z).
      { intros i0 j0 k0 s0. intros. exists i0, j0, k0, s0. auto 10. }
      destruct si, sj, sk; cbn in Hd; try discriminate.
      + apply (G i j k true); auto. intros x Hx. rewrite (S x Hx). unfold shift. cbn [fold_right fst snd sg]. lia.
      + apply (G i k j true); auto. intros x Hx. rewrite (S x Hx). unfold shift. cbn [fold_right fst snd sg]. lia.
      + apply (G j k i false); auto. intros x Hx. rewrite (S x Hx). unfold shift. cbn [fold_right fst snd sg]. lia.
      + apply (G j k i true); auto. intros x Hx. rewrite (S x Hx). unfold shift. cbn [fold_right fst snd sg]. lia.
      + apply (G i k j false); auto. intros x Hx. rewrite (S x Hx). unfold shift. cbn [fold_right fst snd sg]. lia.
      + apply (G i j k false); auto. intros x Hx. rewrite (S x Hx). unfold shift. cbn [fold_right fst snd sg]. lia.
  Qed.

  Definition c3D (l : list letter) : R :=
    match l with [a; b; c] => f3 (fst a) (fst b) (fst c) / 6 * Den a b c | _ => 0 end.
  Lemma word3 (l : list letter) : length l = 3%nat -> exists a b c, l = [a; b; c].
  Proof. destruct l as [|a [|b [|c [|d l]]]]; try discriminate. eauto. Qed.
  Lemma first_order_words v :
    first_order n w f3 res v = fun u => tsum 3 (fun l => c3D l * ops l (ket n v) u).
  Proof.
    apply functional_extensionality. intros u. unfold first_order. rewrite pos3_words.
    transitivity (tsum 3 (fun l => (if near n res v u then 0 else / (harm_energy n w v - harm_energy n w u))
       * (c3 f3 l * ops l (ket n v) u))).
    - rewrite tsum_scal. destruct (near n res v u); [ring|]. unfold Rdiv. ring.
    - apply tsum_ext. intros l Hl Hw. destruct (word3 l Hl) as (a & b & c & ->).
      destruct (Req_dec (ops [a; b; c] (ket n v) u) 0) as [E|E]; [rewrite E; ring|].
      pose proof (ops_support n _ v u E) as S.
      rewrite (near_support a b c v u Hw S), (energy_support n w _ v u Hw S).
      unfold c3, c3D, Den. destruct (drop a b c); ring.
  Qed.
  Lemma c3_dual l : c3 f3 (dual l) = c3 f3 l.
  Proof.
    destruct l as [|a [|b [|c [|d l]]]]; try reflexivity.
    - cbn. now rewrite (Hf2 (fst c)), Hf1, (Hf2 (fst a)).
    - unfold dual. cbn [map rev]. rewrite <- !app_assoc.
      destruct (rev (map bar l)) as [|x [|y [|z [|t m]]]]; reflexivity.
  Qed.
  Lemma c3D_dual l : c3D (dual l) = - c3D l.
  Proof.
    destruct l as [|a [|b [|c [|d l]]]]; try (cbn; ring).
    - cbn -[Den bar]. rewrite (Den_23 (bar c)), (Den_12 (bar c)), (Den_23 (bar a)), Den_bar.
      cbn [bar fst]. rewrite (Hf2 (fst c)), Hf1, (Hf2 (fst a)). ring.
    - unfold dual. cbn [map rev]. rewrite <- !app_assoc.
      destruct (rev (map bar l)) as [|x [|y [|z [|t m]]]]; cbn; ring.
  Qed.
  Lemma dual_dual l : dual (dual l) = l.
  Proof.
    unfold dual. rewrite map_rev, rev_involutive, map_map. rewrite <- (map_id l) at 2. apply map_ext. apply bar_bar.
  Qed.
  Lemma dual_app l l' : dual (l ++ l') = dual l' ++ dual l.
  Proof. unfold dual. now rewrite map_app, rev_app_distr. Qed.
  Lemma SL_rev (h : letter -> letter -> letter -> R) :
    SL (fun a => SL (fun b => SL (fun c => h a b c))) = SL (fun a => SL (fun b => SL (fun c => h c b a))).
  Proof.
    rewrite (SL_cyc n h). apply (SL_swap n (fun d e => SL (fun f => h f d e))).
  Qed.
  Lemma tsum_dual h : tsum 3 (fun l => h (dual l)) = tsum 3 h.
  Proof.
    cbn [VanVleck.tsum]. unfold dual. cbn [map rev app].
    rewrite (SL_rev (fun a b c => h [bar c; bar b; bar a])).
    rewrite <- (SL_bar n (fun a => SL (fun b => SL (fun c => h [a; b; c])))).
    apply SL_ext. intros a _. rewrite <- (SL_bar n (fun b => SL (fun c => h [bar a; b; c]))).
    apply SL_ext. intros b _. apply (SL_bar n (fun c => h [bar a; bar b; c])).
  Qed.

  (** the second order in the cubic terms: sum over the words of four letters *)
  Definition half (d e a b : letter) : R :=
    SL (fun f => - es f / 2 * (f3 (fst d) (fst e) (fst f) / 6) * (f3 (fst a) (fst b) (fst f) / 6 * Den a b (bar f))).
  Definition second (l : list letter) : R :=
    match l with [x; y; z; t] => 3 / 2 * (half x y z t + half x t y z + half z t x y) | _ => 0 end.
  Lemma second_words v u :
    (cubic n f3 (first_order n w f3 res v) u + cubic n f3 (first_order n w f3 res u) v) / 2
    = tsum 4 (fun l => second l * ops l (ket n v) u).
  Proof.
    assert (T : forall v u, cubic n f3 (first_order n w f3 res v) u
      = tsum 3 (fun l => tsum 3 (fun l' => c3 f3 l * c3D l' * ops (l ++ l') (ket n v) u))).
    { clear u v. intros v u. rewrite pos3_words. apply tsum_ext. intros l _ _.
      rewrite first_order_words, (ops_tsum n l 3 c3D (fun l' => ops l' (ket n v))), <- tsum_scal.
      apply tsum_ext. intros l' _ _. rewrite ops_app. ring. }
    assert (T' : cubic n f3 (first_order n w f3 res u) v
      = - tsum 3 (fun l => tsum 3 (fun l' => c3 f3 l * c3D l' * ops (l' ++ l) (ket n v) u))).
    { rewrite T.
      transitivity (tsum 3 (fun l => tsum 3 (fun l' => c3 f3 (dual l) * - c3D (dual l') * ops (dual l' ++ dual l) (ket n v) u))).
      - apply tsum_ext. intros l _ Hl. apply tsum_ext. intros l' _ Hl'.
        rewrite c3_dual, c3D_dual, Ropp_involutive. rewrite <- dual_app, (ops_dual n (l ++ l')).
        + reflexivity.
        + intros x Hx. apply in_app_or in Hx. destruct Hx; auto.
      - rewrite (tsum_dual (fun l => tsum 3 (fun l' => c3 f3 l * - c3D (dual l') * ops (dual l' ++ l) (ket n v) u))).
        rewrite <- (Rmult_1_l (tsum 3 (fun l => tsum 3 (fun l' => c3 f3 l * c3D l' * _)))), Ropp_mult_distr_l, <- tsum_scal.
        apply tsum_ext. intros l _ _.
        rewrite (tsum_dual (fun l' => c3 f3 l * - c3D l' * ops (l' ++ l) (ket n v) u)).
        rewrite <- tsum_scal. apply tsum_ext. intros l' _ _. ring. }
    rewrite T, T'.
    transitivity (tsum 3 (fun l => c3 f3 l * tsum 3 (fun l' => c3D l' * (ops (l ++ l') (ket n v) u - ops (l' ++ l) (ket n v) u))) / 2).
    { f_equal. rewrite <- (Rmult_1_l (tsum 3 (fun l => tsum 3 (fun l' => c3 f3 l * c3D l' * ops (l' ++ l) _ _)))), Ropp_mult_distr_l,
        <- tsum_scal, <- tsum_plus. apply tsum_ext. intros l _ _.
      rewrite <- !tsum_scal, <- tsum_plus. apply tsum_ext. intros l' _ _. ring. }
    cbn [VanVleck.tsum app c3 c3D].
    set (W := fun l => ops l (ket n v) u).
    pose proof (bracket_lemma n (fun a b c => f3 (fst a) (fst b) (fst c) / 6)
      (fun a b c => f3 (fst a) (fst b) (fst c) / 6 * Den a b c) W) as BL.
    specialize (BL ltac:(intros x y z; cbv beta; now rewrite (Hf1 (fst x))) ltac:(intros x y z; cbv beta; now rewrite (Hf2 (fst x)))
      ltac:(intros x y z; cbv beta; now rewrite (Den_12 x y z), (Hf1 (fst x))) ltac:(intros x y z; cbv beta; now rewrite (Den_23 x y z), (Hf2 (fst x)))).
    transitivity (SL (fun d => SL (fun e => SL (fun f => f3 (fst d) (fst e) (fst f) / 6 * SL (fun a => SL (fun b => SL (fun k =>
        f3 (fst a) (fst b) (fst k) / 6 * Den a b k * nine W d e f a b k)))))) / 2).
    { f_equal. do 3 (apply SL_ext; intros ? _). f_equal. do 3 (apply SL_ext; intros ? _). f_equal. apply com33. }
    rewrite BL. clear BL T T'.
    change (bracket n _ _) with half.
    transitivity (SL (fun x => SL (fun y => SL (fun z => SL (fun t => 3 / 2 * half x y z t * W [x; y; z; t]))))
      + SL (fun x => SL (fun y => SL (fun z => SL (fun t => 3 / 2 * half x t y z * W [x; y; z; t]))))
      + SL (fun x => SL (fun y => SL (fun z => SL (fun t => 3 / 2 * half z t x y * W [x; y; z; t]))))).
    - transitivity (SL (fun d => SL (fun e => SL (fun a => SL (fun b => 3 / 2 * half d e a b * W [d; e; a; b]))))
        + SL (fun d => SL (fun e => SL (fun a => SL (fun b => 3 / 2 * half d e a b * W [d; a; b; e]))))
        + SL (fun d => SL (fun e => SL (fun a => SL (fun b => 3 / 2 * half d e a b * W [a; b; d; e]))))).
      + match goal with |- 3 * ?X / 2 = _ => transitivity (3 / 2 * X); [field|] end.
        rewrite <- !SL_plus, <- SL_scal. apply SL_ext. intros d _.
        rewrite <- !SL_plus, <- SL_scal. apply SL_ext. intros e _.
        rewrite <- !SL_plus, <- SL_scal. apply SL_ext. intros a _.
        rewrite <- !SL_plus, <- SL_scal. apply SL_ext. intros b _. unfold letter in *. ring.
      + f_equal; [f_equal|].
        * apply SL_ext. intros d _. apply (SL_cyc n (fun e a b => 3 / 2 * half d e a b * W [d; a; b; e])).
        * rewrite (SL_ext n _ (fun d => SL (fun a => SL (fun b => SL (fun e => 3 / 2 * half d e a b * W [a; b; d; e]))))).
          -- apply (SL_cyc n (fun d a b => SL (fun e => 3 / 2 * half d e a b * W [a; b; d; e]))).
          -- intros d _. apply (SL_cyc n (fun e a b => 3 / 2 * half d e a b * W [a; b; d; e])).
    - idtac.
      rewrite <- !SL_plus. apply SL_ext. intros x _. rewrite <- !SL_plus. apply SL_ext. intros y _.
      rewrite <- !SL_plus. apply SL_ext. intros z _. rewrite <- !SL_plus. apply SL_ext. intros t _.
      unfold second, W. unfold letter in *. ring.
  Qed.
End Second.
