(** The second-order sum over states as a sum over transitions. *)
From Coq Require Import Reals Lra List ZArith Arith Permutation Lia Bool FunctionalExtensionality.
From Verif Require Import Num Loops Index Modes ListFacts ModesFacts StatesFacts ResFacts
  Anharm AnharmFacts EnergyFacts PerturbFacts.
Import ListNotations.
Open Scope nat_scope.
Local Open Scope R_scope.

Lemma same_iff n u v : same n u v = true <-> forall i, (i < n)%nat -> u i = v i.
Proof.
  unfold same. rewrite forallb_forall. split.
  - intros H i Hi. apply Nat.eqb_eq, H, in_seq. lia.
  - intros H i Hi. apply in_seq in Hi. apply Nat.eqb_eq, H. lia.
Qed.

Lemma NoDup_flat_map {A C} (f : A -> list C) l :
  NoDup l -> (forall a, In a l -> NoDup (f a)) ->
  (forall a b x, In a l -> In b l -> In x (f a) -> In x (f b) -> a = b) ->
  NoDup (flat_map f l).
Proof.
  induction l as [|a l IH]; intros Nd Nf Hd; [constructor|].
  inversion Nd as [|? ? Na Nl]; subst. cbn [flat_map]. apply NoDup_app_intro.
  - apply Nf. cbn; auto.
  - apply IH; [assumption|intros; apply Nf; cbn; auto|].
    intros b c x Hb Hc. apply Hd; cbn; auto.
  - intros x Hx Hy. apply in_flat_map in Hy. destruct Hy as (b & Hb & Hxb).
    assert (a = b) by (eapply Hd; cbn; eauto). subst. contradiction.
Qed.

Ltac dor := repeat match goal with H : _ \/ _ |- _ => destruct H end; try contradiction; congruence.

Section Sum.
  Variables (n : nat) (w : nat -> R) (f3 : nat -> nat -> nat -> R) (v : occ)
    (res : nat -> nat -> nat -> bool).
  Hypothesis f3a : forall i j k, f3 i j k = f3 j i k.
  Hypothesis f3b : forall i j k, f3 i j k = f3 i k j.
  Hypothesis res_swap : forall i j k, res i j k = res j i k.
  Hypothesis res_diff : forall i j k, res i j k = true -> i <> k /\ j <> k.

  Definition valid (t : trans) : Prop :=
    match t with
    | T1 _ l | T3 _ l => (l < n)%nat
    | T21 _ _ l k => (l < n)%nat /\ (k < n)%nat /\ k <> l
    | T111 _ _ _ l m k => (l < n)%nat /\ (m < l)%nat /\ (k < m)%nat
    end.

  Lemma ordered_iff l m k : ordered l m k = true <-> (m < l)%nat /\ (k < m)%nat.
  Proof. unfold ordered. now rewrite andb_true_iff, !Nat.ltb_lt. Qed.

  Lemma transitions_valid t : In t (transitions n) <-> valid t.
  Proof.
    unfold transitions. rewrite !in_app_iff, !in_flat_map. split.
    - intros [(l & Hl & H)|[(l & Hl & H)|(l & Hl & H)]]; apply in_seq in Hl.
      + cbn [In] in H. decompose [or] H; subst; try contradiction; cbn; lia.
      + apply in_flat_map in H. destruct H as (k & Hk & H). apply in_seq in Hk.
        destruct (Nat.eqb_spec k l) as [E|E]; [contradiction|]. cbn [In] in H.
        decompose [or] H; subst; try contradiction; cbn; lia.
      + apply in_flat_map in H. destruct H as (m & Hm & H). apply in_flat_map in H.
        destruct H as (k & Hk & H). destruct (ordered l m k) eqn:E; [|contradiction].
        apply ordered_iff in E. cbn [In] in H.
        decompose [or] H; subst; try contradiction; cbn; lia.
    - destruct t as [s l|s l|s t l k|s t r l m k]; cbn [valid]; intros H.
      + left. exists l. split; [apply in_seq; lia|]. destruct s; cbn; auto.
      + left. exists l. split; [apply in_seq; lia|]. destruct s; cbn; auto.
      + right; left. exists l. split; [apply in_seq; lia|]. apply in_flat_map.
        exists k. split; [apply in_seq; lia|]. destruct (Nat.eqb_spec k l); [lia|].
        destruct s, t; cbn; auto.
      + right; right. exists l. split; [apply in_seq; lia|]. apply in_flat_map.
        exists m. split; [apply in_seq; lia|]. apply in_flat_map.
        exists k. split; [apply in_seq; lia|].
        replace (ordered l m k) with true by (symmetry; apply ordered_iff; lia).
        destruct s, t, r; cbn; intuition.
  Qed.

  Lemma transitions_NoDup : NoDup (transitions n).
  Proof.
    unfold transitions. apply NoDup_app_intro; [|apply NoDup_app_intro|].
    - apply NoDup_flat_map; [apply seq_NoDup|intros; repeat constructor; cbn; intuition discriminate|].
      intros a b x _ _ Ha Hb. cbn [In] in *. dor.
    - apply NoDup_flat_map; [apply seq_NoDup| |].
      + intros a _. apply NoDup_flat_map; [apply seq_NoDup| |].
        * intros k _. destruct (k =? a)%nat; repeat constructor; cbn; intuition discriminate.
        * intros k k' x _ _ Ha Hb. destruct (k =? a)%nat, (k' =? a)%nat; try contradiction.
          cbn [In] in *. dor.
      + intros a b x _ _ Ha Hb. apply in_flat_map in Ha, Hb.
        destruct Ha as (k & _ & Ha), Hb as (k' & _ & Hb).
        destruct (k =? a)%nat, (k' =? b)%nat; try contradiction.
        cbn [In] in *. dor.
    - apply NoDup_flat_map; [apply seq_NoDup| |].
      + intros a _. apply NoDup_flat_map; [apply seq_NoDup| |].
        * intros m _. apply NoDup_flat_map; [apply seq_NoDup| |].
          -- intros k _. destruct (ordered a m k); repeat constructor; cbn; intuition discriminate.
          -- intros k k' x _ _ Ha Hb. destruct (ordered a m k), (ordered a m k'); try contradiction.
             cbn [In] in *. dor.
        * intros m m' x _ _ Ha Hb. apply in_flat_map in Ha, Hb.
          destruct Ha as (k & _ & Ha), Hb as (k' & _ & Hb).
          destruct (ordered a m k), (ordered a m' k'); try contradiction.
          cbn [In] in *. dor.
      + intros a b x _ _ Ha Hb. apply in_flat_map in Ha, Hb.
        destruct Ha as (m & _ & Ha), Hb as (m' & _ & Hb). apply in_flat_map in Ha, Hb.
        destruct Ha as (k & _ & Ha), Hb as (k' & _ & Hb).
        destruct (ordered a m k), (ordered b m' k'); try contradiction.
        cbn [In] in *. dor.
    - intros x Ha Hb. apply in_flat_map in Ha, Hb.
      destruct Ha as (m & _ & Ha), Hb as (m' & _ & Hb). apply in_flat_map in Ha, Hb.
      destruct Ha as (k & _ & Ha), Hb as (k' & _ & Hb).
      apply in_flat_map in Hb. destruct Hb as (k2 & _ & Hb).
      destruct (k =? m)%nat, (ordered m' k' k2); try contradiction.
      cbn [In] in *. dor.
    - intros x Ha Hb. apply in_app_iff in Hb. apply in_flat_map in Ha.
      destruct Ha as (m & _ & Ha). destruct Hb as [Hb|Hb]; apply in_flat_map in Hb;
        destruct Hb as (m' & _ & Hb); apply in_flat_map in Hb; destruct Hb as (k & _ & Hb).
      + destruct (k =? m')%nat; try contradiction.
        cbn [In] in *. dor.
      + apply in_flat_map in Hb. destruct Hb as (k2 & _ & Hb).
        destruct (ordered m' k k2); try contradiction.
        cbn [In] in *. dor.
  Qed.

  Lemma sg_pm s : (sg s = 1 \/ sg s = -1)%Z.
  Proof. destruct s; cbn; auto. Qed.
  Lemma sg_inj s t : sg s = sg t -> s = t.
  Proof. destruct s, t; cbn; intros; congruence. Qed.

  Ltac posesg := repeat match goal with s : bool |- _ =>
    lazymatch goal with _ : (sg s = 1 \/ sg s = -1)%Z |- _ => fail | _ => pose proof (sg_pm s) end end.
  Ltac splitq := repeat (match goal with
     | H : context [Nat.eqb ?a ?b] |- _ => destruct (Nat.eqb_spec a b); try (exfalso; lia) end).
  Ltac fin := repeat match goal with H : sg ?a = sg ?b |- _ => apply sg_inj in H end; subst; reflexivity.

  Lemma supp s t r l m k x : ((m < l)%nat /\ (k < m)%nat -> x = l \/ x = m \/ x = k ->
      delta_of (T111 s t r l m k) x <> 0%Z) /\
    (delta_of (T111 s t r l m k) x <> 0%Z -> x = l \/ x = m \/ x = k).
  Proof.
    cbn [delta_of]. unfold dl. posesg. split.
    - intros [O1 O2] O.
      destruct (Nat.eqb_spec x l), (Nat.eqb_spec x m), (Nat.eqb_spec x k); lia.
    - destruct (Nat.eqb_spec x l), (Nat.eqb_spec x m), (Nat.eqb_spec x k); lia.
  Qed.

  Lemma delta_inj t t' : valid t -> valid t' ->
    (forall i, (i < n)%nat -> delta_of t i = delta_of t' i) -> t = t'.
  Proof.
    destruct t as [s l|s l|s t l k|s t r l m k], t' as [s' l'|s' l'|s' t' l' k'|s' t' r' l' m' k'];
      cbn [valid]; intros V V' D.
    - pose proof (D l V) as A. clear D. cbn [delta_of] in *. unfold dl in *. rewrite Nat.eqb_refl in *.
      posesg. splitq. assert (E : sg s = sg s') by lia. fin.
    - exfalso. pose proof (D l V) as A. clear D. cbn [delta_of] in *. unfold dl in *.
      rewrite Nat.eqb_refl in *. posesg. splitq.
    - exfalso. assert (L' : (l' < n)%nat) by lia. assert (K' : (k' < n)%nat) by lia.
      pose proof (D l' L') as A. pose proof (D k' K') as A'.
      clear D. cbn [delta_of] in *. unfold dl in *. rewrite !Nat.eqb_refl in *. posesg. splitq.
    - exfalso. assert (L' : (l' < n)%nat) by lia. assert (M' : (m' < n)%nat) by lia.
      pose proof (D l' L') as A. pose proof (D m' M') as A'.
      clear D. cbn [delta_of] in *. unfold dl in *. rewrite !Nat.eqb_refl in *. posesg. splitq.
    - exfalso. pose proof (D l V) as A. clear D. cbn [delta_of] in *. unfold dl in *.
      rewrite Nat.eqb_refl in *. posesg. splitq.
    - pose proof (D l V) as A. clear D. cbn [delta_of] in *. unfold dl in *. rewrite Nat.eqb_refl in *.
      posesg. splitq. assert (E : sg s = sg s') by lia. fin.
    - exfalso. assert (L' : (l' < n)%nat) by lia. assert (K' : (k' < n)%nat) by lia.
      pose proof (D l' L') as A. pose proof (D k' K') as A'.
      clear D. cbn [delta_of] in *. unfold dl in *. rewrite !Nat.eqb_refl in *. posesg. splitq.
    - exfalso. assert (L' : (l' < n)%nat) by lia. assert (M' : (m' < n)%nat) by lia.
      pose proof (D l' L') as A. pose proof (D m' M') as A'.
      clear D. cbn [delta_of] in *. unfold dl in *. rewrite !Nat.eqb_refl in *. posesg. splitq.
    - exfalso. assert (L' : (l < n)%nat) by lia. assert (K' : (k < n)%nat) by lia.
      pose proof (D l L') as A. pose proof (D k K') as A'.
      clear D. cbn [delta_of] in *. unfold dl in *. rewrite !Nat.eqb_refl in *. posesg. splitq.
    - exfalso. assert (L' : (l < n)%nat) by lia. assert (K' : (k < n)%nat) by lia.
      pose proof (D l L') as A. pose proof (D k K') as A'.
      clear D. cbn [delta_of] in *. unfold dl in *. rewrite !Nat.eqb_refl in *. posesg. splitq.
    - assert (L' : (l < n)%nat) by lia. assert (K' : (k < n)%nat) by lia.
      pose proof (D l L') as A. pose proof (D k K') as A'.
      clear D. cbn [delta_of] in *. unfold dl in *. rewrite !Nat.eqb_refl in *. posesg. splitq.
      assert (E : sg s = sg s') by lia. assert (E' : sg t = sg t') by lia. fin.
    - exfalso. assert (L' : (l < n)%nat) by lia.
      pose proof (D l L') as A.
      clear D. cbn [delta_of] in *. unfold dl in *. rewrite !Nat.eqb_refl in *. posesg. splitq.
    - exfalso. assert (L' : (l < n)%nat) by lia. assert (M' : (m < n)%nat) by lia.
      pose proof (D l L') as A. pose proof (D m M') as A'.
      clear D. cbn [delta_of] in *. unfold dl in *. rewrite !Nat.eqb_refl in *. posesg. splitq.
    - exfalso. assert (L' : (l < n)%nat) by lia. assert (M' : (m < n)%nat) by lia.
      pose proof (D l L') as A. pose proof (D m M') as A'.
      clear D. cbn [delta_of] in *. unfold dl in *. rewrite !Nat.eqb_refl in *. posesg. splitq.
    - exfalso. assert (L' : (l' < n)%nat) by lia.
      pose proof (D l' L') as A.
      clear D. cbn [delta_of] in *. unfold dl in *. rewrite !Nat.eqb_refl in *. posesg. splitq.
    - assert (L' : (l < n)%nat) by lia. assert (M' : (m < n)%nat) by lia. assert (K' : (k < n)%nat) by lia.
      pose proof (D l L') as A. pose proof (D m M') as A'. pose proof (D k K') as A''. clear D.
      assert (C1 : l = l' \/ l = m' \/ l = k') by (apply (proj2 (supp s' t' r' l' m' k' _)); rewrite <- A; apply (proj1 (supp s t r l m k _)); [lia|auto]).
      assert (C2 : m = l' \/ m = m' \/ m = k') by (apply (proj2 (supp s' t' r' l' m' k' _)); rewrite <- A'; apply (proj1 (supp s t r l m k _)); [lia|auto]).
      assert (C3 : k = l' \/ k = m' \/ k = k') by (apply (proj2 (supp s' t' r' l' m' k' _)); rewrite <- A''; apply (proj1 (supp s t r l m k _)); [lia|auto]).
      assert (l = l') by lia. assert (m = m') by lia. assert (k = k') by lia. subst l' m' k'.
      clear C1 C2 C3. cbn [delta_of] in *. unfold dl in *. rewrite !Nat.eqb_refl in *. 
      destruct (Nat.eqb_spec l m), (Nat.eqb_spec l k), (Nat.eqb_spec m l), (Nat.eqb_spec m k),
        (Nat.eqb_spec k l), (Nat.eqb_spec k m); try (exfalso; lia).
      assert (E : sg s = sg s') by lia. assert (E' : sg t = sg t') by lia.
      assert (E'' : sg r = sg r') by lia. fin.
  Qed.

  (** whether a transition is resonant *)
  Definition res_of (t : trans) : bool :=
    match t with
    | T1 _ _ | T3 _ _ => false
    | T21 s t l k => if Bool.eqb s t then false else res l l k
    | T111 s t r l m k =>
        if Bool.eqb s t then if Bool.eqb t r then false else res l m k
        else if Bool.eqb t r then res m k l else res l k m
    end.

  Lemma near_iff u : near n res v u = true <->
    exists i j k s, (i < n)%nat /\ (j < n)%nat /\ (k < n)%nat /\ res i j k = true /\
      forall x, (x < n)%nat ->
        (Z.of_nat (u x) = Z.of_nat (v x) + sg s * (dl i x + dl j x - dl k x))%Z.
  Proof.
    unfold near. rewrite existsb_exists. split.
    - intros (i & Hi & H). rewrite existsb_exists in H. destruct H as (j & Hj & H).
      rewrite existsb_exists in H. destruct H as (k & Hk & H). apply andb_prop in H.
      destruct H as [Hr H]. apply in_seq in Hi, Hj, Hk. exists i, j, k.
      apply orb_prop in H. destruct H as [H|H].
      + exists true. repeat split; try lia; try assumption. intros x Hx.
        rewrite same_iff in H. specialize (H x Hx). unfold up, dl, sg in *.
        destruct (Nat.eqb_spec x i), (Nat.eqb_spec x j), (Nat.eqb_spec x k); lia.
      + exists false. repeat split; try lia; try assumption. intros x Hx.
        rewrite same_iff in H. specialize (H x Hx). unfold up, dl, sg in *.
        destruct (Nat.eqb_spec x i), (Nat.eqb_spec x j), (Nat.eqb_spec x k); lia.
    - intros (i & j & k & s & Hi & Hj & Hk & Hr & H). exists i. split; [apply in_seq; lia|].
      rewrite existsb_exists. exists j. split; [apply in_seq; lia|].
      rewrite existsb_exists. exists k. split; [apply in_seq; lia|].
      rewrite Hr. cbn [andb]. apply orb_true_iff. destruct s.
      + left. apply same_iff. intros x Hx. specialize (H x Hx). unfold up, dl, sg in *.
        destruct (Nat.eqb_spec x i), (Nat.eqb_spec x j), (Nat.eqb_spec x k); lia.
      + right. apply same_iff. intros x Hx. specialize (H x Hx). unfold up, dl, sg in *.
        destruct (Nat.eqb_spec x i), (Nat.eqb_spec x j), (Nat.eqb_spec x k); lia.
  Qed.

  (** the states a transition leads to *)
  Definition leads (t : trans) (u : occ) : Prop :=
    forall i, (i < n)%nat -> (Z.of_nat (u i) = Z.of_nat (v i) + delta_of t i)%Z.

  Lemma near_res t u : valid t -> leads t u -> near n res v u = res_of t.
  Proof.
    intros V L. apply eq_true_iff_eq. rewrite near_iff. split.
    - intros (i & j & k & s & Hi & Hj & Hk & Hr & H).
      assert (D : forall x, (x < n)%nat -> delta_of t x = (sg s * (dl i x + dl j x - dl k x))%Z).
      { intros x Hx. specialize (H x Hx). specialize (L x Hx). lia. }
      clear H L.
      assert (G : forall i j, (j <= i)%nat -> (i < n)%nat -> (j < n)%nat -> res i j k = true ->
        (forall x, (x < n)%nat -> delta_of t x = (sg s * (dl i x + dl j x - dl k x))%Z) ->
        res_of t = true).
      { clear i j Hi Hj Hr D. intros i j Hij Hi Hj Hr D. destruct (res_diff i j k Hr) as [N1 N2].
        destruct (Nat.eq_dec i j) as [<-|Ne].
        - assert (t = T21 s (negb s) i k) as ->.
          { apply delta_inj; [assumption|cbn; auto|]. intros x Hx. rewrite D by exact Hx.
            cbn [delta_of]. destruct s; cbn [sg negb]; lia. }
          cbn. now destruct s.
        - destruct (Nat.lt_total k j) as [C|[C|C]]; [|congruence|].
          + assert (t = T111 s s (negb s) i j k) as ->.
            { apply delta_inj; [assumption|cbn; lia|]. intros x Hx. rewrite D by exact Hx.
              cbn [delta_of]. destruct s; cbn [sg negb]; lia. }
            cbn. now destruct s.
          + destruct (Nat.lt_total k i) as [C'|[C'|C']]; [|congruence|].
            * assert (t = T111 s (negb s) s i k j) as ->.
              { apply delta_inj; [assumption|cbn; lia|]. intros x Hx. rewrite D by exact Hx.
                cbn [delta_of]. destruct s; cbn [sg negb]; lia. }
              cbn. now destruct s.
            * assert (t = T111 (negb s) s s k i j) as ->.
              { apply delta_inj; [assumption|cbn; lia|]. intros x Hx. rewrite D by exact Hx.
                cbn [delta_of]. destruct s; cbn [sg negb]; lia. }
              cbn. now destruct s. }
      destruct (Nat.le_ge_cases j i) as [C|C].
      + now apply (G i j).
      + apply (G j i); try assumption; [now rewrite res_swap|].
        intros x Hx. rewrite D by exact Hx. lia.
    - intros Hr. destruct t as [s l|s l|s t l k|s t r l m k]; cbn [res_of] in Hr; try discriminate.
      + cbn [valid] in V. exists l, l, k, s.
        destruct (Bool.eqb s t) eqn:E; [discriminate|]. repeat split; try tauto.
        intros x Hx. rewrite (L x Hx). cbn [delta_of].
        destruct s, t; cbn [sg] in *; try discriminate; lia.
      + cbn [valid] in V. destruct (Bool.eqb s t) eqn:E, (Bool.eqb t r) eqn:E'; try discriminate.
        * exists l, m, k, s. repeat split; try lia; try assumption.
          intros x Hx. rewrite (L x Hx). cbn [delta_of].
          destruct s, t, r; cbn [sg] in *; try discriminate; lia.
        * exists m, k, l, t. repeat split; try lia; try assumption.
          intros x Hx. rewrite (L x Hx). cbn [delta_of].
          destruct s, t, r; cbn [sg] in *; try discriminate; lia.
        * exists l, k, m, s. repeat split; try lia; try assumption.
          intros x Hx. rewrite (L x Hx). cbn [delta_of].
          destruct s, t, r; cbn [sg] in *; try discriminate; lia.
  Qed.

  (** indicator of [leads] *)
  Lemma ind_leads t u : ind n v u (delta_of t) = 1 /\ leads t u \/ ind n v u (delta_of t) = 0 /\ ~ leads t u.
  Proof.
    unfold ind, leads.
    assert (G : forall l, Rprod l (fun i => at_z (delta_of t i) (u i) (v i)) = 1 /\
        (forall i, In i l -> (Z.of_nat (u i) = Z.of_nat (v i) + delta_of t i)%Z) \/
      Rprod l (fun i => at_z (delta_of t i) (u i) (v i)) = 0 /\
        ~ (forall i, In i l -> (Z.of_nat (u i) = Z.of_nat (v i) + delta_of t i)%Z)).
    { induction l as [|a l IH]; cbn [Rprod].
      - left. split; [reflexivity|]. intros i [].
      - unfold at_z at 1 3. destruct (Z.eqb_spec (Z.of_nat (u a)) (Z.of_nat (v a) + delta_of t a)) as [E|E].
        + destruct IH as [[IH1 IH2]|[IH1 IH2]].
          * left. split; [lra|]. intros i [<-|Hi]; auto.
          * right. split; [lra|]. intros H. apply IH2. intros i Hi. apply H. now right.
        + right. split; [lra|]. intros H. apply E, H. now left. }
    destruct (G (seq 0 n)) as [[G1 G2]|[G1 G2]].
    - left. split; [exact G1|]. intros i Hi. apply G2, in_seq. lia.
    - right. split; [exact G1|]. intros H. apply G2. intros i Hi. apply in_seq in Hi. apply H. lia.
  Qed.

  (** the change of the harmonic energy *)
  Definition gap (t : trans) : R :=
    match t with
    | T1 s l => IZR (sg s) * w l
    | T3 s l => 3 * IZR (sg s) * w l
    | T21 s t l k => 2 * IZR (sg s) * w l + IZR (sg t) * w k
    | T111 s t r l m k => IZR (sg s) * w l + IZR (sg t) * w m + IZR (sg r) * w k
    end.
  Lemma sum_dl l c : (l < n)%nat -> Rsum (seq 0 n) (fun i => c * IZR (dl l i) * w i) = c * w l.
  Proof.
    intros Hl. rewrite <- (Rsum_pick n (fun i => c * w i) l Hl). apply Rsum_ext. intros i _.
    unfold dl. destruct (i =? l)%nat; lra.
  Qed.
  Lemma gap_lemma t u : valid t -> leads t u ->
    harm_energy n w v - harm_energy n w u = - gap t.
  Proof.
    intros V L. unfold harm_energy. rewrite <- Rsum_minus.
    rewrite (Rsum_ext _ (fun i => - (IZR (delta_of t i) * w i))).
    2:{ intros i Hi. apply in_seq in Hi. assert (Hn : (i < n)%nat) by lia.
        pose proof (f_equal IZR (L i Hn)) as E. rewrite plus_IZR, <- !INR_IZR_INZ in E.
        rewrite E. ring. }
    rewrite Rsum_opp. f_equal.
    destruct t as [s l|s l|s t l k|s t r l m k]; cbn [valid] in V; cbn [delta_of gap].
    - rewrite <- (sum_dl l (IZR (sg s))) by exact V. apply Rsum_ext. intros i _.
      now rewrite mult_IZR.
    - rewrite <- (sum_dl l (3 * IZR (sg s))) by exact V. apply Rsum_ext. intros i _.
      now rewrite !mult_IZR.
    - rewrite <- (sum_dl l (2 * IZR (sg s))), <- (sum_dl k (IZR (sg t))) by tauto.
      rewrite <- Rsum_plus. apply Rsum_ext. intros i _. rewrite plus_IZR, !mult_IZR. ring.
    - rewrite <- (sum_dl l (IZR (sg s))), <- (sum_dl m (IZR (sg t))), <- (sum_dl k (IZR (sg r))) by lia.
      rewrite <- !Rsum_plus. apply Rsum_ext. intros i _. rewrite !plus_IZR, !mult_IZR. ring.
  Qed.

  Lemma excl_square {A} (T : list A) (a x : A -> R) :
    NoDup T -> (forall t, In t T -> x t = 1 \/ x t = 0) ->
    (forall t t', In t T -> In t' T -> x t = 1 -> x t' = 1 -> t = t') ->
    Rsum T (fun t => a t * x t) * Rsum T (fun t => a t * x t) = Rsum T (fun t => a t * a t * x t).
  Proof.
    induction T as [|t T IH]; intros Nd H01 Hu; [unfold Rsum; cbn; lra|].
    inversion Nd as [|? ? Na Nl]; subst. rewrite !Rsum_cons.
    assert (IH' := IH Nl (fun t' Ht => H01 t' (or_intror Ht))
      (fun t1 t2 H1 H2 => Hu t1 t2 (or_intror H1) (or_intror H2))).
    destruct (H01 t (or_introl eq_refl)) as [E|E]; rewrite E.
    - assert (Z : forall t', In t' T -> x t' = 0).
      { intros t' Ht. destruct (H01 t' (or_intror Ht)) as [E'|E']; [|exact E'].
        assert (t = t') by (apply Hu; cbn; auto). subst. contradiction. }
      rewrite !(Rsum_0 _ T); [ring| |]; intros t' Ht; rewrite (Z t' Ht); ring.
    - rewrite <- IH'. ring.
  Qed.

  Lemma leads_same t u u' : leads t u -> leads t u' -> same n u u' = true.
  Proof.
    intros L L'. apply same_iff. intros i Hi. specialize (L i Hi). specialize (L' i Hi). lia.
  Qed.
  Lemma leads_same_r t u u' : leads t u -> same n u u' = true -> leads t u'.
  Proof. intros L S i Hi. rewrite same_iff in S. rewrite <- (S i Hi). now apply L. Qed.

  Lemma sum_leads t us u0 (c : occ -> R) ct :
    ForallOrdPairs (fun u u' => same n u u' = false) us ->
    In u0 us -> leads t u0 -> (forall u, leads t u -> c u = ct) ->
    Rsum us (fun u => c u * ind n v u (delta_of t)) = ct.
  Proof.
    induction us as [|u us IH]; intros D Hi L C; [contradiction|].
    inversion D as [|? ? D1 D2]; subst. rewrite Rsum_cons. rewrite Forall_forall in D1.
    destruct (ind_leads t u) as [[E1 E2]|[E1 E2]].
    - rewrite E1, (C u E2), Rsum_0; [ring|]. intros u' Hu'.
      destruct (ind_leads t u') as [[E3 E4]|[E3 E4]]; [|rewrite E3; ring].
      specialize (D1 u' Hu'). rewrite (leads_same t) in D1 by assumption. discriminate.
    - destruct Hi as [->|Hi]; [contradiction|]. rewrite E1, IH by assumption. ring.
  Qed.

  Lemma a1_down x : a1 false x <> 0 -> (1 <= x)%nat.
  Proof.
    intros H0. destruct x; [|lia]. exfalso. apply H0. unfold a1. apply sq0.
  Qed.
  Lemma a2_down x : a2 false x <> 0 -> (2 <= x)%nat.
  Proof.
    unfold a2. intros H0.
    assert (X1 : a1 false x <> 0) by (intros E; apply H0; rewrite E; ring).
    assert (X2 : a1 false (x - 1) <> 0) by (intros E; apply H0; rewrite E; ring).
    apply a1_down in X1, X2. lia.
  Qed.
  Lemma a3_down x : a3 false x <> 0 -> (3 <= x)%nat.
  Proof.
    unfold a3. intros H0.
    assert (X1 : a2 false x <> 0) by (intros E; apply H0; rewrite E; ring).
    assert (X2 : a1 false (x - 2) <> 0) by (intros E; apply H0; rewrite E; ring).
    apply a2_down in X1. apply a1_down in X2. lia.
  Qed.

  Definition target (t : trans) : occ := fun i => Z.to_nat (Z.of_nat (v i) + delta_of t i).
  Lemma target_leads t : valid t -> amp n f3 v t <> 0 -> leads t (target t).
  Proof.
    intros V Ha i Hi. unfold target. rewrite Z2Nat.id; [reflexivity|].
    destruct t as [s l|s l|s t l k|s t r l m k]; cbn [valid] in V; cbn [amp] in Ha; cbn [delta_of];
      unfold dl.
    - destruct s; cbn [sg]; [destruct (i =? l)%nat; lia|].
      assert (X : a1 false (v l) <> 0) by (intros E; apply Ha; rewrite E; ring).
      apply a1_down in X. destruct (Nat.eqb_spec i l); subst; lia.
    - destruct s; cbn [sg]; [destruct (i =? l)%nat; lia|].
      assert (X : a3 false (v l) <> 0) by (intros E; apply Ha; rewrite E; ring).
      apply a3_down in X. destruct (Nat.eqb_spec i l); subst; lia.
    - assert (X : a2 s (v l) <> 0) by (intros E; apply Ha; rewrite E; ring).
      assert (Y : a1 t (v k) <> 0) by (intros E; apply Ha; rewrite E; ring).
      destruct s, t; cbn [sg]; try apply a2_down in X; try apply a1_down in Y;
        destruct (Nat.eqb_spec i l), (Nat.eqb_spec i k); subst; lia.
    - assert (X : a1 s (v l) <> 0) by (intros E; apply Ha; rewrite E; ring).
      assert (Y : a1 t (v m) <> 0) by (intros E; apply Ha; rewrite E; ring).
      assert (Z : a1 r (v k) <> 0) by (intros E; apply Ha; rewrite E; ring).
      destruct s, t, r; cbn [sg]; try apply a1_down in X; try apply a1_down in Y; try apply a1_down in Z;
        destruct (Nat.eqb_spec i l), (Nat.eqb_spec i m), (Nat.eqb_spec i k); subst; lia.
  Qed.

  Lemma cubic_at t u : valid t -> leads t u -> cubic n f3 (ket n v) u = amp n f3 v t.
  Proof.
    intros V L. rewrite cubic_transitions by assumption.
    assert (Nd := transitions_NoDup). assert (Hi : In t (transitions n)) by now apply transitions_valid.
    assert (Hv : forall t', In t' (transitions n) -> valid t') by (intros; now apply transitions_valid).
    revert Nd Hi Hv. generalize (transitions n) as T. induction T as [|t' T IH]; intros Nd Hi Hv; [contradiction|].
    inversion Nd as [|? ? Na Nl]; subst. rewrite Rsum_cons.
    assert (Z : forall t'', In t'' (t' :: T) -> t'' <> t -> ind n v u (delta_of t'') = 0).
    { intros t'' Ht Ne. destruct (ind_leads t'' u) as [[E1 E2]|[E1 E2]]; [|exact E1].
      exfalso. apply Ne. apply delta_inj; auto. intros i Hn.
      specialize (E2 i Hn). specialize (L i Hn). lia. }
    destruct Hi as [->|Hi].
    - destruct (ind_leads t u) as [[E1 _]|[_ E2]]; [|contradiction]. rewrite E1, Rsum_0; [ring|].
      intros t'' Ht. rewrite Z; [ring|now right|]. intros ->. contradiction.
    - rewrite IH; [|assumption..|intros; apply Hv; now right].
      rewrite Z; [ring|now left|]. intros ->. contradiction.
  Qed.

  Definition weight (t : trans) : R :=
    if res_of t then 0 else amp n f3 v t * amp n f3 v t / (- gap t).

  Lemma second_order us : intermediate n f3 v us ->
    Rsum us (fun u => if near n res v u then 0 else
      cubic n f3 (ket n v) u * cubic n f3 (ket n v) u / (harm_energy n w v - harm_energy n w u))
    = Rsum (transitions n) weight.
  Proof.
    intros [D Hc].
    set (c := fun u => if near n res v u then 0 else / (harm_energy n w v - harm_energy n w u)).
    rewrite (Rsum_ext _ (fun u => Rsum (transitions n) (fun t =>
      amp n f3 v t * amp n f3 v t * (c u * ind n v u (delta_of t))))).
    2:{ intros u _. rewrite cubic_transitions by assumption.
        rewrite excl_square; [| apply transitions_NoDup | |].
        - rewrite (Rsum_ext (fun t => amp n f3 v t * amp n f3 v t * (c u * ind n v u (delta_of t)))
            (fun t => c u * (amp n f3 v t * amp n f3 v t * ind n v u (delta_of t)))) by (intros; ring).
          rewrite Rsum_scal. unfold c. destruct (near n res v u); [ring|]. unfold Rdiv. ring.
        - intros t _. destruct (ind_leads t u) as [[E _]|[E _]]; auto.
        - intros t t' Ht Ht' E E'. apply transitions_valid in Ht, Ht'.
          destruct (ind_leads t u) as [[_ L]|[E1 _]]; [|lra].
          destruct (ind_leads t' u) as [[_ L']|[E1 _]]; [|lra].
          apply delta_inj; try assumption. intros i Hi. specialize (L i Hi). specialize (L' i Hi). lia. }
    rewrite Rsum_swap. apply Rsum_ext. intros t Ht. apply transitions_valid in Ht.
    rewrite Rsum_scal. unfold weight.
    destruct (Req_dec (amp n f3 v t) 0) as [E|E].
    { rewrite E. destruct (res_of t); unfold Rdiv; ring. }
    assert (L := target_leads t Ht E).
    destruct (Hc (target t)) as (u0 & Hu0 & Hs).
    { rewrite (cubic_at t) by assumption. exact E. }
    rewrite (sum_leads t us u0 c (if res_of t then 0 else / - gap t)); try assumption.
    - destruct (res_of t); unfold Rdiv; ring.
    - now apply (leads_same_r t (target t)).
    - intros u Lu. unfold c. rewrite (near_res t u Ht Lu), (gap_lemma t u Ht Lu). reflexivity.
  Qed.

  (** a complete list of intermediate states exists *)
  Lemma intermediate_exists : exists us, intermediate n f3 v us.
  Proof.
    set (T := filter (fun t => if Req_EM_T (amp n f3 v t) 0 then false else true) (transitions n)).
    exists (map target T). split.
    - assert (Nd : NoDup T) by (apply NoDup_filter, transitions_NoDup).
      assert (Hv : forall t, In t T -> valid t /\ leads t (target t)).
      { intros t Ht. apply filter_In in Ht. destruct Ht as [Ht Ha]. apply transitions_valid in Ht.
        destruct (Req_EM_T (amp n f3 v t) 0) as [E|E]; [discriminate|].
        split; [assumption|]. now apply target_leads. }
      revert Nd Hv. generalize T. clear T. induction T as [|t T IH]; intros Nd Hv; [constructor|].
      inversion Nd as [|? ? Na Nl]; subst. cbn [map]. constructor.
      + apply Forall_forall. intros u Hu. apply in_map_iff in Hu. destruct Hu as (t' & <- & Ht').
        apply not_true_iff_false. intros S. apply Na.
        destruct (Hv t (or_introl eq_refl)) as [V L]. destruct (Hv t' (or_intror Ht')) as [V' L'].
        assert (t = t') as ->; [|exact Ht'].
        apply delta_inj; try assumption. intros i Hi. rewrite same_iff in S.
        specialize (S i Hi). specialize (L i Hi). specialize (L' i Hi). lia.
      + apply IH; [assumption|]. intros; apply Hv; now right.
    - intros u Hu. rewrite cubic_transitions in Hu by assumption.
      destruct (existsb (fun t => if Req_EM_T (amp n f3 v t * ind n v u (delta_of t)) 0 then false else true)
        (transitions n)) eqn:X.
      + apply existsb_exists in X. destruct X as (t & Ht & X).
        destruct (Req_EM_T (amp n f3 v t * ind n v u (delta_of t)) 0) as [E|E]; [discriminate|].
        assert (Ha : amp n f3 v t <> 0) by (intros Q; apply E; rewrite Q; ring).
        destruct (ind_leads t u) as [[_ L]|[Q _]]; [|exfalso; apply E; rewrite Q; ring].
        exists (target t). split.
        * apply in_map, filter_In. split; [assumption|].
          destruct (Req_EM_T (amp n f3 v t) 0); [contradiction|reflexivity].
        * apply (leads_same t); [assumption|]. apply target_leads; [|assumption].
          now apply transitions_valid.
      + exfalso. apply Hu. apply Rsum_0. intros t Ht.
        destruct (Req_EM_T (amp n f3 v t * ind n v u (delta_of t)) 0) as [E|E]; [exact E|].
        exfalso. apply not_true_iff_false in X. apply X. apply existsb_exists. exists t.
        split; [exact Ht|]. destruct (Req_EM_T (amp n f3 v t * ind n v u (delta_of t)) 0); [contradiction|reflexivity].
  Qed.
End Sum.
