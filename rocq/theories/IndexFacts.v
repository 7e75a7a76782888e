(** Lemmas about the flat index formulas. *)
From Coq Require Import List Arith NArith ZArith Lia Permutation Sorted Bool.
From Coq Require Import ZifyBool ZifyNat ZifyN.
From Verif Require Import Num Loops Index.
Import ListNotations.

(** ** Triangular, tetrahedral and pentatope numbers by recursion *)
Fixpoint t2 (n : nat) : nat := match n with O => 0 | S m => t2 m + n end.
Fixpoint t3 (n : nat) : nat := match n with O => 0 | S m => t3 m + t2 n end.
Fixpoint t4 (n : nat) : nat := match n with O => 0 | S m => t4 m + t3 n end.

Lemma t2_closed n : 2 * t2 n = n * (n + 1).
Proof. induction n as [|n IH]; [reflexivity|]. cbn [t2]. nia. Qed.
Lemma t3_closed n : 6 * t3 n = n * (n + 1) * (n + 2).
Proof.
  induction n as [|n IH]; [reflexivity|]. cbn [t3].
  pose proof (t2_closed (S n)). nia.
Qed.
Lemma t4_closed n : 24 * t4 n = n * (n + 1) * (n + 2) * (n + 3).
Proof.
  induction n as [|n IH]; [reflexivity|]. cbn [t4].
  pose proof (t3_closed (S n)). nia.
Qed.

Lemma div_exact_eq a b c : b <> 0 -> b * c = a -> a / b = c.
Proof. intros Hb <-. rewrite Nat.mul_comm. apply Nat.div_mul; assumption. Qed.

Lemma t2_div n : n * (n + 1) / 2 = t2 n.
Proof. apply div_exact_eq; [lia|apply t2_closed]. Qed.
Lemma t3_div n : n * (n + 1) * (n + 2) / 6 = t3 n.
Proof. apply div_exact_eq; [lia|apply t3_closed]. Qed.
Lemma t4_div n : n * (n + 1) * (n + 2) * (n + 3) / 24 = t4 n.
Proof. apply div_exact_eq; [lia|apply t4_closed]. Qed.

Lemma ioff_succ n : ioff (n + 1) = t2 n.
Proof. unfold ioff. rewrite Nat.add_sub. apply t2_div. Qed.

Lemma t2_mono a b : a <= b -> t2 a <= t2 b.
Proof. induction 1; [lia|]. cbn [t2]. lia. Qed.
Lemma t3_mono a b : a <= b -> t3 a <= t3 b.
Proof. induction 1; [lia|]. cbn [t3]. lia. Qed.
Lemma t4_mono a b : a <= b -> t4 a <= t4 b.
Proof. induction 1; [lia|]. cbn [t4]. lia. Qed.

(** ** Sorting *)
Lemma insert_sorted_perm x l : Permutation (x :: l) (insert_sorted x l).
Proof.
  induction l as [|y t IH]; [reflexivity|]. cbn.
  destruct (x <=? y); [reflexivity|].
  rewrite perm_swap. constructor. exact IH.
Qed.

Lemma sort_indices_perm l : Permutation l (sort_indices l).
Proof.
  induction l as [|x l IH]; [reflexivity|].
  cbn. rewrite <- insert_sorted_perm. constructor. exact IH.
Qed.

Lemma insert_sorted_sorted x l :
  StronglySorted le l -> StronglySorted le (insert_sorted x l).
Proof.
  induction l as [|y t IH]; intros Hs.
  - repeat constructor.
  - apply StronglySorted_inv in Hs as [Ht Hy]. cbn.
    destruct (x <=? y) eqn:E.
    + constructor; [constructor; assumption|].
      constructor; [lia|]. eapply Forall_impl; [|exact Hy]. intros; cbn in *; lia.
    + constructor; [apply IH; exact Ht|].
      rewrite <- (insert_sorted_perm x t). constructor; [lia|exact Hy].
Qed.

Lemma sort_indices_sorted l : StronglySorted le (sort_indices l).
Proof.
  induction l as [|x l IH]; [constructor|]. cbn. apply insert_sorted_sorted, IH.
Qed.

Lemma sorted_perm_eq (l l' : list nat) :
  StronglySorted le l -> StronglySorted le l' -> Permutation l l' -> l = l'.
Proof.
  revert l'. induction l as [|x l IH]; intros l' Hs Hs' Hp.
  - apply Permutation_nil in Hp. now subst.
  - destruct l' as [|y l']; [symmetry in Hp; apply Permutation_nil in Hp; discriminate|].
    apply StronglySorted_inv in Hs as [Hs Hx].
    apply StronglySorted_inv in Hs' as [Hs' Hy].
    assert (x = y) as ->.
    { assert (In y (x :: l)) as Hin by (rewrite Hp; now left).
      assert (In x (y :: l')) as Hin' by (rewrite <- Hp; now left).
      rewrite Forall_forall in Hx, Hy.
      destruct Hin as [->|Hin]; [reflexivity|].
      destruct Hin' as [->|Hin']; [reflexivity|].
      apply Hx in Hin. apply Hy in Hin'. lia. }
    f_equal. apply IH; auto. eapply Permutation_cons_inv, Hp.
Qed.

Lemma sort_indices_perm_eq l l' :
  Permutation l l' -> sort_indices l = sort_indices l'.
Proof.
  intros Hp. apply sorted_perm_eq; auto using sort_indices_sorted.
  rewrite <- !sort_indices_perm. exact Hp.
Qed.

Lemma sort_indices_id l : StronglySorted le l -> sort_indices l = l.
Proof.
  intros Hs. apply sorted_perm_eq; auto using sort_indices_sorted.
  symmetry. apply sort_indices_perm.
Qed.

(** ** find3 *)
Lemma find3_perm i j k i' j' k' :
  Permutation [i; j; k] [i'; j'; k'] -> find3 i j k = find3 i' j' k'.
Proof.
  intros Hp. unfold find3.
  rewrite (sort_indices_perm_eq [i + 1; j + 1; k + 1] [i' + 1; j' + 1; k' + 1]);
    [reflexivity|].
  exact (Permutation_map (fun x => x + 1) Hp).
Qed.

Lemma sorted3 a b c : a <= b -> b <= c -> StronglySorted le [a; b; c].
Proof. intros; repeat constructor; lia. Qed.
Lemma sorted4 a b c d : a <= b -> b <= c -> c <= d -> StronglySorted le [a; b; c; d].
Proof. intros; repeat constructor; lia. Qed.

Lemma find3_sorted i j k :
  i <= j -> j <= k -> find3 i j k = i + t2 j + t3 k.
Proof.
  intros Hij Hjk. unfold find3.
  rewrite sort_indices_id by (apply sorted3; lia).
  replace ((j + 1 - 1) * (j + 1) / 2) with (t2 j)
    by (symmetry; rewrite Nat.add_sub; apply t2_div).
  replace ((k + 1 - 1) * (k + 1) * (k + 1 + 1) / 6) with (t3 k).
  2:{ symmetry. rewrite Nat.add_sub. replace (k + 1 + 1) with (k + 2) by lia.
      apply t3_div. }
  lia.
Qed.

Lemma find4_perm i j k l i' j' k' l' :
  Permutation [i; j; k; l] [i'; j'; k'; l'] -> find4 i j k l = find4 i' j' k' l'.
Proof.
  intros Hp. unfold find4.
  rewrite (sort_indices_perm_eq [i + 1; j + 1; k + 1; l + 1]
             [i' + 1; j' + 1; k' + 1; l' + 1]); [reflexivity|].
  exact (Permutation_map (fun x => x + 1) Hp).
Qed.

Lemma find4_sorted i j k l :
  i <= j -> j <= k -> k <= l -> find4 i j k l = i + t2 j + t3 k + t4 l.
Proof.
  intros Hij Hjk Hkl. unfold find4.
  rewrite sort_indices_id by (apply sorted4; lia).
  replace ((j + 1 - 1) * (j + 1) / 2) with (t2 j)
    by (symmetry; rewrite Nat.add_sub; apply t2_div).
  replace ((k + 1 - 1) * (k + 1) * (k + 1 + 1) / 6) with (t3 k).
  2:{ symmetry. rewrite Nat.add_sub. replace (k + 1 + 1) with (k + 2) by lia.
      apply t3_div. }
  replace ((l + 1 - 1) * (l + 1) * (l + 1 + 1) * (l + 1 + 2) / 24) with (t4 l).
  2:{ symmetry. rewrite Nat.add_sub. replace (l + 1 + 1) with (l + 2) by lia.
      replace (l + 1 + 2) with (l + 3) by lia. apply t4_div. }
  lia.
Qed.

(** every triple/quadruple is a permutation of its sorted version *)
Lemma sorted_of3 i j k :
  exists a b c, Permutation [i; j; k] [a; b; c] /\ a <= b /\ b <= c.
Proof.
  pose proof (sort_indices_perm [i; j; k]) as Hp.
  pose proof (sort_indices_sorted [i; j; k]) as Hs.
  pose proof (Permutation_length Hp) as Hl.
  destruct (sort_indices [i; j; k]) as [|a [|b [|c [|d t]]]]; try discriminate.
  exists a, b, c. split; [exact Hp|].
  apply StronglySorted_inv in Hs as [Hs Ha].
  apply StronglySorted_inv in Hs as [Hs Hb].
  inversion Ha; inversion Hb; subst. split; assumption.
Qed.

Lemma sorted_of4 i j k l :
  exists a b c d, Permutation [i; j; k; l] [a; b; c; d] /\ a <= b /\ b <= c /\ c <= d.
Proof.
  pose proof (sort_indices_perm [i; j; k; l]) as Hp.
  pose proof (sort_indices_sorted [i; j; k; l]) as Hs.
  pose proof (Permutation_length Hp) as Hl.
  destruct (sort_indices [i; j; k; l]) as [|a [|b [|c [|d [|e t]]]]]; try discriminate.
  exists a, b, c, d. split; [exact Hp|].
  apply StronglySorted_inv in Hs as [Hs Ha].
  apply StronglySorted_inv in Hs as [Hs Hb].
  apply StronglySorted_inv in Hs as [Hs Hc].
  inversion Ha; inversion Hb; inversion Hc; subst. auto.
Qed.

Lemma perm_forall_lt n l l' :
  Permutation l l' -> (forall x, In x l -> x < n) -> forall x, In x l' -> x < n.
Proof. intros Hp H x Hx. apply H. rewrite Hp. exact Hx. Qed.

Lemma find3_lt_sorted i j k n : i <= j -> j <= k -> k < n -> find3 i j k < t3 n.
Proof.
  intros Hij Hjk Hk. rewrite find3_sorted by lia.
  assert (i + t2 j < t2 (S k)).
  { pose proof (t2_mono (S j) (S k)). cbn [t2] in *. lia. }
  pose proof (t3_mono (S k) n). cbn [t3] in *. lia.
Qed.

Lemma find3_ge_sorted i j k n : i <= j -> j <= k -> n <= k -> t3 n <= find3 i j k.
Proof.
  intros Hij Hjk Hk. rewrite find3_sorted by lia.
  pose proof (t3_mono n k). lia.
Qed.

Lemma find3_bound i j k n :
  find3 i j k < t3 n <-> i < n /\ j < n /\ k < n.
Proof.
  destruct (sorted_of3 i j k) as (a & b & c & Hp & Hab & Hbc).
  rewrite (find3_perm _ _ _ _ _ _ Hp). split.
  - intros Hlt.
    assert (c < n) by (destruct (Nat.lt_ge_cases c n) as [|Hge]; [assumption|];
      pose proof (find3_ge_sorted a b c n Hab Hbc Hge); lia).
    assert (forall x, In x [i; j; k] -> x < n) as Hall.
    { eapply perm_forall_lt; [symmetry; exact Hp|].
      cbn; intros x [<-|[<-|[<-|[]]]]; lia. }
    repeat split; apply Hall; cbn; auto.
  - intros (Hi & Hj & Hk). apply find3_lt_sorted; auto.
    eapply perm_forall_lt; [exact Hp| |cbn; auto].
    cbn; intros x [<-|[<-|[<-|[]]]]; lia.
Qed.

Lemma find4_lt_sorted i j k l n :
  i <= j -> j <= k -> k <= l -> l < n -> find4 i j k l < t4 n.
Proof.
  intros Hij Hjk Hkl Hl. rewrite find4_sorted by lia.
  assert (i + t2 j + t3 k < t3 (S l)).
  { rewrite <- find3_sorted by lia. apply find3_lt_sorted; lia. }
  pose proof (t4_mono (S l) n). cbn [t4] in *. lia.
Qed.

Lemma find4_ge_sorted i j k l n :
  i <= j -> j <= k -> k <= l -> n <= l -> t4 n <= find4 i j k l.
Proof.
  intros Hij Hjk Hkl Hl. rewrite find4_sorted by lia.
  pose proof (t4_mono n l). lia.
Qed.

Lemma find4_bound i j k l n :
  find4 i j k l < t4 n <-> i < n /\ j < n /\ k < n /\ l < n.
Proof.
  destruct (sorted_of4 i j k l) as (a & b & c & d & Hp & Hab & Hbc & Hcd).
  rewrite (find4_perm _ _ _ _ _ _ _ _ Hp). split.
  - intros Hlt.
    assert (d < n) by (destruct (Nat.lt_ge_cases d n) as [|Hge]; [assumption|];
      pose proof (find4_ge_sorted a b c d n Hab Hbc Hcd Hge); lia).
    assert (forall x, In x [i; j; k; l] -> x < n) as Hall.
    { eapply perm_forall_lt; [symmetry; exact Hp|].
      cbn; intros x [<-|[<-|[<-|[<-|[]]]]]; lia. }
    repeat split; apply Hall; cbn; auto.
  - intros (Hi & Hj & Hk & Hl). apply find4_lt_sorted; auto.
    eapply perm_forall_lt; [exact Hp| |cbn; auto].
    cbn; intros x [<-|[<-|[<-|[<-|[]]]]]; lia.
Qed.

(** ** injectivity *)
Lemma t2_inj_sorted i j i' j' :
  i <= j -> i' <= j' -> i + t2 j = i' + t2 j' -> i = i' /\ j = j'.
Proof.
  intros H1 H2 He.
  assert (j = j') as ->.
  { destruct (Nat.lt_trichotomy j j') as [Hl|[Hl|Hl]]; [|exact Hl|].
    - pose proof (t2_mono (S j) j' Hl). cbn [t2] in *. lia.
    - pose proof (t2_mono (S j') j Hl). cbn [t2] in *. lia. }
  lia.
Qed.

Lemma find3_inj_sorted i j k i' j' k' :
  i <= j -> j <= k -> i' <= j' -> j' <= k' ->
  find3 i j k = find3 i' j' k' -> i = i' /\ j = j' /\ k = k'.
Proof.
  intros H1 H2 H1' H2' He.
  assert (k = k') as ->.
  { destruct (Nat.lt_trichotomy k k') as [Hl|[Hl|Hl]]; [|exact Hl|].
    - pose proof (find3_lt_sorted i j k k' H1 H2 Hl).
      pose proof (find3_ge_sorted i' j' k' k' H1' H2' (le_n _)). lia.
    - pose proof (find3_lt_sorted i' j' k' k H1' H2' Hl).
      pose proof (find3_ge_sorted i j k k H1 H2 (le_n _)). lia. }
  rewrite !find3_sorted in He by lia.
  destruct (t2_inj_sorted i j i' j') as [-> ->]; auto; lia.
Qed.

Lemma find3_inj i j k i' j' k' :
  find3 i j k = find3 i' j' k' -> Permutation [i; j; k] [i'; j'; k'].
Proof.
  destruct (sorted_of3 i j k) as (a & b & c & Hp & Hab & Hbc).
  destruct (sorted_of3 i' j' k') as (a' & b' & c' & Hp' & Hab' & Hbc').
  rewrite (find3_perm _ _ _ _ _ _ Hp), (find3_perm _ _ _ _ _ _ Hp').
  intros He. apply find3_inj_sorted in He as (-> & -> & ->); auto.
  rewrite Hp, Hp'. reflexivity.
Qed.

Lemma find4_inj_sorted i j k l i' j' k' l' :
  i <= j -> j <= k -> k <= l -> i' <= j' -> j' <= k' -> k' <= l' ->
  find4 i j k l = find4 i' j' k' l' -> i = i' /\ j = j' /\ k = k' /\ l = l'.
Proof.
  intros H1 H2 H3 H1' H2' H3' He.
  assert (l = l') as ->.
  { destruct (Nat.lt_trichotomy l l') as [Hl|[Hl|Hl]]; [|exact Hl|].
    - pose proof (find4_lt_sorted i j k l l' H1 H2 H3 Hl).
      pose proof (find4_ge_sorted i' j' k' l' l' H1' H2' H3' (le_n _)). lia.
    - pose proof (find4_lt_sorted i' j' k' l' l H1' H2' H3' Hl).
      pose proof (find4_ge_sorted i j k l l H1 H2 H3 (le_n _)). lia. }
  rewrite !find4_sorted in He by lia.
  destruct (find3_inj_sorted i j k i' j' k') as (-> & -> & ->); auto.
  rewrite !find3_sorted by lia. lia.
Qed.

Lemma find4_inj i j k l i' j' k' l' :
  find4 i j k l = find4 i' j' k' l' -> Permutation [i; j; k; l] [i'; j'; k'; l'].
Proof.
  destruct (sorted_of4 i j k l) as (a & b & c & d & Hp & Hab & Hbc & Hcd).
  destruct (sorted_of4 i' j' k' l') as (a' & b' & c' & d' & Hp' & Hab' & Hbc' & Hcd').
  rewrite (find4_perm _ _ _ _ _ _ _ _ Hp), (find4_perm _ _ _ _ _ _ _ _ Hp').
  intros He. apply find4_inj_sorted in He as (-> & -> & -> & ->); auto.
  rewrite Hp, Hp'. reflexivity.
Qed.

(** ** surjectivity *)
Lemma t2_surj n p : p < t2 n -> exists i j, i <= j /\ j < n /\ p = i + t2 j.
Proof.
  induction n as [|n IH]; cbn [t2]; intros Hp; [lia|].
  destruct (Nat.lt_ge_cases p (t2 n)) as [Hlt|Hge].
  - destruct (IH Hlt) as (i & j & H1 & H2 & H3). exists i, j. repeat split; auto; lia.
  - exists (p - t2 n), n. repeat split; lia.
Qed.

Lemma find3_surj n p :
  p < t3 n -> exists i j k, i <= j /\ j <= k /\ k < n /\ find3 i j k = p.
Proof.
  induction n as [|n IH]; intros Hp; [cbn in Hp; lia|].
  destruct (Nat.lt_ge_cases p (t3 n)) as [Hlt|Hge].
  - destruct (IH Hlt) as (i & j & k & H1 & H2 & H3 & H4).
    exists i, j, k. repeat split; auto; lia.
  - destruct (t2_surj (S n) (p - t3 n)) as (i & j & H1 & H2 & H3).
    { cbn [t3] in Hp. lia. }
    exists i, j, n. rewrite find3_sorted by lia. repeat split; lia.
Qed.

Lemma find4_surj n p :
  p < t4 n ->
  exists i j k l, i <= j /\ j <= k /\ k <= l /\ l < n /\ find4 i j k l = p.
Proof.
  induction n as [|n IH]; intros Hp; [cbn in Hp; lia|].
  destruct (Nat.lt_ge_cases p (t4 n)) as [Hlt|Hge].
  - destruct (IH Hlt) as (i & j & k & l & H1 & H2 & H3 & H4 & H5).
    exists i, j, k, l. repeat split; auto; lia.
  - destruct (find3_surj (S n) (p - t4 n)) as (i & j & k & H1 & H2 & H3 & H4).
    { cbn [t4] in Hp. lia. }
    exists i, j, k, n. rewrite find4_sorted by lia.
    rewrite find3_sorted in H4 by lia. repeat split; lia.
Qed.

(** ** pair index *)
Lemma pair_index_sorted i j : i <= j -> pair_index i j = t2 j + i.
Proof. intros. unfold pair_index. rewrite ioff_succ, Nat.max_r, Nat.min_l by lia. lia. Qed.

Lemma pair_index_comm i j : pair_index i j = pair_index j i.
Proof. unfold pair_index. rewrite Nat.max_comm, Nat.min_comm. reflexivity. Qed.

Lemma pair_index_bound i j n : pair_index i j < t2 n <-> i < n /\ j < n.
Proof.
  assert (forall i j, i <= j -> (pair_index i j < t2 n <-> i < n /\ j < n)) as H.
  { clear i j. intros i j Hij. rewrite pair_index_sorted by exact Hij. split.
    - intros Hlt. destruct (Nat.lt_ge_cases j n) as [|Hge]; [lia|].
      pose proof (t2_mono n j Hge). lia.
    - intros [_ Hj]. pose proof (t2_mono (S j) n Hj). cbn [t2] in *. lia. }
  destruct (Nat.le_ge_cases i j) as [Hij|Hij]; [apply H, Hij|].
  rewrite pair_index_comm. rewrite (H j i Hij). tauto.
Qed.

Lemma pair_index_inj i j i' j' :
  pair_index i j = pair_index i' j' ->
  (i = i' /\ j = j') \/ (i = j' /\ j = i').
Proof.
  assert (forall i j i' j', i <= j -> i' <= j' ->
            pair_index i j = pair_index i' j' -> i = i' /\ j = j') as H.
  { clear. intros i j i' j' H1 H2. rewrite !pair_index_sorted by assumption.
    intros He. apply t2_inj_sorted; auto; lia. }
  intros He.
  destruct (Nat.le_ge_cases i j) as [H1|H1]; destruct (Nat.le_ge_cases i' j') as [H2|H2].
  - left. apply H; auto.
  - right. rewrite (pair_index_comm i' j') in He. apply H in He; tauto.
  - right. rewrite (pair_index_comm i j) in He. apply H in He; auto; tauto.
  - left. rewrite (pair_index_comm i j), (pair_index_comm i' j') in He.
    apply H in He; tauto.
Qed.

(** ** 64-bit arithmetic *)
Lemma insert_sortedN_nat x l :
  map N.to_nat (insert_sortedN x l) = insert_sorted (N.to_nat x) (map N.to_nat l).
Proof.
  induction l as [|y t IH]; [reflexivity|]. cbn.
  destruct (N.leb x y) eqn:E; destruct (N.to_nat x <=? N.to_nat y) eqn:E'; try lia.
  - reflexivity.
  - cbn. now rewrite IH.
Qed.

Lemma sort_indicesN_nat l :
  map N.to_nat (sort_indicesN l) = sort_indices (map N.to_nat l).
Proof.
  induction l as [|x l IH]; [reflexivity|]. cbn. rewrite insert_sortedN_nat.
  unfold sort_indicesN in IH. now rewrite IH.
Qed.

Lemma insert_sortedN_perm x l : Permutation (x :: l) (insert_sortedN x l).
Proof.
  induction l as [|y t IH]; [reflexivity|]. cbn.
  destruct (N.leb x y); [reflexivity|].
  rewrite perm_swap. constructor. exact IH.
Qed.
Lemma sort_indicesN_perm l : Permutation l (sort_indicesN l).
Proof.
  induction l as [|x l IH]; [reflexivity|].
  cbn. rewrite <- insert_sortedN_perm. constructor. exact IH.
Qed.

Lemma uadd_some a b : (a + b <= u64_max)%N -> uadd a b = Some (a + b)%N.
Proof. unfold uadd. intros H. apply N.leb_le in H. now rewrite H. Qed.
Lemma umul_some a b : (a * b <= u64_max)%N -> umul a b = Some (a * b)%N.
Proof. unfold umul. intros H. apply N.leb_le in H. now rewrite H. Qed.
Lemma usub_some a b : (b <= a)%N -> usub a b = Some (a - b)%N.
Proof. unfold usub. intros H. apply N.leb_le in H. now rewrite H. Qed.
Lemma udiv_some a b : (b <> 0)%N -> udiv a b = Some (a / b)%N.
Proof. unfold udiv. intros H. apply N.eqb_neq in H. now rewrite H. Qed.

Lemma N_div_le_self a b : (a / b <= a)%N.
Proof.
  destruct (N.eq_dec b 0) as [->|Hb]; [destruct a; cbn; lia|].
  apply N.div_le_upper_bound; [exact Hb|].
  assert (1 <= b)%N by lia. nia.
Qed.

Lemma find3_u64_ok i j k :
  (i < 2097151 -> j < 2097151 -> k < 2097151 ->
   exists p, find3_u64 i j k = Some p /\
             N.to_nat p = find3 (N.to_nat i) (N.to_nat j) (N.to_nat k))%N.
Proof.
  intros Hi Hj Hk. unfold find3_u64.
  rewrite (uadd_some i 1), (uadd_some j 1), (uadd_some k 1) by (unfold u64_max; lia).
  cbn [obind].
  pose proof (sort_indicesN_perm [i + 1; j + 1; k + 1]%N) as Hp.
  pose proof (sort_indicesN_nat [i + 1; j + 1; k + 1]%N) as Hs.
  pose proof (Permutation_length Hp) as Hl.
  unfold find3.
  cbn [map] in Hs. rewrite !N2Nat.inj_add in Hs. change (N.to_nat 1) with 1 in Hs.
  rewrite <- Hs. clear Hs.
  destruct (sort_indicesN [i + 1; j + 1; k + 1]%N) as [|a [|b [|c [|d t]]]];
    try discriminate.
  assert (forall x, In x [a; b; c] -> (1 <= x <= 2097151)%N) as Hb.
  { intros x Hx. rewrite <- Hp in Hx. cbn in Hx.
    destruct Hx as [<-|[<-|[<-|[]]]]; lia. }
  assert (1 <= a <= 2097151)%N as Ha by (apply Hb; cbn; auto).
  assert (1 <= b <= 2097151)%N as Hbb by (apply Hb; cbn; auto).
  assert (1 <= c <= 2097151)%N as Hc by (apply Hb; cbn; auto).
  assert ((b - 1) * b <= 2097151 * 2097151)%N as M1 by nia.
  assert ((c - 1) * c <= 2097151 * 2097151)%N as M2 by nia.
  assert ((c - 1) * c * (c + 1) <= 9223358842721533951)%N as M3.
  { assert ((c - 1) * (c + 1) <= 2097150 * 2097152)%N by nia.
    replace ((c - 1) * c * (c + 1))%N with (((c - 1) * (c + 1)) * c)%N by ring. nia. }
  rewrite (usub_some b 1) by lia. cbn [obind].
  rewrite umul_some by (unfold u64_max; lia). cbn [obind].
  rewrite udiv_some by lia. cbn [obind].
  pose proof (N_div_le_self ((b - 1) * b) 2) as D1.
  rewrite uadd_some by (unfold u64_max; lia). cbn [obind].
  rewrite (usub_some c 1) by lia. cbn [obind].
  rewrite umul_some by (unfold u64_max; lia). cbn [obind].
  rewrite uadd_some by (unfold u64_max; lia). cbn [obind].
  rewrite umul_some by (unfold u64_max; lia). cbn [obind].
  rewrite udiv_some by lia. cbn [obind].
  pose proof (N_div_le_self ((c - 1) * c * (c + 1)) 6) as D2.
  rewrite uadd_some by (unfold u64_max; lia). cbn [obind].
  match goal with
  | |- context [usub ?s 1] => assert (1 <= s)%N as Hs
  end.
  { repeat match goal with
           | |- context [(?x / ?y)%N] => generalize (x / y)%N; intros ?
           end. clear -Ha. lia. }
  rewrite usub_some by exact Hs.
  eexists. split; [reflexivity|]. cbn [map].
  rewrite N2Nat.inj_sub, !N2Nat.inj_add, !N2Nat.inj_div, !N2Nat.inj_mul,
    !N2Nat.inj_sub, !N2Nat.inj_add.
  reflexivity.
Qed.

Lemma find4_u64_ok i j k l :
  (i < 65535 -> j < 65535 -> k < 65535 -> l < 65535 ->
   exists p, find4_u64 i j k l = Some p /\
             N.to_nat p = find4 (N.to_nat i) (N.to_nat j) (N.to_nat k) (N.to_nat l))%N.
Proof.
  intros Hi Hj Hk Hll. unfold find4_u64.
  rewrite (uadd_some i 1), (uadd_some j 1), (uadd_some k 1), (uadd_some l 1)
    by (unfold u64_max; lia).
  cbn [obind].
  pose proof (sort_indicesN_perm [i + 1; j + 1; k + 1; l + 1]%N) as Hp.
  pose proof (sort_indicesN_nat [i + 1; j + 1; k + 1; l + 1]%N) as Hs.
  pose proof (Permutation_length Hp) as Hl.
  unfold find4.
  cbn [map] in Hs. rewrite !N2Nat.inj_add in Hs. change (N.to_nat 1) with 1 in Hs.
  rewrite <- Hs. clear Hs.
  destruct (sort_indicesN [i + 1; j + 1; k + 1; l + 1]%N) as [|a [|b [|c [|d [|e t]]]]];
    try discriminate.
  assert (forall x, In x [a; b; c; d] -> (1 <= x <= 65535)%N) as Hb.
  { intros x Hx. rewrite <- Hp in Hx. cbn in Hx.
    destruct Hx as [<-|[<-|[<-|[<-|[]]]]]; lia. }
  assert (1 <= a <= 65535)%N as Ha by (apply Hb; cbn; auto).
  assert (1 <= b <= 65535)%N as Hbb by (apply Hb; cbn; auto).
  assert (1 <= c <= 65535)%N as Hc by (apply Hb; cbn; auto).
  assert (1 <= d <= 65535)%N as Hd by (apply Hb; cbn; auto).
  assert ((b - 1) * b <= 65535 * 65535)%N as M1 by nia.
  assert ((c - 1) * c <= 65535 * 65535)%N as M2 by nia.
  assert ((c - 1) * c * (c + 1) <= 65535 * 65535 * 65536)%N as M3 by nia.
  assert ((d - 1) * d <= 65534 * 65535)%N as M4 by nia.
  assert ((d - 1) * d * (d + 1) <= 65534 * 65535 * 65536)%N as M5 by nia.
  assert ((d - 1) * d * (d + 1) * (d + 2) <= 65534 * 65535 * 65536 * 65537)%N as M6 by nia.
  rewrite (usub_some b 1) by lia. cbn [obind].
  rewrite umul_some by (unfold u64_max; lia). cbn [obind].
  rewrite udiv_some by lia. cbn [obind].
  pose proof (N_div_le_self ((b - 1) * b) 2) as D1.
  rewrite uadd_some by (unfold u64_max; lia). cbn [obind].
  rewrite (usub_some c 1) by lia. cbn [obind].
  rewrite umul_some by (unfold u64_max; lia). cbn [obind].
  rewrite uadd_some by (unfold u64_max; lia). cbn [obind].
  rewrite umul_some by (unfold u64_max; lia). cbn [obind].
  rewrite udiv_some by lia. cbn [obind].
  pose proof (N_div_le_self ((c - 1) * c * (c + 1)) 6) as D2.
  rewrite uadd_some by (unfold u64_max; lia). cbn [obind].
  rewrite (usub_some d 1) by lia. cbn [obind].
  rewrite umul_some by (unfold u64_max; lia). cbn [obind].
  rewrite uadd_some by (unfold u64_max; lia). cbn [obind].
  rewrite umul_some by (unfold u64_max; lia). cbn [obind].
  rewrite uadd_some by (unfold u64_max; lia). cbn [obind].
  rewrite umul_some by (unfold u64_max; lia). cbn [obind].
  rewrite udiv_some by lia. cbn [obind].
  assert ((d - 1) * d * (d + 1) * (d + 2) / 24 <= 768590879977553920)%N as D3.
  { apply N.div_le_upper_bound; lia. }
  rewrite uadd_some by (unfold u64_max; lia). cbn [obind].
  match goal with
  | |- context [usub ?s 1] => assert (1 <= s)%N as Hs
  end.
  { repeat match goal with
           | |- context [(?x / ?y)%N] => generalize (x / y)%N; intros ?
           end. clear -Ha. lia. }
  rewrite usub_some by exact Hs.
  eexists. split; [reflexivity|]. cbn [map].
  rewrite N2Nat.inj_sub, !N2Nat.inj_add, !N2Nat.inj_div, !N2Nat.inj_mul,
    !N2Nat.inj_sub, !N2Nat.inj_add.
  reflexivity.
Qed.
