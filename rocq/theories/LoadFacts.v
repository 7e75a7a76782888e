(** Lemmas about loading force constants and about [to_vec]. *)
From Coq Require Import List ZArith NArith Nnat Arith Lia Permutation Bool.
From Coq Require Import ZifyBool ZifyNat.
From Verif Require Import Num Loops Index ListFacts IndexFacts.
Import ListNotations.

(** ** permutations of short lists, enumerated *)
Lemma perm2_inv {A} (a b i j : A) :
  Permutation [a; b] [i; j] -> (a = i /\ b = j) \/ (a = j /\ b = i).
Proof. apply Permutation_length_2. Qed.

Lemma perm3_inv {A} (a b c i j k : A) :
  Permutation [a; b; c] [i; j; k] ->
  In (a, b, c) [(i, j, k); (i, k, j); (j, i, k); (j, k, i); (k, i, j); (k, j, i)].
Proof.
  intros Hp.
  assert (In a [i; j; k]) as Ha by (rewrite <- Hp; now left).
  destruct Ha as [<-|[<-|[<-|[]]]].
  - apply Permutation_cons_inv, perm2_inv in Hp.
    destruct Hp as [[-> ->]|[-> ->]]; cbn; tauto.
  - rewrite (perm_swap j i) in Hp.
    apply Permutation_cons_inv, perm2_inv in Hp.
    destruct Hp as [[-> ->]|[-> ->]]; cbn; tauto.
  - assert (Permutation [i; j; k] [k; i; j]) as Hq
      by (symmetry; change [i; j; k] with ([i; j] ++ [k]); apply Permutation_cons_append).
    rewrite Hq in Hp.
    apply Permutation_cons_inv, perm2_inv in Hp.
    destruct Hp as [[-> ->]|[-> ->]]; cbn; tauto.
Qed.

Definition perms4 {A} (i j k l : A) : list (A * A * A * A) :=
  [(i, j, k, l); (i, j, l, k); (i, k, j, l); (i, k, l, j);
   (i, l, j, k); (i, l, k, j); (j, i, k, l); (j, i, l, k);
   (j, k, i, l); (j, k, l, i); (j, l, i, k); (j, l, k, i);
   (k, i, j, l); (k, i, l, j); (k, j, i, l); (k, j, l, i);
   (k, l, i, j); (k, l, j, i); (l, i, j, k); (l, i, k, j);
   (l, j, i, k); (l, j, k, i); (l, k, i, j); (l, k, j, i)].

Lemma perm4_inv {A} (a b c d i j k l : A) :
  Permutation [a; b; c; d] [i; j; k; l] -> In (a, b, c, d) (perms4 i j k l).
Proof.
  intros Hp.
  assert (In a [i; j; k; l]) as Ha by (rewrite <- Hp; now left).
  assert (forall x y z, Permutation [b; c; d] [x; y; z] ->
     In (b, c, d) [(x, y, z); (x, z, y); (y, x, z); (y, z, x); (z, x, y); (z, y, x)])
    as H3 by (intros; now apply perm3_inv).
  assert (Permutation [i; j; k; l] [j; i; k; l]) as Q1 by apply perm_swap.
  assert (Permutation [i; j; k; l] [k; i; j; l]) as Q2.
  { rewrite (perm_swap k j). apply perm_swap. }
  assert (Permutation [i; j; k; l] [l; i; j; k]) as Q3
    by (symmetry; change [i; j; k; l] with ([i; j; k] ++ [l]); apply Permutation_cons_append).
  destruct Ha as [<-|[<-|[<-|[<-|[]]]]].
  - apply Permutation_cons_inv, H3 in Hp. cbn in Hp |- *. intuition congruence.
  - rewrite Q1 in Hp. apply Permutation_cons_inv, H3 in Hp. cbn in Hp |- *.
    intuition congruence.
  - rewrite Q2 in Hp. apply Permutation_cons_inv, H3 in Hp. cbn in Hp |- *.
    intuition congruence.
  - rewrite Q3 in Hp. apply Permutation_cons_inv, H3 in Hp. cbn in Hp |- *.
    intuition congruence.
Qed.

(** repeated point updates *)
Lemma upd3_fold_in {A} (v : A) l t a b c :
  In (a, b, c) l ->
  fold_left (fun f '(x, y, z) => upd3 f x y z v) l t a b c = v.
Proof.
  revert t. induction l as [|[[x y] z] l IH]; intros t Hin; [destruct Hin|].
  cbn [fold_left].
  destruct (in_dec (fun p q : nat * nat * nat => ltac:(repeat decide equality)) (a, b, c) l)
    as [Hl|Hl]; [apply IH, Hl|].
  destruct Hin as [He|Hin]; [|contradiction]. injection He as <- <- <-.
  clear IH. revert t.
  assert (forall t, t x y z = v ->
            fold_left (fun f '(x, y, z) => upd3 f x y z v) l t x y z = v) as Hk.
  { clear Hl. induction l as [|[[x' y'] z'] l IH]; intros t Ht; [exact Ht|].
    cbn [fold_left]. apply IH. unfold upd3.
    destruct ((x =? x') && (y =? y') && (z =? z')); [reflexivity|exact Ht]. }
  intros t. apply Hk. unfold upd3. now rewrite !Nat.eqb_refl.
Qed.

Lemma upd3_fold_notin {A} (v : A) l t a b c :
  ~ In (a, b, c) l ->
  fold_left (fun f '(x, y, z) => upd3 f x y z v) l t a b c = t a b c.
Proof.
  revert t. induction l as [|[[x y] z] l IH]; intros t Hin; [reflexivity|].
  cbn [fold_left]. rewrite IH by (intros Hl; apply Hin; now right).
  unfold upd3.
  destruct ((a =? x) && (b =? y) && (c =? z)) eqn:E; [|reflexivity].
  exfalso. apply Hin. left. rewrite !andb_true_iff, !Nat.eqb_eq in E.
  destruct E as [[-> ->] ->]. reflexivity.
Qed.

Lemma upd4_fold_in {A} (v : A) l t a b c d :
  In (a, b, c, d) l ->
  fold_left (fun f '(x, y, z, w) => upd4 f x y z w v) l t a b c d = v.
Proof.
  revert t. induction l as [|[[[x y] z] w] l IH]; intros t Hin; [destruct Hin|].
  cbn [fold_left].
  destruct (in_dec (fun p q : nat * nat * nat * nat => ltac:(repeat decide equality))
              (a, b, c, d) l)
    as [Hl|Hl]; [apply IH, Hl|].
  destruct Hin as [He|Hin]; [|contradiction]. injection He as <- <- <- <-.
  clear IH. revert t.
  assert (forall t, t x y z w = v ->
            fold_left (fun f '(x, y, z, w) => upd4 f x y z w v) l t x y z w = v) as Hk.
  { clear Hl. induction l as [|[[[x' y'] z'] w'] l IH]; intros t Ht; [exact Ht|].
    cbn [fold_left]. apply IH. unfold upd4.
    destruct ((x =? x') && (y =? y') && (z =? z') && (w =? w'));
      [reflexivity|exact Ht]. }
  intros t. apply Hk. unfold upd4. now rewrite !Nat.eqb_refl.
Qed.

Lemma upd4_fold_notin {A} (v : A) l t a b c d :
  ~ In (a, b, c, d) l ->
  fold_left (fun f '(x, y, z, w) => upd4 f x y z w v) l t a b c d = t a b c d.
Proof.
  revert t. induction l as [|[[[x y] z] w] l IH]; intros t Hin; [reflexivity|].
  cbn [fold_left]. rewrite IH by (intros Hl; apply Hin; now right).
  unfold upd4.
  destruct ((a =? x) && (b =? y) && (c =? z) && (d =? w)) eqn:E; [|reflexivity].
  exfalso. apply Hin. left. rewrite !andb_true_iff, !Nat.eqb_eq in E.
  destruct E as [[[-> ->] ->] ->]. reflexivity.
Qed.

Lemma perms3_perm {A} (a b c i j k : A) :
  In (a, b, c) [(i, j, k); (i, k, j); (j, i, k); (j, k, i); (k, i, j); (k, j, i)] ->
  Permutation [a; b; c] [i; j; k].
Proof.
  assert (forall x y z : A, Permutation [x; y; z] [y; x; z]) as S1
    by (intros; apply perm_swap).
  assert (forall x y z : A, Permutation [x; y; z] [x; z; y]) as S2
    by (intros; constructor; apply perm_swap).
  cbn. intros Hin.
  repeat destruct Hin as [He|Hin]; try contradiction;
    injection He as -> -> ->; eauto using Permutation_trans.
Qed.

Section Writes.
  Context {F : Type} `{Num F}.

  Lemma fc3_write_perm t i j k (v : F) a b c :
    Permutation [a; b; c] [i; j; k] -> fc3_write t i j k v a b c = v.
  Proof. intros Hp. apply upd3_fold_in, perm3_inv, Hp. Qed.

  Lemma fc3_write_other t i j k (v : F) a b c :
    ~ Permutation [a; b; c] [i; j; k] -> fc3_write t i j k v a b c = t a b c.
  Proof. intros Hp. apply upd3_fold_notin. intros Hin. apply Hp, perms3_perm, Hin. Qed.

  Lemma perms4_perm (a b c d i j k l : nat) :
    In (a, b, c, d) (perms4 i j k l) -> Permutation [a; b; c; d] [i; j; k; l].
  Proof.
    cbn [perms4 In]. intros Hin.
    repeat destruct Hin as [He|Hin]; try contradiction;
      injection He as <- <- <- <-;
      apply (Permutation_count_occ Nat.eq_dec); intros x; cbn [count_occ];
      repeat destruct Nat.eq_dec; try reflexivity.
  Qed.

  Lemma fc4_write_perm t i j k l (v : F) a b c d :
    Permutation [a; b; c; d] [i; j; k; l] -> fc4_write t i j k l v a b c d = v.
  Proof. intros Hp. apply upd4_fold_in. apply (perm4_inv a b c d i j k l), Hp. Qed.

  Lemma fc4_write_other t i j k l (v : F) a b c d :
    ~ Permutation [a; b; c; d] [i; j; k; l] ->
    fc4_write t i j k l v a b c d = t a b c d.
  Proof.
    intros Hp. apply upd4_fold_notin. intros Hin. apply Hp.
    apply perms4_perm. exact Hin.
  Qed.
End Writes.

(** ** the loops enumerate sorted tuples in index order *)
Lemma flat_map_length_sum {A B} (f : A -> list B) l :
  length (flat_map f l) = list_sum (map (fun x => length (f x)) l).
Proof.
  induction l as [|x l IH]; [reflexivity|]. cbn.
  rewrite app_length, IH. reflexivity.
Qed.

Lemma nth_error_flat_map_seq {B} (f : nat -> list B) n i p :
  i < n -> p < length (f i) ->
  nth_error (flat_map f (seq 0 n))
            (list_sum (map (fun x => length (f x)) (seq 0 i)) + p)
  = nth_error (f i) p.
Proof.
  intros Hi Hp.
  replace n with (i + S (n - S i)) by lia.
  rewrite seq_app, flat_map_app. cbn [seq flat_map plus].
  rewrite nth_error_app2 by (rewrite flat_map_length_sum; lia).
  rewrite flat_map_length_sum.
  replace (_ + p - _) with p by lia.
  rewrite nth_error_app1 by exact Hp. reflexivity.
Qed.

Lemma sum_lengths_t2 n :
  list_sum (map (fun x => x + 1) (seq 0 n)) = t2 n.
Proof.
  induction n as [|n IH]; [reflexivity|].
  rewrite seq_S, map_app, list_sum_app, IH. cbn [map list_sum fold_right t2]. lia.
Qed.
Lemma sum_lengths_t3 n :
  list_sum (map (fun x => t2 (x + 1)) (seq 0 n)) = t3 n.
Proof.
  induction n as [|n IH]; [reflexivity|].
  rewrite seq_S, map_app, list_sum_app, IH.
  cbn [map list_sum fold_right plus]. rewrite Nat.add_1_r. cbn [t3]. lia.
Qed.
Lemma sum_lengths_t4 n :
  list_sum (map (fun x => t3 (x + 1)) (seq 0 n)) = t4 n.
Proof.
  induction n as [|n IH]; [reflexivity|].
  rewrite seq_S, map_app, list_sum_app, IH.
  cbn [map list_sum fold_right plus]. rewrite Nat.add_1_r. cbn [t4]. lia.
Qed.

Lemma list_sum_map_ext (f g : nat -> nat) l :
  (forall x, f x = g x) -> list_sum (map f l) = list_sum (map g l).
Proof. intros He. f_equal. apply map_ext, He. Qed.

Definition pairs_below {B} (g : nat -> nat -> B) (n : nat) : list B :=
  flat_map (fun j => map (g j) (range 0 (j + 1))) (range 0 n).

Lemma pairs_below_length {B} (g : nat -> nat -> B) n :
  length (pairs_below g n) = t2 n.
Proof.
  unfold pairs_below. rewrite range_0, flat_map_length_sum.
  rewrite <- sum_lengths_t2. apply list_sum_map_ext. intros x.
  now rewrite map_length, range_0, seq_length.
Qed.

Lemma pairs_below_nth {B} (g : nat -> nat -> B) n j k :
  k <= j -> j < n -> nth_error (pairs_below g n) (t2 j + k) = Some (g j k).
Proof.
  intros Hk Hj. unfold pairs_below. rewrite range_0.
  rewrite <- sum_lengths_t2.
  rewrite <- (list_sum_map_ext
    (fun x => length (map (g x) (range 0 (x + 1))))) by
    (intros; now rewrite map_length, range_0, seq_length).
  rewrite nth_error_flat_map_seq;
    [|exact Hj|rewrite map_length, range_0, seq_length; lia].
  rewrite range_0. apply map_nth_error.
  rewrite (nth_error_nth' _ 0) by (rewrite seq_length; lia).
  f_equal. apply seq_nth. lia.
Qed.

Lemma tri_inner_eq i :
  flat_map (fun j => map (fun k => (i, j, k)) (range 0 (j + 1))) (range 0 (i + 1))
  = pairs_below (fun j k => (i, j, k)) (i + 1).
Proof. reflexivity. Qed.

Lemma tri_indices_length n : length (tri_indices n) = t3 n.
Proof.
  unfold tri_indices. rewrite range_0, flat_map_length_sum.
  rewrite <- sum_lengths_t3. apply list_sum_map_ext. intros x.
  rewrite tri_inner_eq. apply pairs_below_length.
Qed.

Lemma tri_indices_nth n i j k :
  k <= j -> j <= i -> i < n ->
  nth_error (tri_indices n) (find3 k j i) = Some (i, j, k).
Proof.
  intros Hk Hj Hi. rewrite find3_sorted by lia.
  replace (k + t2 j + t3 i) with (t3 i + (t2 j + k)) by lia.
  unfold tri_indices. rewrite range_0. rewrite <- sum_lengths_t3.
  rewrite <- (list_sum_map_ext (fun x => length
     (flat_map (fun j => map (fun k => (x, j, k)) (range 0 (j + 1))) (range 0 (x + 1))))).
  2:{ intros x. rewrite tri_inner_eq. apply pairs_below_length. }
  rewrite nth_error_flat_map_seq.
  - rewrite tri_inner_eq. apply (pairs_below_nth (fun j k => (i, j, k))); lia.
  - exact Hi.
  - rewrite tri_inner_eq, pairs_below_length.
    pose proof (t2_mono (S j) (i + 1) ltac:(lia)). cbn [t2] in *. lia.
Qed.

Lemma tetra_inner_eq i :
  flat_map (fun j =>
        flat_map (fun k => map (fun l => (i, j, k, l)) (range 0 (k + 1)))
                 (range 0 (j + 1)))
               (range 0 (i + 1))
  = map (fun '(j, k, l) => (i, j, k, l)) (tri_indices (i + 1)).
Proof.
  unfold tri_indices.
  assert (forall {A B C} (f : B -> C) (g : A -> list B) l,
            map f (flat_map g l) = flat_map (fun x => map f (g x)) l) as Hm.
  { intros A B C f g l. induction l as [|x l IH]; [reflexivity|].
    cbn. now rewrite map_app, IH. }
  rewrite Hm. apply flat_map_ext. intros j. rewrite Hm. apply flat_map_ext. intros k.
  rewrite map_map. reflexivity.
Qed.

Lemma tetra_indices_length n : length (tetra_indices n) = t4 n.
Proof.
  unfold tetra_indices. rewrite range_0, flat_map_length_sum.
  rewrite <- sum_lengths_t4. apply list_sum_map_ext. intros x.
  rewrite tetra_inner_eq, map_length. apply tri_indices_length.
Qed.

Lemma tetra_indices_nth n i j k l :
  l <= k -> k <= j -> j <= i -> i < n ->
  nth_error (tetra_indices n) (find4 l k j i) = Some (i, j, k, l).
Proof.
  intros Hl Hk Hj Hi. rewrite find4_sorted by lia.
  rewrite <- find3_sorted by lia.
  rewrite Nat.add_comm.
  unfold tetra_indices. rewrite range_0. rewrite <- sum_lengths_t4.
  rewrite <- (list_sum_map_ext (fun x => length
     (flat_map (fun j =>
        flat_map (fun k => map (fun l => (x, j, k, l)) (range 0 (k + 1)))
                 (range 0 (j + 1)))
               (range 0 (x + 1))))).
  2:{ intros x. rewrite tetra_inner_eq, map_length. apply tri_indices_length. }
  rewrite nth_error_flat_map_seq.
  - rewrite tetra_inner_eq.
    rewrite (map_nth_error _ _ _ (tri_indices_nth (i + 1) j k l Hl Hk ltac:(lia))).
    reflexivity.
  - exact Hi.
  - rewrite tetra_inner_eq, map_length, tri_indices_length.
    apply find3_lt_sorted; lia.
Qed.

(** every listed tuple is sorted and below the bound *)
Lemma tri_indices_in n i j k :
  In (i, j, k) (tri_indices n) <-> k <= j /\ j <= i /\ i < n.
Proof.
  unfold tri_indices. rewrite in_flat_map. split.
  - intros (i' & Hi & Hin). apply in_flat_map in Hin as (j' & Hj & Hin).
    apply in_map_iff in Hin as (k' & He & Hk). injection He as -> -> ->.
    rewrite in_range in *. lia.
  - intros (Hk & Hj & Hi). exists i. split; [rewrite in_range; lia|].
    apply in_flat_map. exists j. split; [rewrite in_range; lia|].
    apply in_map_iff. exists k. split; [reflexivity|rewrite in_range; lia].
Qed.

Lemma tetra_indices_in n i j k l :
  In (i, j, k, l) (tetra_indices n) <-> l <= k /\ k <= j /\ j <= i /\ i < n.
Proof.
  unfold tetra_indices. rewrite in_flat_map. split.
  - intros (i' & Hi & Hin). rewrite tetra_inner_eq in Hin.
    apply in_map_iff in Hin as ([[j' k'] l'] & He & Hin). injection He as -> -> -> ->.
    apply tri_indices_in in Hin. rewrite in_range in Hi. lia.
  - intros (Hl & Hk & Hj & Hi). exists i. split; [rewrite in_range; lia|].
    rewrite tetra_inner_eq. apply in_map_iff. exists (j, k, l).
    split; [reflexivity|]. apply tri_indices_in. lia.
Qed.

(** ** the filling loop *)
Section Fill.
  Context {I T V : Type} (write : T -> I -> V -> T) (f : list V).

  (** an invariant indexed by the number of iterations done *)
  Lemma ofold_counter (P : nat -> T -> Prop) (L : list I) t0 :
    P 0 t0 ->
    length L <= length f ->
    (forall c t i v, nth_error L c = Some i -> nth_error f c = Some v ->
                     P c t -> P (S c) (write t i v)) ->
    exists t, ofold (fun '(t, c) i => obind (nth_error f c)
                       (fun v => Some (write t i v, c + 1))) L (t0, 0)
              = Some (t, length L) /\ P (length L) t.
  Proof.
    intros H0 Hlen Hstep.
    assert (forall rest done t, L = done ++ rest -> P (length done) t ->
      exists t', ofold (fun '(t, c) i => obind (nth_error f c)
                       (fun v => Some (write t i v, c + 1))) rest (t, length done)
              = Some (t', length L) /\ P (length L) t') as Hgen.
    { induction rest as [|i rest IH]; intros done t HL HP.
      - exists t. rewrite app_nil_r in HL. subst L. split; [reflexivity|exact HP].
      - cbn [ofold].
        assert (length done < length f) as Hlt
          by (rewrite HL, app_length in Hlen; cbn in Hlen; lia).
        apply nth_error_Some in Hlt.
        destruct (nth_error f (length done)) as [v|] eqn:Ev; [|congruence].
        cbn [obind].
        assert (nth_error L (length done) = Some i) as Ei
          by (rewrite HL, nth_error_app2, Nat.sub_diag by lia; reflexivity).
        pose proof (Hstep _ _ _ _ Ei Ev HP) as HP'.
        destruct (IH (done ++ [i]) (write t i v)) as (t' & Ht' & HPt').
        + now rewrite <- app_assoc.
        + rewrite app_length, Nat.add_1_r. exact HP'.
        + exists t'. rewrite app_length in Ht'. cbn [length] in Ht'.
          split; [exact Ht'|exact HPt']. }
    exact (Hgen L [] t0 eq_refl H0).
  Qed.
End Fill.

Lemma nth_error_in_bounds {A} (l : list A) n x : nth_error l n = Some x -> n < length l.
Proof. intros H. apply nth_error_Some. congruence. Qed.

Section LoadProofs.
  Context {F : Type} `{Num F}.

  Lemma trim_header_spec want (l : list F) :
    (length l = want -> trim_header want l = Some l) /\
    (length l = want + 2 -> trim_header want l = Some (skipn 2 l)) /\
    (length l <> want -> length l <> want + 2 -> trim_header want l = None).
  Proof.
    unfold trim_header. repeat split; intros.
    - now rewrite (proj2 (Nat.eqb_eq _ _) H0).
    - destruct (length l =? want) eqn:E1; [lia|].
      destruct ((2 <=? length l) && (length l - 2 =? want)) eqn:E2; [reflexivity|lia].
    - destruct (length l =? want) eqn:E1; [lia|].
      destruct ((2 <=? length l) && (length l - 2 =? want)) eqn:E2; [lia|reflexivity].
  Qed.

  Lemma nth_tri_find3 n p i j k :
    nth_error (tri_indices n) p = Some (i, j, k) ->
    p = find3 k j i /\ k <= j /\ j <= i /\ i < n.
  Proof.
    intros Hp.
    assert (p < t3 n) as Hlt
      by (rewrite <- tri_indices_length; eapply nth_error_in_bounds, Hp).
    destruct (find3_surj n p Hlt) as (a & b & c & Hab & Hbc & Hc & He).
    pose proof (tri_indices_nth n c b a Hab Hbc Hc) as Hn.
    rewrite He, Hp in Hn. injection Hn as -> -> ->. auto.
  Qed.

  Lemma nth_tetra_find4 n p i j k l :
    nth_error (tetra_indices n) p = Some (i, j, k, l) ->
    p = find4 l k j i /\ l <= k /\ k <= j /\ j <= i /\ i < n.
  Proof.
    intros Hp.
    assert (p < t4 n) as Hlt
      by (rewrite <- tetra_indices_length; eapply nth_error_in_bounds, Hp).
    destruct (find4_surj n p Hlt) as (a & b & c & d & Hab & Hbc & Hcd & Hd & He).
    pose proof (tetra_indices_nth n d c b a Hab Hbc Hcd Hd) as Hn.
    rewrite He, Hp in Hn. injection Hn as -> -> -> ->. auto 6.
  Qed.

  Lemma fill3 n (f : list F) :
    length f = t3 n ->
    exists t, ofold (fun '(t, labc) '(i, j, k) =>
                       let* v := nth_error f labc in
                       Some (fc3_write t i j k v, labc + 1))
                    (tri_indices n) (fun _ _ _ => nz 0, 0) = Some (t, t3 n) /\
              forall a b c, a < n -> b < n -> c < n ->
                nth_error f (find3 a b c) = Some (t a b c).
  Proof.
    intros Hlen.
    destruct (ofold_counter
      (fun t '(i, j, k) v => fc3_write t i j k v) f
      (fun cnt t => forall a b c, a < n -> b < n -> c < n -> find3 a b c < cnt ->
          nth_error f (find3 a b c) = Some (t a b c))
      (tri_indices n) (fun _ _ _ => nz 0)) as (t & Ht & HP).
    - intros. lia.
    - rewrite tri_indices_length. lia.
    - intros cnt t [[i j] k] v Hi Hv HP a b c Ha Hb Hc Hlt.
      apply nth_tri_find3 in Hi as (-> & Hkj & Hji & Hin).
      destruct (Nat.eq_dec (find3 a b c) (find3 k j i)) as [He|Hne].
      + rewrite fc3_write_perm; [now rewrite He|].
        apply find3_inj in He. rewrite He.
        apply perms3_perm. cbn. tauto.
      + rewrite fc3_write_other; [apply HP; auto; lia|].
        intros Hp. apply Hne. apply find3_perm. rewrite Hp.
        apply perms3_perm. cbn. tauto.
    - rewrite tri_indices_length in *. exists t. split.
      + rewrite <- Ht. clear.
        assert (forall l s, ofold (fun '(t0, labc) '(i, j, k) =>
             let* v := nth_error f labc in Some (fc3_write t0 i j k v, labc + 1)) l s =
           ofold (fun '(t0, c) (i : nat * nat * nat) =>
             let* v := nth_error f c in
             Some ((fun t '(i, j, k) v => fc3_write t i j k v) t0 i v, c + 1))
             l s) as He.
        { induction l as [|[[i j] k] l IH]; intros [t0 c]; [reflexivity|].
          cbn [ofold]. destruct (nth_error f c); cbn [obind]; [apply IH|reflexivity]. }
        apply He.
      + intros a b c Ha Hb Hc. apply HP; auto. apply find3_bound. auto.
  Qed.

  Lemma perm_rev4 (a b c d : nat) : Permutation [a; b; c; d] [d; c; b; a].
  Proof. exact (Permutation_rev [a; b; c; d]). Qed.

  Lemma fill4 n (f : list F) :
    length f = t4 n ->
    exists t, ofold (fun '(t, mabc) '(i, j, k, l) =>
                       let* v := nth_error f mabc in
                       Some (fc4_write t i j k l v, mabc + 1))
                    (tetra_indices n) (fun _ _ _ _ => nz 0, 0) = Some (t, t4 n) /\
              forall a b c d, a < n -> b < n -> c < n -> d < n ->
                nth_error f (find4 a b c d) = Some (t a b c d).
  Proof.
    intros Hlen.
    destruct (ofold_counter
      (fun t '(i, j, k, l) v => fc4_write t i j k l v) f
      (fun cnt t => forall a b c d, a < n -> b < n -> c < n -> d < n ->
          find4 a b c d < cnt ->
          nth_error f (find4 a b c d) = Some (t a b c d))
      (tetra_indices n) (fun _ _ _ _ => nz 0)) as (t & Ht & HP).
    - intros. lia.
    - rewrite tetra_indices_length. lia.
    - intros cnt t [[[i j] k] l] v Hi Hv HP a b c d Ha Hb Hc Hd Hlt.
      apply nth_tetra_find4 in Hi as (-> & Hlk & Hkj & Hji & Hin).
      destruct (Nat.eq_dec (find4 a b c d) (find4 l k j i)) as [He|Hne].
      + rewrite fc4_write_perm; [now rewrite He|].
        apply find4_inj in He. rewrite He. apply perm_rev4.
      + rewrite fc4_write_other; [apply HP; auto; lia|].
        intros Hp. apply Hne. apply find4_perm. rewrite Hp. apply perm_rev4.
    - rewrite tetra_indices_length in *. exists t. split.
      + rewrite <- Ht. clear.
        assert (forall l s, ofold (fun '(t0, mabc) '(i, j, k, l) =>
             let* v := nth_error f mabc in Some (fc4_write t0 i j k l v, mabc + 1)) l s =
           ofold (fun '(t0, c) (i : nat * nat * nat * nat) =>
             let* v := nth_error f c in
             Some ((fun t '(i, j, k, l) v => fc4_write t i j k l v) t0 i v, c + 1)) l s) as He.
        { induction l as [|[[[i j] k] l'] l IH]; intros [t0 c]; [reflexivity|].
          cbn [ofold]. destruct (nth_error f c); cbn [obind]; [apply IH|reflexivity]. }
        apply He.
      + intros a b c d Ha Hb Hc Hd. apply HP; auto. apply find4_bound. auto.
  Qed.

  (** the data part of a list: the list itself or the list without its header *)
  Lemma new_fc3_ok n (l data : list F) :
    trim_header (n * (n + 1) * (n + 2) / 6) l = Some data ->
    length data = t3 n ->
    exists t, new_fc3 n l = Some t /\
      forall a b c, a < n -> b < n -> c < n ->
        nth_error data (find3 a b c) = Some (t a b c).
  Proof.
    intros Ht Hl. unfold new_fc3. rewrite Ht. cbn [obind].
    destruct (fill3 n data Hl) as (t & Hf & Hs).
    rewrite Hf. cbn [obind fst]. exists t. split; [reflexivity|exact Hs].
  Qed.

  Lemma new_fc4_ok n (l data : list F) :
    trim_header (n * (n + 1) * (n + 2) * (n + 3) / 24) l = Some data ->
    length data = t4 n ->
    exists t, new_fc4 n l = Some t /\
      forall a b c d, a < n -> b < n -> c < n -> d < n ->
        nth_error data (find4 a b c d) = Some (t a b c d).
  Proof.
    intros Ht Hl. unfold new_fc4. rewrite Ht. cbn [obind].
    destruct (fill4 n data Hl) as (t & Hf & Hs).
    rewrite Hf. cbn [obind fst]. exists t. split; [reflexivity|exact Hs].
  Qed.

  Definition position3 (i j k : nat) : nat := k + j * (j + 1) / 2 + i * (i + 1) * (i + 2) / 6.

  Lemma new_fc3_main n (l : list F) :
    let want := n * (n + 1) * (n + 2) / 6 in
    (forall h data, l = h ++ data -> (h = [] \/ length h = 2) -> length data = want ->
       exists t, new_fc3 n l = Some t /\
         forall i j k, k <= j -> j <= i -> i < n ->
         forall a b c, Permutation [a; b; c] [i; j; k] ->
           nth_error data (k + j * (j + 1) / 2 + i * (i + 1) * (i + 2) / 6)
           = Some (t a b c)) /\
    (length l <> want -> length l <> want + 2 -> new_fc3 n l = None).
  Proof.
    intros want. destruct (trim_header_spec want l) as (Ta & Tb & Tc). split.
    - intros h data Hl Hh Hd.
      assert (trim_header want l = Some data) as Ht.
      { destruct Hh as [->|Hh].
        - cbn in Hl. subst data. apply Ta. exact Hd.
        - rewrite Tb by (rewrite Hl, app_length; lia).
          rewrite Hl. destruct h as [|x [|y [|z h]]]; try discriminate. reflexivity. }
      destruct (new_fc3_ok n l data) as (t & Hn & Hs); auto.
      { rewrite Hd. apply t3_div. }
      exists t. split; [exact Hn|].
      intros i j k Hk Hj Hi a b c Hp.
      assert (forall x, In x [a; b; c] -> x < n) as Hlt.
      { eapply perm_forall_lt; [symmetry; exact Hp|].
        cbn; intros x [<-|[<-|[<-|[]]]]; lia. }
      rewrite <- Hs by (apply Hlt; cbn; auto). f_equal.
      rewrite t2_div, t3_div, <- find3_sorted by lia.
      apply find3_perm. rewrite Hp. apply (Permutation_rev [k; j; i]).
    - intros H1 H2. unfold new_fc3. fold want. rewrite Tc by assumption. reflexivity.
  Qed.

  Lemma new_fc4_main n (l : list F) :
    let want := n * (n + 1) * (n + 2) * (n + 3) / 24 in
    (forall h data, l = h ++ data -> (h = [] \/ length h = 2) -> length data = want ->
       exists t, new_fc4 n l = Some t /\
         forall i j k m, m <= k -> k <= j -> j <= i -> i < n ->
         forall a b c d, Permutation [a; b; c; d] [i; j; k; m] ->
           nth_error data (m + k * (k + 1) / 2 + j * (j + 1) * (j + 2) / 6
                             + i * (i + 1) * (i + 2) * (i + 3) / 24)
           = Some (t a b c d)) /\
    (length l <> want -> length l <> want + 2 -> new_fc4 n l = None).
  Proof.
    intros want. destruct (trim_header_spec want l) as (Ta & Tb & Tc). split.
    - intros h data Hl Hh Hd.
      assert (trim_header want l = Some data) as Ht.
      { destruct Hh as [->|Hh].
        - cbn in Hl. subst data. apply Ta. exact Hd.
        - rewrite Tb by (rewrite Hl, app_length; lia).
          rewrite Hl. destruct h as [|x [|y [|z h]]]; try discriminate. reflexivity. }
      destruct (new_fc4_ok n l data) as (t & Hn & Hs); auto.
      { rewrite Hd. apply t4_div. }
      exists t. split; [exact Hn|].
      intros i j k m Hm Hk Hj Hi a b c d Hp.
      assert (forall x, In x [a; b; c; d] -> x < n) as Hlt.
      { eapply perm_forall_lt; [symmetry; exact Hp|].
        cbn; intros x [<-|[<-|[<-|[<-|[]]]]]; lia. }
      rewrite <- Hs by (apply Hlt; cbn; auto). f_equal.
      rewrite t2_div, t3_div, t4_div, <- find4_sorted by lia.
      apply find4_perm. rewrite Hp. apply perm_rev4.
    - intros H1 H2. unfold new_fc4. fold want. rewrite Tc by assumption. reflexivity.
  Qed.

  (** ** load_fc2 *)
  Lemma load_fc2_plain n (data : list F) :
    length data = n * n -> load_fc2 n data = Some (mat_from_iterator n n data).
  Proof. intros Hl. unfold load_fc2. now rewrite (proj2 (Nat.eqb_eq _ _) Hl). Qed.

  Lemma load_fc2_header n (h data : list F) :
    length h = 2 -> length data = n * n ->
    load_fc2 n (h ++ data) = Some (mat_from_row_slice n n data).
  Proof.
    intros Hh Hl. unfold load_fc2. rewrite app_length, Hh, Hl.
    destruct (2 + n * n =? n * n) eqn:E1; [lia|].
    destruct ((2 <=? 2 + n * n) && (2 + n * n - 2 =? n * n)) eqn:E2; [|lia].
    destruct h as [|x [|y [|z h]]]; try discriminate. reflexivity.
  Qed.

  Lemma load_fc2_reject n (data : list F) :
    length data <> n * n -> length data <> n * n + 2 -> load_fc2 n data = None.
  Proof.
    intros H1 H2. unfold load_fc2.
    destruct (length data =? n * n) eqn:E1; [lia|].
    destruct ((2 <=? length data) && (length data - 2 =? n * n)) eqn:E2; [lia|reflexivity].
  Qed.

  Lemma mat_transpose n (data : list F) i j :
    mat_from_row_slice n n data i j = mat_from_iterator n n data j i.
  Proof.
    unfold mat_from_row_slice, mat_from_iterator.
    rewrite (andb_comm (j <? n)). reflexivity.
  Qed.
End LoadProofs.

(** ** chunks *)
Lemma skipn_skipn {A} a b (l : list A) : skipn a (skipn b l) = skipn (b + a) l.
Proof.
  revert l. induction b as [|b IH]; intros l; [reflexivity|].
  destruct l as [|x l]; [cbn; now rewrite skipn_nil|]. cbn. apply IH.
Qed.

Lemma chunks_nth {A} n (Hn : n <> 0) fuel (l : list A) p :
  length l <= fuel -> p * n < length l ->
  nth_error (chunks fuel n l) p = Some (firstn n (skipn (p * n) l)).
Proof.
  revert l p. induction fuel as [|fuel IH]; intros l p Hf Hp; [lia|].
  destruct l as [|x l]; [cbn in Hp; lia|].
  cbn [chunks]. destruct p as [|p]; [reflexivity|].
  cbn [nth_error]. rewrite IH.
  - f_equal. f_equal. cbn [Nat.mul]. now rewrite skipn_skipn.
  - rewrite skipn_length. cbn [length] in *. lia.
  - rewrite skipn_length. cbn [length Nat.mul] in *. lia.
Qed.

Lemma chunks_length {A} n (Hn : n <> 0) fuel (l : list A) q :
  length l <= fuel -> length l = q * n -> length (chunks fuel n l) = q.
Proof.
  revert l q. induction fuel as [|fuel IH]; intros l q Hf Hq.
  - destruct l; [|cbn in Hf; lia]. cbn in *. nia.
  - destruct l as [|x l]; [cbn in *; nia|].
    destruct q as [|q]; [cbn in Hq; lia|].
    cbn [chunks length]. f_equal. apply IH; rewrite skipn_length; cbn [length Nat.mul] in *; lia.
Qed.

Lemma nth_error_firstn_skipn {A} (l : list A) s n i :
  i < n -> nth_error (firstn n (skipn s l)) i = nth_error l (s + i).
Proof.
  intros Hi. revert s l. induction s as [|s IH]; intros l.
  - cbn [skipn plus]. revert n i Hi. induction l as [|x l IHl]; intros n i Hi.
    + rewrite firstn_nil. now destruct i.
    + destruct n as [|n]; [lia|]. destruct i as [|i]; [reflexivity|].
      cbn. apply IHl. lia.
  - destruct l as [|x l].
    + rewrite skipn_nil, firstn_nil. now destruct i.
    + cbn [skipn plus nth_error]. apply IH.
Qed.

Lemma to_vec_spec {A} (r c : nat) (st : list A) :
  length st = r * c ->
  (r = c -> r <> 0 ->
   exists v, to_vec r c st = Some v /\ length v = c /\
     forall i j, i < r -> j < c ->
       exists col, nth_error v j = Some col /\ length col = r /\
                   nth_error col i = nth_error st (j * r + i)) /\
  (r <> c -> to_vec r c st = None) /\
  (r = 0 -> to_vec r c st = None).
Proof.
  intros Hl. unfold to_vec. repeat split.
  - intros <- Hr. rewrite Nat.eqb_refl. cbn [negb].
    destruct (r =? 0) eqn:E; [lia|].
    eexists. split; [reflexivity|]. split.
    + apply chunks_length; [exact Hr|lia|lia].
    + intros i j Hi Hj. eexists. split.
      * apply chunks_nth; [exact Hr|lia|nia].
      * split.
        -- rewrite firstn_length, skipn_length. nia.
        -- apply nth_error_firstn_skipn, Hi.
  - intros Hne. destruct (r =? c) eqn:E; [lia|reflexivity].
  - intros ->. destruct (negb (0 =? c)); reflexivity.
Qed.

Lemma ioff_u64_ok n :
  (0 < n -> n <= 4294967296 -> exists p, ioff_u64 n = Some p /\ N.to_nat p = ioff (N.to_nat n))%N.
Proof.
  intros H0 Hn. unfold ioff_u64, usub, umul, udiv.
  destruct (N.leb_spec 1 n); [|lia]. cbn [obind].
  destruct (N.leb_spec ((n - 1) * n) u64_max) as [_|Hb].
  2:{ exfalso. unfold u64_max in Hb. nia. }
  cbn [obind N.eqb]. eexists. split; [reflexivity|].
  rewrite N2Nat.inj_div, N2Nat.inj_mul, N2Nat.inj_sub. reflexivity.
Qed.

Lemma mult_stars2 n : n * (n + 1) / 2 * 2 = n * (n + 1).
Proof. rewrite t2_div. pose proof (t2_closed n). lia. Qed.

(** ** counting sorted tuples *)
Lemma tri_indices_nodup n : NoDup (tri_indices n).
Proof.
  apply NoDup_nth_error. intros p q Hp He.
  destruct (nth_error (tri_indices n) p) as [[[i j] k]|] eqn:E1;
    [|apply nth_error_None in E1; lia].
  symmetry in He. apply nth_tri_find3 in E1 as (-> & _).
  apply nth_tri_find3 in He as (-> & _). reflexivity.
Qed.
Lemma tetra_indices_nodup n : NoDup (tetra_indices n).
Proof.
  apply NoDup_nth_error. intros p q Hp He.
  destruct (nth_error (tetra_indices n) p) as [[[[i j] k] l]|] eqn:E1;
    [|apply nth_error_None in E1; lia].
  symmetry in He. apply nth_tetra_find4 in E1 as (-> & _).
  apply nth_tetra_find4 in He as (-> & _). reflexivity.
Qed.

Lemma nodup_same_length {A} (l l' : list A) :
  NoDup l -> NoDup l' -> (forall x, In x l <-> In x l') -> length l = length l'.
Proof. intros H1 H2 He. apply Permutation_length, NoDup_Permutation; auto. Qed.

Lemma pairs_below_in n i j :
  In (i, j) (pairs_below (fun j k => (j, k)) n) <-> j <= i /\ i < n.
Proof.
  unfold pairs_below. rewrite in_flat_map. split.
  - intros (x & Hx & Hin). apply in_map_iff in Hin as (y & He & Hy).
    injection He as -> ->. rewrite in_range in *. lia.
  - intros [H1 H2]. exists i. split; [rewrite in_range; lia|].
    apply in_map_iff. exists j. split; [reflexivity|rewrite in_range; lia].
Qed.

Lemma pairs_below_nodup n : NoDup (pairs_below (fun j k => (j, k)) n).
Proof.
  apply NoDup_nth_error. intros p q Hp He. rewrite pairs_below_length in Hp.
  assert (q < t2 n) as Hq.
  { rewrite <- (pairs_below_length (fun j k : nat => (j, k))).
    apply nth_error_Some. rewrite <- He. apply nth_error_Some.
    now rewrite pairs_below_length. }
  destruct (t2_surj n p Hp) as (i & j & H1 & H2 & ->).
  destruct (t2_surj n q Hq) as (i' & j' & H1' & H2' & ->).
  rewrite (Nat.add_comm i), (Nat.add_comm i') in He.
  rewrite !pairs_below_nth in He by assumption. injection He as -> ->. reflexivity.
Qed.

Lemma count_pairs n L :
  NoDup L -> (forall i j, In (i, j) L <-> j <= i /\ i < n) -> length L = ioff (n + 1).
Proof.
  intros Hd Hin. rewrite ioff_succ, <- (pairs_below_length (fun j k : nat => (j, k)) n).
  apply nodup_same_length; [exact Hd|apply pairs_below_nodup|].
  intros [i j]. now rewrite pairs_below_in.
Qed.
Lemma count_triples n L :
  NoDup L -> (forall i j k, In (i, j, k) L <-> k <= j /\ j <= i /\ i < n) ->
  length L = n * (n + 1) * (n + 2) / 6.
Proof.
  intros Hd Hin. rewrite t3_div, <- tri_indices_length.
  apply nodup_same_length; [exact Hd|apply tri_indices_nodup|].
  intros [[i j] k]. now rewrite tri_indices_in.
Qed.
Lemma count_quadruples n L :
  NoDup L -> (forall i j k l, In (i, j, k, l) L <-> l <= k /\ k <= j /\ j <= i /\ i < n) ->
  length L = n * (n + 1) * (n + 2) * (n + 3) / 24.
Proof.
  intros Hd Hin. rewrite t4_div, <- tetra_indices_length.
  apply nodup_same_length; [exact Hd|apply tetra_indices_nodup|].
  intros [[[i j] k] l]. now rewrite tetra_indices_in.
Qed.

(** ** statements assembled for the property files *)
Lemma find3_reads {F} n (v : list F) :
  length v = n * (n + 1) * (n + 2) / 6 ->
  (forall i j k i' j' k', Permutation [i; j; k] [i'; j'; k'] ->
     f3qcm_get v i j k = f3qcm_get v i' j' k') /\
  (forall i j k, i < n -> j < n -> k < n -> f3qcm_get v i j k <> None) /\
  (forall i j k, n <= i \/ n <= j \/ n <= k -> f3qcm_get v i j k = None).
Proof.
  rewrite t3_div. intros Hl. unfold f3qcm_get. repeat split.
  - intros. f_equal. now apply find3_perm.
  - intros. apply nth_error_Some. rewrite Hl. now apply find3_bound.
  - intros i j k Hor. apply nth_error_None. rewrite Hl.
    destruct (Nat.lt_ge_cases (find3 i j k) (t3 n)) as [Hlt|Hge]; [|exact Hge].
    apply find3_bound in Hlt. lia.
Qed.

Lemma find3_bijection_lemma n :
  (forall i j k, i < n -> j < n -> k < n -> find3 i j k < n * (n + 1) * (n + 2) / 6) /\
  (forall i j k i' j' k', find3 i j k = find3 i' j' k' ->
                          Permutation [i; j; k] [i'; j'; k']) /\
  (forall p, p < n * (n + 1) * (n + 2) / 6 ->
     exists i j k, i < n /\ j < n /\ k < n /\ find3 i j k = p).
Proof.
  rewrite t3_div. repeat split.
  - intros. now apply find3_bound.
  - intros. now apply find3_inj.
  - intros p Hp. destruct (find3_surj n p Hp) as (i & j & k & H1 & H2 & H3 & H4).
    exists i, j, k. repeat split; auto; lia.
Qed.

Lemma set_nth_some {A} (l : list A) i x :
  i < length l -> exists l', set_nth l i x = Some l' /\ length l' = length l /\
    nth_error l' i = Some x /\ (forall j, j <> i -> nth_error l' j = nth_error l j).
Proof.
  revert i. induction l as [|y l IH]; intros i Hi; [cbn in Hi; lia|].
  destruct i as [|i].
  - exists (x :: l). repeat split; auto. intros [|j] Hj; [lia|reflexivity].
  - cbn in Hi. destruct (IH i ltac:(lia)) as (l' & H1 & H2 & H3 & H4).
    exists (y :: l'). cbn [set_nth]. rewrite H1. repeat split; auto.
    + cbn. now rewrite H2.
    + intros [|j] Hj; [reflexivity|]. cbn. apply H4. lia.
Qed.
Lemma set_nth_none {A} (l : list A) i x : length l <= i -> set_nth l i x = None.
Proof.
  revert i. induction l as [|y l IH]; intros i Hi; [reflexivity|].
  destruct i as [|i]; [cbn in Hi; lia|]. cbn [set_nth]. rewrite IH by (cbn in Hi; lia).
  reflexivity.
Qed.

Lemma find4_reads {F} n (v : list F) :
  length v = n * (n + 1) * (n + 2) * (n + 3) / 24 ->
  (forall i j k l i' j' k' l', Permutation [i; j; k; l] [i'; j'; k'; l'] ->
     f4qcm_get v i j k l = f4qcm_get v i' j' k' l' /\
     forall x, f4qcm_set v i j k l x = f4qcm_set v i' j' k' l' x) /\
  (forall i j k l x, i < n -> j < n -> k < n -> l < n ->
     f4qcm_get v i j k l <> None /\
     exists v', f4qcm_set v i j k l x = Some v' /\ length v' = length v /\
       (forall a b c d,
          (Permutation [a; b; c; d] [i; j; k; l] -> f4qcm_get v' a b c d = Some x) /\
          (~ Permutation [a; b; c; d] [i; j; k; l] ->
           f4qcm_get v' a b c d = f4qcm_get v a b c d))) /\
  (forall i j k l x, n <= i \/ n <= j \/ n <= k \/ n <= l ->
     f4qcm_get v i j k l = None /\ f4qcm_set v i j k l x = None).
Proof.
  rewrite t4_div. intros Hl. unfold f4qcm_get, f4qcm_set. split; [|split].
  - intros i j k l i' j' k' l' Hp. rewrite (find4_perm _ _ _ _ _ _ _ _ Hp). auto.
  - intros i j k l x Hi Hj Hk Hll.
    assert (find4 i j k l < length v) as Hb by (rewrite Hl; now apply find4_bound).
    split; [now apply nth_error_Some|].
    destruct (set_nth_some v (find4 i j k l) x Hb) as (v' & H1 & H2 & H3 & H4).
    exists v'. split; [exact H1|]. split; [exact H2|]. intros a b c d. split.
    + intros Hp. rewrite (find4_perm _ _ _ _ _ _ _ _ Hp). exact H3.
    + intros Hp. apply H4. intros He. apply Hp, find4_inj, He.
  - intros i j k l x Hor.
    assert (length v <= find4 i j k l) as Hb.
    { rewrite Hl. destruct (Nat.lt_ge_cases (find4 i j k l) (t4 n)) as [Hlt|Hge];
        [|exact Hge]. apply find4_bound in Hlt. lia. }
    split; [now apply nth_error_None|now apply set_nth_none].
Qed.

Lemma find4_bijection_lemma n :
  (forall i j k l, i < n -> j < n -> k < n -> l < n ->
     find4 i j k l < n * (n + 1) * (n + 2) * (n + 3) / 24) /\
  (forall i j k l i' j' k' l', find4 i j k l = find4 i' j' k' l' ->
     Permutation [i; j; k; l] [i'; j'; k'; l']) /\
  (forall p, p < n * (n + 1) * (n + 2) * (n + 3) / 24 ->
     exists i j k l, i < n /\ j < n /\ k < n /\ l < n /\ find4 i j k l = p).
Proof.
  rewrite t4_div. repeat split.
  - intros. now apply find4_bound.
  - intros. now apply find4_inj.
  - intros p Hp. destruct (find4_surj n p Hp) as (i & j & k & l & H1 & H2 & H3 & H4 & H5).
    exists i, j, k, l. repeat split; auto; lia.
Qed.

Lemma index_u64_lemma :
  (forall i j k, i < 2097151 -> j < 2097151 -> k < 2097151 ->
     exists p, find3_u64 i j k = Some p /\
               N.to_nat p = find3 (N.to_nat i) (N.to_nat j) (N.to_nat k))%N /\
  (forall i j k l, i < 65535 -> j < 65535 -> k < 65535 -> l < 65535 ->
     exists p, find4_u64 i j k l = Some p /\
               N.to_nat p = find4 (N.to_nat i) (N.to_nat j) (N.to_nat k) (N.to_nat l))%N /\
  (forall n, 0 < n -> n <= 4294967296 ->
     exists p, ioff_u64 n = Some p /\ N.to_nat p = ioff (N.to_nat n))%N.
Proof.
  split; [intros; now apply find3_u64_ok|].
  split; [intros; now apply find4_u64_ok|intros; now apply ioff_u64_ok].
Qed.

Lemma find4_u64_overflow i : (65535 <= i -> i < 4294967295 -> find4_u64 i i i i = None)%N.
Proof.
  intros Hi Hi2. unfold find4_u64.
  rewrite uadd_some by (unfold u64_max; lia). cbn [obind].
  assert (sort_indicesN [i + 1; i + 1; i + 1; i + 1] = [i + 1; i + 1; i + 1; i + 1])%N as ->.
  { unfold sort_indicesN. cbn [fold_right insert_sortedN].
    rewrite N.leb_refl. cbn [insert_sortedN]. rewrite N.leb_refl.
    cbn [insert_sortedN]. now rewrite N.leb_refl. }
  replace (usub (i + 1) 1)%N with (Some i) by (rewrite usub_some by lia; f_equal; lia).
  cbn [obind]. rewrite umul_some by (unfold u64_max; nia). cbn [obind].
  rewrite udiv_some by lia. cbn [obind].
  match goal with |- obind ?o _ = None => destruct o; [|reflexivity] end. cbn [obind].
  destruct (uadd (i + 1) 1) as [c3|] eqn:E3; [|reflexivity]. cbn [obind].
  destruct (umul (i * (i + 1)) c3) as [c4|] eqn:E4; [|reflexivity]. cbn [obind].
  rewrite udiv_some by lia. cbn [obind].
  match goal with |- obind ?o _ = None => destruct o; [|reflexivity] end. cbn [obind].
  destruct (uadd (i + 1) 2) as [d5|] eqn:E5; [|reflexivity]. cbn [obind].
  assert (umul c4 d5 = None) as ->; [|reflexivity].
  unfold umul, uadd in *.
  destruct (N.leb _ _) in E3; [|discriminate]. injection E3 as <-.
  destruct (N.leb _ _) in E4; [|discriminate]. injection E4 as <-.
  destruct (N.leb _ _) in E5; [|discriminate]. injection E5 as <-.
  destruct (N.leb_spec (i * (i + 1) * (i + 1 + 1) * (i + 1 + 2)) u64_max) as [Hle|]; [|reflexivity].
  exfalso. unfold u64_max in Hle.
  assert (65535 * 65536 <= i * (i + 1))%N as A by nia.
  assert (65537 * 65538 <= (i + 1 + 1) * (i + 1 + 2))%N as B by nia.
  rewrite <- N.mul_assoc in Hle.
  assert (65535 * 65536 * (65537 * 65538) <= i * (i + 1) * ((i + 1 + 1) * (i + 1 + 2)))%N
    by (apply N.mul_le_mono; assumption).
  lia.
Qed.

Lemma load_fc2_header_lemma {F} n (h data : list F) :
  length h = 2 -> length data = n * n ->
  exists m m', load_fc2 n data = Some m /\ load_fc2 n (h ++ data) = Some m' /\
    (forall i j, i < n -> j < n -> m i j = nth_error data (j * n + i)) /\
    (forall i j, m' i j = m j i) /\
    ((forall i j, m' i j = m i j) <->
     (forall i j, i < n -> j < n ->
        nth_error data (i * n + j) = nth_error data (j * n + i))).
Proof.
  intros Hh Hd. exists (mat_from_iterator n n data), (mat_from_row_slice n n data).
  split; [now apply load_fc2_plain|]. split; [now apply load_fc2_header|].
  assert (forall i j, i < n -> j < n ->
            mat_from_iterator n n data i j = nth_error data (j * n + i)) as Hm.
  { intros i j Hi Hj. unfold mat_from_iterator.
    destruct ((i <? n) && (j <? n)) eqn:E; [reflexivity|lia]. }
  split; [exact Hm|]. split; [intros; apply mat_transpose|]. split.
  - intros He i j Hi Hj. rewrite <- !Hm by assumption.
    rewrite <- mat_transpose. apply He.
  - intros Hs i j. rewrite mat_transpose. unfold mat_from_iterator.
    rewrite (andb_comm (j <? n)).
    destruct ((i <? n) && (j <? n)) eqn:E; [|reflexivity]. apply Hs; lia.
Qed.

Lemma make_sizes_lemma natoms linear :
  (natoms < 2 -> make_sizes natoms linear = None) /\
  (2 <= natoms ->
   exists s, make_sizes natoms linear = Some s /\
     sz_n3n s = 3 * natoms /\
     sz_nvib s + (if linear then 5 else 6) = 3 * natoms /\
     (forall L, NoDup L -> (forall i j, In (i, j) L <-> j <= i /\ i < sz_nvib s) ->
        sz_i2vib s = length L) /\
     (forall n L, NoDup L ->
        (forall i j k, In (i, j, k) L <-> k <= j /\ j <= i /\ i < n) ->
        (n = sz_nvib s -> sz_i3vib s = length L) /\
        (n = sz_n3n s -> sz_i3n3n s = length L)) /\
     (forall n L, NoDup L ->
        (forall i j k l, In (i, j, k, l) L <-> l <= k /\ k <= j /\ j <= i /\ i < n) ->
        (n = sz_nvib s -> sz_i4vib s = length L) /\
        (n = sz_n3n s -> sz_i4n3n s = length L))).
Proof.
  unfold make_sizes. split.
  - intros Hn. destruct (3 * natoms <? 6) eqn:E; [reflexivity|lia].
  - intros Hn. destruct (3 * natoms <? 6) eqn:E; [lia|].
    eexists. split; [reflexivity|].
    cbn [sz_n3n sz_nvib sz_i2vib sz_i3vib sz_i3n3n sz_i4vib sz_i4n3n].
    split; [reflexivity|]. split; [destruct linear; lia|]. split; [|split].
    + intros L Hd Hin. symmetry. now apply count_pairs.
    + intros n L Hd Hin. pose proof (count_triples n L Hd Hin) as Hc.
      split; intros <-; symmetry; exact Hc.
    + intros n L Hd Hin. pose proof (count_quadruples n L Hd Hin) as Hc.
      split; intros <-; symmetry; exact Hc.
Qed.

Lemma load_fc2_refuted_lemma :
  exists (n : nat) (h data : list Z) m m' (i j : nat),
    length h = 2 /\ length data = n * n /\
    load_fc2 n data = Some m /\ load_fc2 n (h ++ data) = Some m' /\
    m i j = Some 3%Z /\ m' i j = Some 2%Z.
Proof.
  exists 2, [9; 9]%Z, [1; 2; 3; 4]%Z. do 2 eexists. exists 0, 1. repeat split.
Qed.
