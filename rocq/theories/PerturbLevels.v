(** The levels of the program as energies of second-order perturbation theory. *)
From Coq Require Import Reals Lra List ZArith Arith Permutation Lia Bool FunctionalExtensionality.
From Verif Require Import Num Loops Index Modes ListFacts ModesFacts StatesFacts ResFacts
  Anharm AnharmFacts EnergyFacts FermiFacts PerturbFacts PerturbSum.
Import ListNotations.
Open Scope nat_scope.
Local Open Scope R_scope.

(** ** further sums *)
Section Sums.
  Variable n : nat.
  Let Sm (f : nat -> R) : R := Rsum (seq 0 n) f.

  Lemma sum_pairs (g : nat -> nat -> R) :
    Sm (fun i => Sm (fun j => if (j =? i)%nat then 0 else g i j))
    = Sm (fun i => Sm (fun j => if (j <? i)%nat then g i j + g j i else 0)).
  Proof.
    set (q := fun i j => if (j <? i)%nat then g i j else 0).
    set (r := fun i j => if (j <? i)%nat then g j i else 0).
    transitivity (Sm (fun i => Sm (fun j => q i j)) + Sm (fun i => Sm (fun j => r j i))).
    - unfold Sm. rewrite <- Rsum_plus. apply Rsum_ext. intros i _. rewrite <- Rsum_plus.
      apply Rsum_ext. intros j _. unfold q, r.
      destruct (Nat.eqb_spec j i), (Nat.ltb_spec j i), (Nat.ltb_spec i j); try lia; lra.
    - unfold Sm. rewrite (Rsum_swap (fun i j => r j i)). rewrite <- Rsum_plus. apply Rsum_ext. intros i _.
      rewrite <- Rsum_plus. apply Rsum_ext. intros j _. unfold q, r. destruct (j <? i)%nat; lra.
  Qed.

  (** a pair of modes and a third *)
  Lemma sum_pair_third (g : nat -> nat -> nat -> R) :
    Sm (fun k => Sm (fun l => if (l <? k)%nat then Sm (fun m => g k l m) else 0))
    = Sm (fun k => Sm (fun l => if (l =? k)%nat then 0 else
        if (l <? k)%nat then g k l k else g l k k))
      + Sm (fun k => Sm (fun l => Sm (fun m => if ordered k l m then
          g k l m + g k m l + g l m k else 0))).
  Proof.
    set (a := fun k l m => if (l <? k)%nat then if (m =? k)%nat then g k l k else 0 else 0).
    set (b := fun k l m => if (l <? k)%nat then if (m =? l)%nat then g k l l else 0 else 0).
    set (r1 := fun k l m => if ordered k l m then g k l m else 0).
    set (r2 := fun k l m => if ordered k l m then g k m l else 0).
    set (r3 := fun k l m => if ordered k l m then g l m k else 0).
    transitivity (Sm (fun k => Sm (fun l => Sm (fun m => a k l m)))
      + Sm (fun k => Sm (fun l => Sm (fun m => b k l m)))
      + (Sm (fun k => Sm (fun l => Sm (fun m => r1 k l m)))
         + Sm (fun k => Sm (fun l => Sm (fun m => r2 k m l)))
         + Sm (fun k => Sm (fun l => Sm (fun m => r3 m k l))))).
    { unfold Sm. rewrite <- !Rsum_plus. apply Rsum_ext. intros k _. rewrite <- !Rsum_plus.
      apply Rsum_ext. intros l _.
      rewrite <- (Rsum_plus (fun m => a k l m)), <- (Rsum_plus (fun m => r1 k l m)),
        <- (Rsum_plus (fun m => r1 k l m + r2 k m l)), <- Rsum_plus.
      destruct (Nat.ltb_spec l k) as [H|H].
      - apply Rsum_ext. intros m _. unfold a, b, r1, r2, r3, ordered.
        repeat (match goal with
          | |- context [Nat.eqb ?x ?y] => destruct (Nat.eqb_spec x y); try lia
          | |- context [Nat.ltb ?x ?y] => destruct (Nat.ltb_spec x y); try lia end);
          cbn [andb]; subst; try lia; try lra.
      - symmetry. apply Rsum_0. intros m _. unfold a, b, r1, r2, r3, ordered.
        repeat (match goal with
          | |- context [Nat.eqb ?x ?y] => destruct (Nat.eqb_spec x y); try lia
          | |- context [Nat.ltb ?x ?y] => destruct (Nat.ltb_spec x y); try lia end);
          cbn [andb]; subst; try lia; lra. }
    assert (A : Sm (fun k => Sm (fun l => Sm (fun m => a k l m)))
              = Sm (fun k => Sm (fun l => if (l <? k)%nat then g k l k else 0))).
    { apply Sm_ext. intros k Hk. apply Sm_ext. intros l Hl. unfold a, Sm.
      destruct (l <? k)%nat; [|now apply Rsum_0]. apply (Rsum_pick n (fun _ => g k l k) k Hk). }
    assert (B : Sm (fun k => Sm (fun l => Sm (fun m => b k l m)))
              = Sm (fun k => Sm (fun l => if (k <? l)%nat then g l k k else 0))).
    { transitivity (Sm (fun k => Sm (fun l => if (l <? k)%nat then g k l l else 0))).
      - apply Sm_ext. intros k Hk. apply Sm_ext. intros l Hl. unfold b, Sm.
        destruct (l <? k)%nat; [|now apply Rsum_0]. apply (Rsum_pick n (fun _ => g k l l) l Hl).
      - unfold Sm. now rewrite (Rsum_swap (fun k l => if (l <? k)%nat then g k l l else 0)). }
    assert (C2 : Sm (fun k => Sm (fun l => Sm (fun m => r2 k m l)))
               = Sm (fun k => Sm (fun l => Sm (fun m => r2 k l m)))) by (symmetry; apply (Sm3_swap23 n r2)).
    assert (C3 : Sm (fun k => Sm (fun l => Sm (fun m => r3 m k l)))
               = Sm (fun k => Sm (fun l => Sm (fun m => r3 k l m)))).
    { symmetry. unfold Sm. rewrite (Sm3_swap12 n r3). rewrite (Sm3_swap23 n (fun i j k => r3 j i k)).
      reflexivity. }
    rewrite A, B, C2, C3. unfold Sm. rewrite <- !Rsum_plus. apply Rsum_ext. intros k _.
    rewrite <- (Rsum_plus (fun l => Rsum (seq 0 n) (fun m => r1 k l m))), <- !Rsum_plus.
    apply Rsum_ext. intros l _.
    rewrite <- (Rsum_plus (fun m => r1 k l m)), <- (Rsum_plus (fun m => r1 k l m + r2 k l m)).
    f_equal.
    - destruct (Nat.eqb_spec l k), (Nat.ltb_spec l k), (Nat.ltb_spec k l); try lia; lra.
    - apply Rsum_ext. intros m _. unfold r1, r2, r3. destruct (ordered k l m); lra.
  Qed.

  Lemma sum_nested (g : nat -> nat -> nat -> R) :
    Sm (fun k => Rsum (seq 0 k) (fun l => Rsum (seq 0 l) (fun m => g k l m)))
    = Sm (fun k => Sm (fun l => Sm (fun m => if ordered k l m then g k l m else 0))).
  Proof.
    apply Sm_ext. intros k Hk. rewrite (Rsum_lt n k) by lia. apply Sm_ext. intros l Hl.
    unfold ordered. destruct (Nat.ltb_spec l k) as [H|H]; [|symmetry; now apply Rsum_0].
    rewrite (Rsum_lt n l) by lia. reflexivity.
  Qed.
End Sums.

(** ** fourth-order words in first order *)
Section Words.
  Variables (n : nat) (v : occ).
  Let Sm (f : nat -> R) : R := Rsum (seq 0 n) f.

  Definition w4 (s1 s2 s3 s4 : R) (i j k l : nat) : word := [(i, s1); (j, s2); (k, s3); (l, s4)].

  Lemma act_zero wd x : (forall l s, In (l, s) wd -> (l < n)%nat) -> (x < n)%nat ->
    elt (on x wd) (v x) (v x) = 0 -> act wd (ket n v) v = 0.
  Proof.
    intros Hw Hx E. rewrite act_product by exact Hw. rewrite (Rprod_at n _ x Hx), E. ring.
  Qed.
  Lemma act_diag wd ls : (forall l s, In (l, s) wd -> (l < n)%nat) -> NoDup ls ->
    (forall l, In l ls -> (l < n)%nat) ->
    (forall i, existsb (Nat.eqb i) ls = false -> on i wd = []) ->
    act wd (ket n v) v = Rprod ls (fun i => elt (on i wd) (v i) (v i)).
  Proof.
    intros Hw Nd Hl Hd. rewrite (act_over n v v wd ls Hw Nd Hl Hd).
    rewrite (Rprod_ext (fun i => if existsb (Nat.eqb i) ls then 1 else elt [] (v i) (v i)) (fun _ => 1)).
    - assert (E : forall l : list nat, Rprod l (fun _ => 1) = 1).
      { induction l as [|a l IH]; cbn [Rprod]; [reflexivity|]. rewrite IH. ring. }
      rewrite E. ring.
    - intros i _. rewrite elt_diag0. now destruct (existsb (Nat.eqb i) ls).
  Qed.

  Lemma diag4 s1 s2 s3 s4 i j k l : (i < n)%nat -> (j < n)%nat -> (k < n)%nat -> (l < n)%nat ->
    act (w4 s1 s2 s3 s4 i j k l) (ket n v) v =
    if (j =? i)%nat then
      if (l =? k)%nat then
        if (k =? i)%nat then elt [s1; s2; s3; s4] (v i) (v i)
        else elt [s1; s2] (v i) (v i) * elt [s3; s4] (v k) (v k)
      else 0
    else if (k =? i)%nat then
      if (l =? j)%nat then elt [s1; s3] (v i) (v i) * elt [s2; s4] (v j) (v j) else 0
    else if (l =? i)%nat then
      if (k =? j)%nat then elt [s1; s4] (v i) (v i) * elt [s2; s3] (v j) (v j) else 0
    else 0.
  Proof.
    intros Hi Hj Hk Hl.
    assert (Hw : forall x s, In (x, s) (w4 s1 s2 s3 s4 i j k l) -> (x < n)%nat).
    { intros x s [E|[E|[E|[E|[]]]]]; injection E as <- <-; assumption. }
    assert (D2 : forall a b, a <> b -> (a < n)%nat -> (b < n)%nat ->
      (forall x, existsb (Nat.eqb x) [a; b] = false -> on x (w4 s1 s2 s3 s4 i j k l) = []) ->
      act (w4 s1 s2 s3 s4 i j k l) (ket n v) v
      = elt (on a (w4 s1 s2 s3 s4 i j k l)) (v a) (v a) * elt (on b (w4 s1 s2 s3 s4 i j k l)) (v b) (v b)).
    { intros a b Ne Ha Hb Hd. rewrite (act_diag _ [a; b]); try assumption.
      - cbn [Rprod]. ring.
      - repeat constructor; cbn; intuition.
      - intros x [<-|[<-|[]]]; assumption. }
    assert (D1 : forall x, on x (w4 s1 s2 s3 s4 i j k l) =
      (if (i =? x)%nat then [s1] else []) ++ (if (j =? x)%nat then [s2] else [])
      ++ (if (k =? x)%nat then [s3] else []) ++ (if (l =? x)%nat then [s4] else [])).
    { intros x. unfold on, w4. cbn [filter].
      destruct (i =? x)%nat, (j =? x)%nat, (k =? x)%nat, (l =? x)%nat; reflexivity. }
    destruct (Nat.eqb_spec j i) as [->|Ni].
    - destruct (Nat.eqb_spec l k) as [->|Nl].
      + destruct (Nat.eqb_spec k i) as [->|Nk].
        * rewrite (act_diag _ [i]); try assumption.
          -- cbn [Rprod]. rewrite D1, Nat.eqb_refl. cbn [app]. ring.
          -- repeat constructor. cbn; tauto.
          -- intros x [<-|[]]; assumption.
          -- intros x E. rewrite D1. cbn [existsb] in E. rewrite Nat.eqb_sym.
             destruct (x =? i)%nat; [discriminate|reflexivity].
        * rewrite (D2 i k) by (try assumption; try congruence;
            intros x E; rewrite D1; cbn [existsb] in E; rewrite (Nat.eqb_sym i), (Nat.eqb_sym k);
            destruct (x =? i)%nat, (x =? k)%nat; try discriminate; reflexivity).
          rewrite !D1, !Nat.eqb_refl. destruct (Nat.eqb_spec i k), (Nat.eqb_spec k i); try congruence.
          reflexivity.
      + destruct (Nat.eq_dec k i) as [->|Nk].
        * apply (act_zero _ l Hw Hl). rewrite D1, Nat.eqb_refl.
          destruct (Nat.eqb_spec i l); [congruence|]. apply elt_odd1.
        * apply (act_zero _ k Hw Hk). rewrite D1, Nat.eqb_refl.
          destruct (Nat.eqb_spec i k), (Nat.eqb_spec l k); try congruence. apply elt_odd1.
    - destruct (Nat.eqb_spec k i) as [->|Nk].
      + destruct (Nat.eqb_spec l j) as [->|Nl].
        * rewrite (D2 i j) by (try assumption; try congruence;
            intros x E; rewrite D1; cbn [existsb] in E; rewrite (Nat.eqb_sym i), (Nat.eqb_sym j);
            destruct (x =? i)%nat, (x =? j)%nat; try discriminate; reflexivity).
          rewrite !D1, !Nat.eqb_refl. destruct (Nat.eqb_spec i j), (Nat.eqb_spec j i); try congruence.
          reflexivity.
        * apply (act_zero _ j Hw Hj). rewrite D1, Nat.eqb_refl.
          destruct (Nat.eqb_spec i j), (Nat.eqb_spec l j); try congruence. apply elt_odd1.
      + destruct (Nat.eqb_spec l i) as [->|Nl].
        * destruct (Nat.eqb_spec k j) as [->|Nkj].
          -- rewrite (D2 i j) by (try assumption; try congruence;
               intros x E; rewrite D1; cbn [existsb] in E; rewrite (Nat.eqb_sym i), (Nat.eqb_sym j);
               destruct (x =? i)%nat, (x =? j)%nat; try discriminate; reflexivity).
             rewrite !D1, !Nat.eqb_refl. destruct (Nat.eqb_spec i j), (Nat.eqb_spec j i); try congruence.
             reflexivity.
          -- apply (act_zero _ j Hw Hj). rewrite D1, Nat.eqb_refl.
             destruct (Nat.eqb_spec i j), (Nat.eqb_spec k j); try congruence. apply elt_odd1.
        * apply (act_zero _ i Hw Hi). rewrite D1, Nat.eqb_refl.
          destruct (Nat.eqb_spec j i), (Nat.eqb_spec k i), (Nat.eqb_spec l i); try congruence.
          apply elt_odd1.
  Qed.

  Lemma sum4 (c : nat -> nat -> nat -> nat -> R) s1 s2 s3 s4 :
    Sm (fun i => Sm (fun j => Sm (fun k => Sm (fun l =>
      c i j k l * act (w4 s1 s2 s3 s4 i j k l) (ket n v) v))))
    = Sm (fun i => c i i i i * elt [s1; s2; s3; s4] (v i) (v i))
      + Sm (fun i => Sm (fun j => if (j =? i)%nat then 0 else
          c i i j j * (elt [s1; s2] (v i) (v i) * elt [s3; s4] (v j) (v j))
          + c i j i j * (elt [s1; s3] (v i) (v i) * elt [s2; s4] (v j) (v j))
          + c i j j i * (elt [s1; s4] (v i) (v i) * elt [s2; s3] (v j) (v j)))).
  Proof.
    unfold Sm. rewrite <- Rsum_plus. apply Sm_ext. intros i Hi.
    transitivity (Rsum (seq 0 n) (fun j =>
      (if (j =? i)%nat then c i i i i * elt [s1; s2; s3; s4] (v i) (v i)
         + Rsum (seq 0 n) (fun k => if (k =? i)%nat then 0 else
             c i i k k * (elt [s1; s2] (v i) (v i) * elt [s3; s4] (v k) (v k))) else 0)
      + (if (j =? i)%nat then 0 else
          c i j i j * (elt [s1; s3] (v i) (v i) * elt [s2; s4] (v j) (v j))
          + c i j j i * (elt [s1; s4] (v i) (v i) * elt [s2; s3] (v j) (v j))))).
    2:{ rewrite Rsum_plus.
        rewrite (Rsum_pick n (fun _ => c i i i i * elt [s1; s2; s3; s4] (v i) (v i)
         + Rsum (seq 0 n) (fun k => if (k =? i)%nat then 0 else
             c i i k k * (elt [s1; s2] (v i) (v i) * elt [s3; s4] (v k) (v k)))) i Hi).
        rewrite Rplus_assoc. f_equal. rewrite <- Rsum_plus. apply Rsum_ext. intros j _.
        destruct (j =? i)%nat; ring. }
    apply Sm_ext. intros j Hj.
    rewrite (Sm_ext n _ (fun k => Rsum (seq 0 n) (fun l => c i j k l *
      (if (j =? i)%nat then
      if (l =? k)%nat then
        if (k =? i)%nat then elt [s1; s2; s3; s4] (v i) (v i)
        else elt [s1; s2] (v i) (v i) * elt [s3; s4] (v k) (v k)
      else 0
    else if (k =? i)%nat then
      if (l =? j)%nat then elt [s1; s3] (v i) (v i) * elt [s2; s4] (v j) (v j) else 0
    else if (l =? i)%nat then
      if (k =? j)%nat then elt [s1; s4] (v i) (v i) * elt [s2; s3] (v j) (v j) else 0
    else 0)))).
    2:{ intros k Hk. apply Sm_ext. intros l Hl. now rewrite diag4. }
    destruct (Nat.eqb_spec j i) as [->|Nj].
    - rewrite Rplus_0_r.
      rewrite <- (Rsum_pick n (fun _ => c i i i i * elt [s1; s2; s3; s4] (v i) (v i)) i Hi), <- Rsum_plus.
      apply Sm_ext. intros k Hk.
      rewrite (Rsum_ext _ (fun l => if (l =? k)%nat then c i i k l *
        (if (k =? i)%nat then elt [s1; s2; s3; s4] (v i) (v i)
        else elt [s1; s2] (v i) (v i) * elt [s3; s4] (v k) (v k)) else 0)).
      + rewrite (Rsum_pick n (fun l => c i i k l *
        (if (k =? i)%nat then elt [s1; s2; s3; s4] (v i) (v i)
        else elt [s1; s2] (v i) (v i) * elt [s3; s4] (v k) (v k))) k Hk).
        destruct (Nat.eqb_spec k i); subst; ring.
      + intros l _. destruct (l =? k)%nat; ring.
    - rewrite Rplus_0_l.
      rewrite <- (Rsum_pick n (fun _ => c i j i j * (elt [s1; s3] (v i) (v i) * elt [s2; s4] (v j) (v j))) i Hi).
      rewrite <- (Rsum_pick n (fun _ => c i j j i * (elt [s1; s4] (v i) (v i) * elt [s2; s3] (v j) (v j))) j Hj).
      rewrite <- Rsum_plus. apply Sm_ext. intros k Hk.
      destruct (Nat.eqb_spec k i) as [->|Nk].
      + destruct (Nat.eqb_spec i j); [congruence|].
        rewrite (Rsum_ext _ (fun l => if (l =? j)%nat then c i j i l *
           (elt [s1; s3] (v i) (v i) * elt [s2; s4] (v j) (v j)) else 0)).
        * rewrite (Rsum_pick n (fun l => c i j i l *
           (elt [s1; s3] (v i) (v i) * elt [s2; s4] (v j) (v j))) j Hj). ring.
        * intros l _. destruct (l =? j)%nat; ring.
      + destruct (Nat.eqb_spec k j) as [->|Nkj].
        * rewrite (Rsum_ext _ (fun l => if (l =? i)%nat then c i j j l *
             (elt [s1; s4] (v i) (v i) * elt [s2; s3] (v j) (v j)) else 0)).
          -- rewrite (Rsum_pick n (fun l => c i j j l *
             (elt [s1; s4] (v i) (v i) * elt [s2; s3] (v j) (v j))) i Hi). ring.
          -- intros l _. destruct (l =? i)%nat; ring.
        * rewrite Rsum_0; [ring|]. intros l _. destruct (l =? i)%nat; ring.
  Qed.
End Words.

Section Levels2.
  Variables (n : nat) (w : nat -> R) (f3 : nat -> nat -> nat -> R)
    (f4 : nat -> nat -> nat -> nat -> R) (zeta : nat -> nat -> nat -> R) (B : nat -> R)
    (res : nat -> nat -> nat -> bool) (v : occ).
  Hypothesis f3a : forall i j k, f3 i j k = f3 j i k.
  Hypothesis f3b : forall i j k, f3 i j k = f3 i k j.
  Hypothesis f4a : forall i j k l, f4 i j k l = f4 j i k l.
  Hypothesis f4b : forall i j k l, f4 i j k l = f4 i k j l.
  Hypothesis f4c : forall i j k l, f4 i j k l = f4 i j l k.
  Hypothesis zeta_anti : forall i j a, zeta i j a = - zeta j i a.
  Hypothesis res_swap : forall i j k, res i j k = res j i k.
  Hypothesis res_diff : forall i j k, res i j k = true -> i <> k /\ j <> k.
  Hypothesis wpos : forall i, (i < n)%nat -> 0 < w i.
  Hypothesis wres : forall i j m, (i < n)%nat -> (j < n)%nat -> (m < n)%nat ->
     res i j m = false -> w i + w j - w m <> 0.
  Let Sm (f : nat -> R) : R := Rsum (seq 0 n) f.
  Let h (i : nat) : R := INR (v i) + / 2.

  (** ** the quartic terms *)
  Lemma quartic_value : quartic n f4 (ket n v) v =
    Sm (fun k => f4 k k k k * (h k * h k / 16 + / 64))
    + Sm (fun k => Sm (fun l => if (l <? k)%nat then f4 k k l l / 4 * (h k * h l) else 0)).
  Proof.
    unfold quartic.
    rewrite (Sm_ext n _ (fun i => Sm (fun j => Sm (fun k => Sm (fun l =>
      f4 i j k l / 24 * act (w4 1 1 1 1 i j k l) (ket n v) v))))).
    2:{ intros i _. apply Sm_ext. intros j _. apply Sm_ext. intros k _. apply Sm_ext. intros l _.
        now rewrite !pos_lad. }
    unfold Sm. rewrite sum4, sum_pairs. f_equal.
    - apply Sm_ext. intros k Hk. rewrite elt4. fold (h k). field.
    - apply Sm_ext. intros k Hk. apply Sm_ext. intros l Hl. destruct (l <? k)%nat; [|reflexivity].
      rewrite !elt_diag2.
      assert (E1 : f4 k l k l = f4 k k l l) by apply f4b.
      assert (E2 : f4 k l l k = f4 k k l l) by (rewrite f4c; apply f4b).
      assert (E3 : f4 l l k k = f4 k k l l) by (rewrite f4b, f4a, f4c, f4b; reflexivity).
      assert (E4 : f4 l k l k = f4 k k l l) by (rewrite f4b; exact E3).
      assert (E5 : f4 l k k l = f4 k k l l) by (rewrite f4a, f4b; reflexivity).
      rewrite E1, E2, E3, E4, E5. unfold h. field.
  Qed.

  (** ** the vibrational angular momentum *)
  Lemma lad_Rsum {A} s l (L : list A) (psi : A -> occ -> R) u :
    lad s l (fun u => Rsum L (fun x => psi x u)) u = Rsum L (fun x => lad s l (psi x) u).
  Proof. unfold lad. rewrite <- !Rsum_scal, <- Rsum_plus. reflexivity. Qed.
  Lemma lad_scal s l c (psi : occ -> R) u : lad s l (fun u => c * psi u) u = c * lad s l psi u.
  Proof. unfold lad. ring. Qed.
  Lemma lad_ext s l (psi phi : occ -> R) u : (forall u, psi u = phi u) -> lad s l psi u = lad s l phi u.
  Proof. intros E. unfold lad. now rewrite !E. Qed.

  Lemma angular_value a :
    angular n w zeta a (angular n w zeta a (ket n v)) v =
    - Sm (fun k => Sm (fun l => if (l <? k)%nat then
        zeta k l a * zeta k l a * ((w k / w l + w l / w k) * (h k * h l) - / 2) else 0)).
  Proof.
    assert (Z0 : forall i, zeta i i a = 0) by (intros i; pose proof (zeta_anti i i a); lra).
    transitivity (Sm (fun i => Sm (fun j => Sm (fun k => Sm (fun l =>
      zeta i j a * sqrt (w j / w i) * (zeta k l a * sqrt (w l / w k))
      * act (w4 1 (-1) 1 (-1) i j k l) (ket n v) v))))).
    { unfold angular at 1. apply Sm_ext. intros i _. apply Sm_ext. intros j _.
      rewrite pos_lad, mom_lad.
      rewrite (lad_ext 1 i _ (fun u => Sm (fun k => Sm (fun l =>
        zeta k l a * sqrt (w l / w k) * lad (-1) j (pos k (mom l (ket n v))) u)))).
      2:{ intros u. unfold angular. rewrite (lad_Rsum (-1) j (seq 0 n)).
          apply Sm_ext. intros k _. rewrite (lad_Rsum (-1) j (seq 0 n)).
          apply Sm_ext. intros l _. apply lad_scal. }
      unfold Sm. rewrite (lad_Rsum 1 i (seq 0 n)), <- Rsum_scal.
      apply Sm_ext. intros k _. rewrite (lad_Rsum 1 i (seq 0 n)), <- Rsum_scal.
      apply Sm_ext. intros l _. rewrite lad_scal, pos_lad, mom_lad.
      change (act (w4 1 (-1) 1 (-1) i j k l) (ket n v) v)
        with (lad 1 i (lad (-1) j (lad 1 k (lad (-1) l (ket n v)))) v). ring. }
    unfold Sm. rewrite sum4.
    rewrite Rsum_0 by (intros i _; rewrite Z0; ring). rewrite Rplus_0_l, sum_pairs, <- Rsum_opp.
    apply Sm_ext. intros i Hi. rewrite <- Rsum_opp. apply Sm_ext. intros j Hj.
    destruct (j <? i)%nat; [|ring].
    rewrite !Z0, !elt_diag2, (zeta_anti j i a).
    pose proof (wpos i Hi). pose proof (wpos j Hj).
    assert (S1 : sqrt (w j / w i) * sqrt (w j / w i) = w j / w i)
      by (apply sqrt_sqrt; apply Rlt_le, Rdiv_lt_0_compat; assumption).
    assert (S2 : sqrt (w i / w j) * sqrt (w i / w j) = w i / w j)
      by (apply sqrt_sqrt; apply Rlt_le, Rdiv_lt_0_compat; assumption).
    assert (S3 : sqrt (w j / w i) * sqrt (w i / w j) = 1).
    { rewrite <- sqrt_mult_alt by (apply Rlt_le, Rdiv_lt_0_compat; assumption).
      replace (w j / w i * (w i / w j)) with 1 by (field; lra). apply sqrt_1. }
    unfold h. set (x := INR (v i)). set (y := INR (v j)). set (z := zeta i j a).
    set (p := sqrt (w j / w i)) in *. set (q := sqrt (w i / w j)) in *.
    transitivity (- (z * z) * ((p * p + q * q) * ((x + / 2) * (y + / 2)) - p * q / 2)); [field|].
    rewrite S1, S2, S3. field. lra.
  Qed.

  (** ** the cubic terms *)
  Lemma sq_a1 s x : a1 s x * a1 s x = INR (if s then x + 1 else x) / 2.
  Proof. apply sq_half. Qed.
  Lemma sq_up1 i : a1 true (v i) * a1 true (v i) = (h i + / 2) / 2.
  Proof. rewrite sq_a1, plus_INR. change (INR 1) with 1. unfold h. field. Qed.
  Lemma sq_dn1 i : a1 false (v i) * a1 false (v i) = (h i - / 2) / 2.
  Proof. rewrite sq_a1. unfold h. field. Qed.
  Lemma sq_up2 i : a2 true (v i) * a2 true (v i) = (h i + / 2) * (h i + 3 / 2) / 4.
  Proof.
    unfold a2. transitivity (a1 true (v i) * a1 true (v i) * (a1 true (v i + 1) * a1 true (v i + 1)));
      [ring|]. rewrite !sq_a1, !plus_INR. change (INR 1) with 1. unfold h. field.
  Qed.
  Lemma pred_INR x c : INR x * INR (x - 1) * c = INR x * (INR x - 1) * c.
  Proof.
    destruct x as [|x]; [change (INR 0) with 0; ring|].
    replace (S x - 1)%nat with x by lia. rewrite S_INR. ring.
  Qed.
  Lemma sq_dn2 i : a2 false (v i) * a2 false (v i) = (h i - / 2) * (h i - 3 / 2) / 4.
  Proof.
    unfold a2. transitivity (a1 false (v i) * a1 false (v i) * (a1 false (v i - 1) * a1 false (v i - 1)));
      [ring|]. rewrite !sq_a1. unfold h.
    pose proof (pred_INR (v i) (/ 4)) as E. lra.
  Qed.
  Lemma sq_up3 i : a3 true (v i) * a3 true (v i) = (h i + / 2) * (h i + 3 / 2) * (h i + 5 / 2) / 8.
  Proof.
    unfold a3. transitivity (a2 true (v i) * a2 true (v i) * (a1 true (v i + 2) * a1 true (v i + 2)));
      [ring|]. rewrite sq_up2, sq_a1, !plus_INR. change (INR 1) with 1. change (INR 2) with (1 + 1).
    unfold h. field.
  Qed.
  Lemma sq_dn3 i : a3 false (v i) * a3 false (v i) = (h i - / 2) * (h i - 3 / 2) * (h i - 5 / 2) / 8.
  Proof.
    unfold a3. transitivity (a2 false (v i) * a2 false (v i) * (a1 false (v i - 2) * a1 false (v i - 2)));
      [ring|]. rewrite sq_dn2, sq_a1. unfold h.
    destruct (v i) as [|[|x]].
    - change (INR 0) with 0. cbn [Nat.sub]. change (INR 0) with 0. field.
    - change (INR 1) with 1. cbn [Nat.sub]. change (INR 0) with 0. field.
    - replace (S (S x) - 2)%nat with x by lia. rewrite !S_INR. field.
  Qed.

  Definition tot (l : nat) : R := Sm (fun i => f3 i i l * h i).
  Definition W1 (l : nat) : R :=
    - (tot l * tot l) / (8 * w l)
    + f3 l l l * f3 l l l / w l * (h l * h l / 32 - / 128)
    - f3 l l l * f3 l l l / (864 * w l) * (9 * (h l * h l) + 15 / 4).
  Definition W2 (l k : nat) : R :=
    f3 l l k * f3 l l k / 32 *
    (- (h l * h l + 3 / 4 + 4 * (h l * h k)) / (2 * w l + w k)
     + keep (res l l k) (1 / (2 * w l - w k)) * (h l * h l + 3 / 4 - 4 * (h l * h k))).
  Definition W3 (l m k : nat) : R :=
    f3 l m k * f3 l m k / 8 *
    (- (h l * h m + h l * h k + h m * h k + / 4) / (w l + w m + w k)
     + keep (res l m k) (1 / (w l + w m - w k)) * (h l * h m - h l * h k - h m * h k + / 4)
     + keep (res l k m) (1 / (w l + w k - w m)) * (h l * h k - h l * h m - h m * h k + / 4)
     + keep (res m k l) (1 / (w m + w k - w l)) * (h m * h k - h l * h m - h l * h k + / 4)).

  Lemma res_false_1 i k : res i k k = false.
  Proof.
    destruct (res i k k) eqn:E; [|reflexivity]. apply res_diff in E. destruct E; congruence.
  Qed.
  Lemma res_false_2 i k : res k i k = false.
  Proof. rewrite res_swap. apply res_false_1. Qed.

  Lemma weights : Rsum (transitions n) (weight n w f3 v res) =
    Sm W1 + Sm (fun l => Sm (fun k => if (k =? l)%nat then 0 else W2 l k))
    + Sm (fun l => Sm (fun m => Sm (fun k => if ordered l m k then W3 l m k else 0))).
  Proof.
    unfold transitions. rewrite !Rsum_app, !Rsum_flat_map. rewrite Rplus_assoc. f_equal; [|f_equal].
    - apply Sm_ext. intros l Hl. rewrite !Rsum_cons. change (Rsum [] _) with 0.
      unfold weight. cbn [res_of amp gap sg]. pose proof (wpos l Hl).
      assert (E : Rsum (seq 0 n) (fun i => if (i =? l)%nat then 0 else f3 i i l / 2 * (INR (v i) + / 2))
        = (tot l - f3 l l l * h l) / 2).
      { unfold tot, Sm. rewrite <- (Rsum_pick n (fun i => f3 l l l * h l) l Hl), <- Rsum_minus.
        unfold Rdiv. rewrite <- Rsum_scal_r. apply Rsum_ext. intros i _.
        fold (h i). destruct (Nat.eqb_spec i l); subst; field. }
      unfold one_coef. rewrite E. rewrite plus_INR. change (INR 1) with 1.
      pose proof (sq_up1 l) as U1. pose proof (sq_dn1 l) as D1.
      pose proof (sq_up3 l) as U3. pose proof (sq_dn3 l) as D3.
      replace (INR (v l)) with (h l - / 2) by (unfold h; lra).
      set (c := f3 l l l) in *. set (T := tot l). set (x := h l) in *. set (ww := w l) in *.
      set (u1 := a1 true (v l)) in *. set (d1 := a1 false (v l)) in *.
      set (u3 := a3 true (v l)) in *. set (d3 := a3 false (v l)) in *.
      transitivity (
        (c * (x - / 2 + 1) / 4 + (T - c * x) / 2) * (c * (x - / 2 + 1) / 4 + (T - c * x) / 2) * (u1 * u1) / - (1 * ww)
        + (c * (x - / 2) / 4 + (T - c * x) / 2) * (c * (x - / 2) / 4 + (T - c * x) / 2) * (d1 * d1) / - (-1 * ww)
        + c / 6 * (c / 6) * (u3 * u3) / - (3 * 1 * ww)
        + c / 6 * (c / 6) * (d3 * d3) / - (3 * -1 * ww)).
      { field. lra. }
      rewrite U1, D1, U3, D3. unfold W1. fold c x ww T. field. lra.
    - apply Sm_ext. intros l Hl. rewrite Rsum_flat_map. apply Sm_ext. intros k Hk.
      destruct (Nat.eqb_spec k l) as [E|Ne]; [reflexivity|].
      rewrite !Rsum_cons. change (Rsum [] _) with 0. unfold weight. cbn [res_of amp gap sg Bool.eqb].
      pose proof (wpos l Hl). pose proof (wpos k Hk).
      pose proof (sq_up2 l) as U2. pose proof (sq_dn2 l) as D2.
      pose proof (sq_up1 k) as U1. pose proof (sq_dn1 k) as D1.
      unfold W2.
      set (c := f3 l l k) in *. set (x := h l) in *. set (y := h k) in *.
      set (wl := w l) in *. set (wk := w k) in *.
      set (u1 := a1 true (v k)) in *. set (d1 := a1 false (v k)) in *.
      set (u2 := a2 true (v l)) in *. set (d2 := a2 false (v l)) in *.
      assert (F : forall a b g, c / 2 * (a * b) * (c / 2 * (a * b)) / g = c * c / 4 * (a * a) * (b * b) / g).
      { intros. replace (c * c / 4) with (c / 2 * (c / 2)) by field. unfold Rdiv. ring. }
      rewrite !F, U1, D1, U2, D2.
      destruct (res l l k) eqn:Er; cbn [keep].
      + field. lra.
      + assert (Hne : wl + wl - wk <> 0) by exact (wres l l k Hl Hl Hk Er).
        clearbody wl wk c x y.
        field. repeat split; try lra; intros Q; lra.
    - apply Sm_ext. intros l Hl. rewrite Rsum_flat_map. apply Sm_ext. intros m Hm.
      rewrite Rsum_flat_map. apply Sm_ext. intros k Hk.
      destruct (ordered l m k) eqn:Eo; [|reflexivity].
      rewrite !Rsum_cons. change (Rsum [] _) with 0. unfold weight. cbn [res_of amp gap sg Bool.eqb].
      pose proof (wpos l Hl). pose proof (wpos m Hm). pose proof (wpos k Hk).
      pose proof (sq_up1 l) as Ul. pose proof (sq_dn1 l) as Dl.
      pose proof (sq_up1 m) as Um. pose proof (sq_dn1 m) as Dm.
      pose proof (sq_up1 k) as Uk. pose proof (sq_dn1 k) as Dk.
      pose proof (wres l m k Hl Hm Hk) as R1. pose proof (wres l k m Hl Hk Hm) as R2.
      pose proof (wres m k l Hm Hk Hl) as R3. unfold W3.
      set (c := f3 l m k) in *. set (x := h l) in *. set (y := h m) in *. set (z := h k) in *.
      set (wl := w l) in *. set (wm := w m) in *. set (wk := w k) in *.
      set (u1 := a1 true (v l)) in *. set (d1 := a1 false (v l)) in *.
      set (u2 := a1 true (v m)) in *. set (d2 := a1 false (v m)) in *.
      set (u3 := a1 true (v k)) in *. set (d3 := a1 false (v k)) in *.
      assert (F : forall a b d g, c * (a * b * d) * (c * (a * b * d)) / g
        = c * c * (a * a) * (b * b) * (d * d) / g).
      { intros. unfold Rdiv. ring. }
      rewrite !F, Ul, Dl, Um, Dm, Uk, Dk. clearbody u1 u2 u3 d1 d2 d3. clear F.
      assert (Hpos : wl + wm + wk <> 0) by lra.
      replace (- (1 * wl + 1 * wm + 1 * wk)) with (- (wl + wm + wk)) by ring.
      replace (- (1 * wl + 1 * wm + -1 * wk)) with (- (wl + wm - wk)) by ring.
      replace (- (1 * wl + -1 * wm + 1 * wk)) with (- (wl + wk - wm)) by ring.
      replace (- (1 * wl + -1 * wm + -1 * wk)) with (- - (wm + wk - wl)) by ring.
      replace (- (-1 * wl + 1 * wm + 1 * wk)) with (- (wm + wk - wl)) by ring.
      replace (- (-1 * wl + 1 * wm + -1 * wk)) with (- - (wl + wk - wm)) by ring.
      replace (- (-1 * wl + -1 * wm + 1 * wk)) with (- - (wl + wm - wk)) by ring.
      replace (- (-1 * wl + -1 * wm + -1 * wk)) with (- - (wl + wm + wk)) by ring.
      set (g0 := wl + wm + wk) in *. set (g1 := wl + wm - wk) in *. set (g2 := wl + wk - wm) in *.
      set (g3 := wm + wk - wl) in *. clearbody g0 g1 g2 g3.
      assert (G1 : forall X Y (r : bool) g, (r = false -> g <> 0) ->
        (if r then 0 else X / - g) + (if r then 0 else Y / - - g) = keep r (1 / g) * (Y - X)).
      { intros X Y r g Hr. destruct r; cbn [keep]; [ring|]. specialize (Hr eq_refl). field. exact Hr. }
      transitivity (
        ((if false then 0 else c * c * ((x + / 2) / 2) * ((y + / 2) / 2) * ((z + / 2) / 2) / - g0)
         + (if false then 0 else c * c * ((x - / 2) / 2) * ((y - / 2) / 2) * ((z - / 2) / 2) / - - g0))
        + ((if res l m k then 0 else c * c * ((x + / 2) / 2) * ((y + / 2) / 2) * ((z - / 2) / 2) / - g1)
         + (if res l m k then 0 else c * c * ((x - / 2) / 2) * ((y - / 2) / 2) * ((z + / 2) / 2) / - - g1))
        + ((if res l k m then 0 else c * c * ((x + / 2) / 2) * ((y - / 2) / 2) * ((z + / 2) / 2) / - g2)
         + (if res l k m then 0 else c * c * ((x - / 2) / 2) * ((y + / 2) / 2) * ((z - / 2) / 2) / - - g2))
        + ((if res m k l then 0 else c * c * ((x - / 2) / 2) * ((y + / 2) / 2) * ((z + / 2) / 2) / - g3)
         + (if res m k l then 0 else c * c * ((x + / 2) / 2) * ((y - / 2) / 2) * ((z - / 2) / 2) / - - g3))).
      { ring. }
      rewrite !G1; try assumption; try (intros _; assumption).
      cbn [keep]. field. assumption.
  Qed.

  (** ** the formulas for the constants, summed *)
  Lemma sum_tot :
    Sm (fun k => Sm (fun l => f3 k k l * f3 k k l * (1 / (8 * w l)) * (h k * h k)))
    + Sm (fun k => Sm (fun l => if (l <? k)%nat then
        Sm (fun m => f3 k k m * f3 l l m / (4 * w m) * (h k * h l)) else 0))
    = Sm (fun m => tot m * tot m / (8 * w m)).
  Proof.
    transitivity (Sm (fun m => Sm (fun k => (f3 k k m * h k) * (f3 k k m * h k)) * (1 / (8 * w m))
      + 2 * Sm (fun k => Sm (fun l => if (l <? k)%nat then (f3 k k m * h k) * (f3 l l m * h l) else 0))
        * (1 / (8 * w m)))).
    - unfold Sm. rewrite Rsum_plus. f_equal.
      + rewrite Rsum_swap. apply Rsum_ext. intros l _. rewrite <- Rsum_scal_r. apply Rsum_ext.
        intros k _. ring.
      + transitivity (Rsum (seq 0 n) (fun k => Rsum (seq 0 n) (fun m => Rsum (seq 0 n) (fun l =>
          if (l <? k)%nat then f3 k k m * f3 l l m / (4 * w m) * (h k * h l) else 0)))).
        * apply Rsum_ext. intros k _.
          rewrite (Rsum_swap (fun m l => if (l <? k)%nat then f3 k k m * f3 l l m / (4 * w m) * (h k * h l) else 0)).
          apply Rsum_ext. intros l _. destruct (l <? k)%nat; [reflexivity|]. symmetry. now apply Rsum_0.
        * rewrite Rsum_swap. apply Sm_ext. intros m Hm. pose proof (wpos m Hm).
          rewrite <- Rsum_scal, <- Rsum_scal_r. apply Rsum_ext. intros k _.
          rewrite <- Rsum_scal, <- Rsum_scal_r. apply Rsum_ext. intros l _.
          destruct (l <? k)%nat; [field; lra|ring].
    - apply Sm_ext. intros m Hm. unfold tot, Sm. rewrite Sm_square. unfold Rdiv. ring.
  Qed.

  Lemma sum_sing :
    Sm (fun k => Sm (fun l => f3 k k l * f3 k k l *
      (/ 32 * (1 / (2 * w k + w l)) - / 32 * keep (res k k l) (1 / (2 * w k - w l))) * (h k * h k)))
    = Sm (fun k => - (f3 k k k * f3 k k k / (48 * w k)) * (h k * h k))
      + Sm (fun k => Sm (fun l => if (l =? k)%nat then 0 else f3 k k l * f3 k k l *
      (/ 32 * (1 / (2 * w k + w l)) - / 32 * keep (res k k l) (1 / (2 * w k - w l))) * (h k * h k))).
  Proof.
    unfold Sm. rewrite <- Rsum_plus. apply Sm_ext. intros k Hk. pose proof (wpos k Hk).
    rewrite <- (Rsum_pick n (fun _ => - (f3 k k k * f3 k k k / (48 * w k)) * (h k * h k)) k Hk), <- Rsum_plus.
    apply Rsum_ext. intros l _. destruct (Nat.eqb_spec l k) as [->|Ne]; [|ring].
    rewrite res_false_1. cbn [keep]. field. lra.
  Qed.

  Definition third (k l m : nat) : R :=
    f3 k l m * f3 k l m / 8 *
      (1 / (w k + w l + w m)
       + keep (res k m l) (1 / (w k + w m - w l))
       - keep (res k l m) (1 / (w k + w l - w m))
       + keep (res l m k) (1 / (w l + w m - w k))) * (h k * h l).
  Lemma sum_third :
    Sm (fun k => Sm (fun l => if (l <? k)%nat then Sm (fun m => third k l m) else 0))
    = Sm (fun k => Sm (fun l => if (l =? k)%nat then 0 else
        f3 k k l * f3 k k l / 8 * (1 / (2 * w k + w l) + keep (res k k l) (1 / (2 * w k - w l))) * (h k * h l)))
      + Sm (fun k => Sm (fun l => Sm (fun m => if ordered k l m then
          f3 k l m * f3 k l m / 8 *
          (1 / (w k + w l + w m) * (h k * h l + h k * h m + h l * h m)
           + keep (res k m l) (1 / (w k + w m - w l)) * (h k * h l - h k * h m + h l * h m)
           + keep (res k l m) (1 / (w k + w l - w m)) * (- (h k * h l) + h k * h m + h l * h m)
           + keep (res l m k) (1 / (w l + w m - w k)) * (h k * h l + h k * h m - h l * h m)) else 0))).
  Proof.
    unfold Sm. rewrite sum_pair_third. f_equal.
    - apply Sm_ext. intros k Hk. apply Sm_ext. intros l Hl.
      destruct (Nat.eqb_spec l k) as [E|Ne]; [reflexivity|].
      assert (E1 : f3 k l k = f3 k k l) by apply f3b.
      assert (E2 : f3 l k k = f3 k k l) by (rewrite f3a; apply f3b).
      unfold third. destruct (l <? k)%nat.
      + rewrite E1, (res_false_1 l k), (res_false_2 l k). cbn [keep].
        replace (w k + w l + w k) with (2 * w k + w l) by ring.
        replace (w k + w k - w l) with (2 * w k - w l) by ring.
        replace (w l + w k - w k) with (w k + w l - w k) by ring. ring.
      + rewrite E2, (res_false_1 l k). cbn [keep].
        replace (w l + w k + w k) with (2 * w k + w l) by ring.
        replace (w k + w k - w l) with (2 * w k - w l) by ring. ring.
    - apply Sm_ext. intros k Hk. apply Sm_ext. intros l Hl. apply Sm_ext. intros m Hm.
      destruct (ordered k l m); [|reflexivity]. unfold third.
      rewrite (f3b k m l), (f3b l m k), (f3a l k m).
      rewrite (res_swap m l k), (res_swap l k m), (res_swap m k l).
      replace (w k + w m + w l) with (w k + w l + w m) by ring.
      replace (w l + w m + w k) with (w k + w l + w m) by ring.
      replace (w m + w l - w k) with (w l + w m - w k) by ring.
      replace (w l + w k - w m) with (w k + w l - w m) by ring.
      replace (w m + w k - w l) with (w k + w m - w l) by ring. ring.
  Qed.

  Definition rot_kl (k l : nat) : R :=
    B 0%nat * (zeta k l 0%nat * zeta k l 0%nat) + B 1%nat * (zeta k l 1%nat * zeta k l 1%nat)
    + B 2%nat * (zeta k l 2%nat * zeta k l 2%nat).

  Lemma Sm_lt k (f : nat -> R) : (k < n)%nat ->
    Rsum (seq 0 k) f = Sm (fun l => if (l <? k)%nat then f l else 0).
  Proof. intros Hk. apply Rsum_lt. lia. Qed.

  Lemma constants_sum us : intermediate n f3 v us ->
    Sm (fun k => w k * h k)
    + (Sm (fun k => spec_xkk n f4 w f3 res k * (h k * h k))
       + Sm (fun k => Rsum (seq 0 k) (fun l => spec_xkl n f4 w f3 zeta B res k l * (h k * h l))))
    + spec_e0 n f4 w f3 res
    = perturbed n w f3 f4 zeta B res v us + angular_shift n zeta B.
  Proof.
    intros Hus. unfold perturbed. rewrite (second_order n w f3 v res f3a f3b res_swap res_diff us Hus).
    rewrite weights, quartic_value, !angular_value. unfold harm_energy.
    assert (X1 : Sm (fun k => spec_xkk n f4 w f3 res k * (h k * h k)) =
      Sm (fun k => f4 k k k k / 16 * (h k * h k))
      - Sm (fun k => Sm (fun l => f3 k k l * f3 k k l * (1 / (8 * w l)) * (h k * h k)))
      - Sm (fun k => Sm (fun l => f3 k k l * f3 k k l *
      (/ 32 * (1 / (2 * w k + w l)) - / 32 * keep (res k k l) (1 / (2 * w k - w l))) * (h k * h k)))).
    { unfold Sm. rewrite <- !Rsum_minus. apply Rsum_ext. intros k _. unfold spec_xkk.
      rewrite Rmult_minus_distr_r, <- Rsum_scal_r.
      rewrite (Rsum_ext (fun l => _ * (h k * h k)) (fun l =>
        f3 k k l * f3 k k l * (1 / (8 * w l)) * (h k * h k)
        + f3 k k l * f3 k k l * (/ 32 * (1 / (2 * w k + w l))
          - / 32 * keep (res k k l) (1 / (2 * w k - w l))) * (h k * h k))) by (intros; ring).
      rewrite Rsum_plus. ring. }
    assert (X2 : Sm (fun k => Rsum (seq 0 k) (fun l => spec_xkl n f4 w f3 zeta B res k l * (h k * h l))) =
      Sm (fun k => Sm (fun l => if (l <? k)%nat then f4 k k l l / 4 * (h k * h l) else 0))
      - Sm (fun k => Sm (fun l => if (l <? k)%nat then
          Sm (fun m => f3 k k m * f3 l l m / (4 * w m) * (h k * h l)) else 0))
      - Sm (fun k => Sm (fun l => if (l <? k)%nat then Sm (fun m => third k l m) else 0))
      + Sm (fun k => Sm (fun l => if (l <? k)%nat then
          (w k / w l + w l / w k) * rot_kl k l * (h k * h l) else 0))).
    { unfold Sm. rewrite <- !Rsum_minus, <- Rsum_plus. apply Sm_ext. intros k Hk.
      rewrite (Sm_lt k) by exact Hk. unfold Sm. rewrite <- !Rsum_minus, <- Rsum_plus.
      apply Sm_ext. intros l Hl. destruct (l <? k)%nat; [|ring].
      unfold spec_xkl, third. rewrite !Rsum_scal_r. unfold rot_kl. ring. }
    assert (X3 : spec_e0 n f4 w f3 res =
      Sm (fun k => f4 k k k k / 64) - Sm (fun k => 7 * (f3 k k k * f3 k k k) / (576 * w k))
      + Sm (fun k => Sm (fun l => if (l =? k)%nat then 0 else
        3 / 128 * (f3 k k l * f3 k k l) *
        (keep (res k k l) (1 / (2 * w k - w l)) - 1 / (2 * w k + w l))))
      - Sm (fun k => Sm (fun l => Sm (fun m => if ordered k l m then
         / 32 * (f3 k l m * f3 k l m) *
      (1 / (w k + w l + w m)
       - keep (res k m l) (1 / (w k + w m - w l))
       - keep (res k l m) (1 / (w k + w l - w m))
       - keep (res l m k) (1 / (w l + w m - w k))) else 0)))).
    { unfold spec_e0. rewrite (sum_nested n). reflexivity. }
    assert (X4 : angular_shift n zeta B =
      Sm (fun k => Sm (fun l => if (l <? k)%nat then rot_kl k l / 2 else 0))).
    { unfold angular_shift. apply Sm_ext. intros k Hk. now rewrite (Sm_lt k). }
    rewrite X1, X2, X3, X4. clear X1 X2 X3 X4.
    pose proof sum_tot as Y1. pose proof sum_sing as Y2. pose proof sum_third as Y3.
    assert (Q4 : Sm (fun k => f4 k k k k * (h k * h k / 16 + / 64)) =
      Sm (fun k => f4 k k k k / 16 * (h k * h k)) + Sm (fun k => f4 k k k k / 64)).
    { unfold Sm. rewrite <- Rsum_plus. apply Rsum_ext. intros k _. field. }
    assert (Q1 : Sm W1 = - Sm (fun m => tot m * tot m / (8 * w m))
      - Sm (fun k => - (f3 k k k * f3 k k k / (48 * w k)) * (h k * h k))
      - Sm (fun k => 7 * (f3 k k k * f3 k k k) / (576 * w k))).
    { unfold Sm. rewrite <- Rsum_opp, <- !Rsum_minus. apply Sm_ext. intros k Hk. pose proof (wpos k Hk).
      unfold W1. field. lra. }
    assert (Q2 : Sm (fun l => Sm (fun k => if (k =? l)%nat then 0 else W2 l k)) =
      - Sm (fun k => Sm (fun l => if (l =? k)%nat then 0 else f3 k k l * f3 k k l *
      (/ 32 * (1 / (2 * w k + w l)) - / 32 * keep (res k k l) (1 / (2 * w k - w l))) * (h k * h k)))
      - Sm (fun k => Sm (fun l => if (l =? k)%nat then 0 else
        f3 k k l * f3 k k l / 8 * (1 / (2 * w k + w l) + keep (res k k l) (1 / (2 * w k - w l))) * (h k * h l)))
      + Sm (fun k => Sm (fun l => if (l =? k)%nat then 0 else
        3 / 128 * (f3 k k l * f3 k k l) *
        (keep (res k k l) (1 / (2 * w k - w l)) - 1 / (2 * w k + w l))))).
    { unfold Sm. rewrite <- Rsum_opp, <- Rsum_minus, <- Rsum_plus. apply Sm_ext. intros k Hk.
      rewrite <- Rsum_opp, <- Rsum_minus, <- Rsum_plus. apply Sm_ext. intros l Hl.
      destruct (l =? k)%nat; [ring|]. unfold W2.
      pose proof (wpos k Hk). pose proof (wpos l Hl).
      set (K := keep (res k k l) (1 / (2 * w k - w l))). clearbody K. field. lra. }
    assert (Q3 : Sm (fun l => Sm (fun m => Sm (fun k => if ordered l m k then W3 l m k else 0))) =
      - Sm (fun k => Sm (fun l => Sm (fun m => if ordered k l m then
          f3 k l m * f3 k l m / 8 *
          (1 / (w k + w l + w m) * (h k * h l + h k * h m + h l * h m)
           + keep (res k m l) (1 / (w k + w m - w l)) * (h k * h l - h k * h m + h l * h m)
           + keep (res k l m) (1 / (w k + w l - w m)) * (- (h k * h l) + h k * h m + h l * h m)
           + keep (res l m k) (1 / (w l + w m - w k)) * (h k * h l + h k * h m - h l * h m)) else 0)))
      - Sm (fun k => Sm (fun l => Sm (fun m => if ordered k l m then
         / 32 * (f3 k l m * f3 k l m) *
      (1 / (w k + w l + w m)
       - keep (res k m l) (1 / (w k + w m - w l))
       - keep (res k l m) (1 / (w k + w l - w m))
       - keep (res l m k) (1 / (w l + w m - w k))) else 0)))).
    { unfold Sm. rewrite <- Rsum_opp, <- Rsum_minus. apply Sm_ext. intros k Hk.
      rewrite <- Rsum_opp, <- Rsum_minus. apply Sm_ext. intros l Hl.
      rewrite <- Rsum_opp, <- Rsum_minus. apply Sm_ext. intros m Hm.
      destruct (ordered k l m); [|ring]. unfold W3.
      pose proof (wpos k Hk). pose proof (wpos l Hl). pose proof (wpos m Hm).
      set (K1 := keep (res k m l) _). set (K2 := keep (res k l m) _). set (K3 := keep (res l m k) _).
      clearbody K1 K2 K3. field. lra. }
    assert (Q5 : Sm (fun k => Sm (fun l => if (l <? k)%nat then
          (w k / w l + w l / w k) * rot_kl k l * (h k * h l) else 0)) =
      - (B 0%nat * - Sm (fun k => Sm (fun l => if (l <? k)%nat then
        zeta k l 0%nat * zeta k l 0%nat * ((w k / w l + w l / w k) * (h k * h l) - / 2) else 0))
       + B 1%nat * - Sm (fun k => Sm (fun l => if (l <? k)%nat then
        zeta k l 1%nat * zeta k l 1%nat * ((w k / w l + w l / w k) * (h k * h l) - / 2) else 0))
       + B 2%nat * - Sm (fun k => Sm (fun l => if (l <? k)%nat then
        zeta k l 2%nat * zeta k l 2%nat * ((w k / w l + w l / w k) * (h k * h l) - / 2) else 0)))
      + Sm (fun k => Sm (fun l => if (l <? k)%nat then rot_kl k l / 2 else 0))).
    { assert (G : forall a, B a * - Sm (fun k => Sm (fun l => if (l <? k)%nat then
        zeta k l a * zeta k l a * ((w k / w l + w l / w k) * (h k * h l) - / 2) else 0))
        = - Sm (fun k => Sm (fun l => B a * (if (l <? k)%nat then
        zeta k l a * zeta k l a * ((w k / w l + w l / w k) * (h k * h l) - / 2) else 0)))).
      { intros a. rewrite Ropp_mult_distr_r_reverse. f_equal. unfold Sm. rewrite <- Rsum_scal.
        apply Rsum_ext. intros k _. now rewrite Rsum_scal. }
      rewrite !G, <- !Ropp_plus_distr, Ropp_involutive. unfold Sm. rewrite <- !Rsum_plus.
      apply Rsum_ext. intros k _. rewrite <- !Rsum_plus. apply Rsum_ext. intros l _.
      destruct (l <? k)%nat; [|ring]. unfold rot_kl.
      set (q := w k / w l + w l / w k). clearbody q. field. }
    fold (h 0%nat) in *. change (fun i => w i * (INR (v i) + / 2)) with (fun k => w k * h k).
    fold (Sm (fun k => w k * h k)). lra.
  Qed.
End Levels2.

(** ** the levels of an asymmetric top *)
Lemma reported_swap fm1 fm2 res i j k : reported fm1 fm2 res -> res i j k = res j i k.
Proof.
  intros Hr. apply eq_true_iff_eq. rewrite !(Hr _ _ _). unfold resonant.
  split; intros [[-> H]|[H|H]]; auto.
Qed.
Lemma reported_diff fm1 fm2 res i j k : reported fm1 fm2 res -> asym_lists fm1 fm2 ->
  res i j k = true -> i <> k /\ j <> k.
Proof.
  intros Hr [A1 A2] H. apply Hr in H. destruct H as [[-> H]|[H|H]].
  - apply A1 in H. auto.
  - apply A2 in H. lia.
  - apply A2 in H. lia.
Qed.

Lemma level_singles n (w : nat -> R) x gc e0 v v2 :
  level w (singles n) x gc e0 v v2 = Some
   (Rsum (seq 0 n) (fun i => w i * (INR (v i) + / 2))
    + (Rsum (seq 0 n) (fun k => x k k * ((INR (v k) + / 2) * (INR (v k) + / 2)))
       + Rsum (seq 0 n) (fun k => Rsum (seq 0 k) (fun l =>
           x k l * ((INR (v k) + / 2) * (INR (v l) + / 2)))))
    + e0).
Proof.
  rewrite level_R by (right; apply n2dm_singles). f_equal. unfold spec_level.
  rewrite n1dm_singles, n2dm_singles. cbn [seq].
  rewrite (Rsum_ext (fun i => w (m1 (singles n) i) * _) (fun i => w i * (INR (v i) + / 2))).
  2:{ intros i Hi. apply in_seq in Hi. now rewrite m1_singles. }
  rewrite (Rsum_ext (fun i => Rsum (seq 0 (i + 1)) _) (fun k =>
     x k k * ((INR (v k) + / 2) * (INR (v k) + / 2))
     + Rsum (seq 0 k) (fun l => x k l * ((INR (v k) + / 2) * (INR (v l) + / 2))))).
  2:{ intros i Hi. apply in_seq in Hi. rewrite Nat.add_1_r, seq_S, Rsum_app, Rsum_one.
      cbn [plus]. rewrite !m1_singles by lia.
      rewrite (Rsum_ext _ (fun l => x i l * ((INR (v i) + / 2) * (INR (v l) + / 2)))).
      2:{ intros j Hj. apply in_seq in Hj. now rewrite m1_singles by lia. }
      lra. }
  rewrite Rsum_plus.
  rewrite (Rsum_0 (fun i => Rsum (@nil nat) _)) by reflexivity.
  change (fun i => Rsum (@nil nat) _) with (fun _ : nat => 0).
  assert (E : forall f : nat -> R, Rsum [] f = 0) by reflexivity. rewrite !E. lra.
Qed.

Lemma levels_second_order_lemma n w f3 f4 zeta B gc fm1 fm2 res (v : nat -> nat) v2 us :
  (forall i j k, f3 i j k = f3 j i k) -> (forall i j k, f3 i j k = f3 i k j) ->
  (forall i j k l, f4 i j k l = f4 j i k l) -> (forall i j k l, f4 i j k l = f4 i k j l) ->
  (forall i j k l, f4 i j k l = f4 i j l k) ->
  (forall i j a, zeta i j a = - zeta j i a) ->
  reported fm1 fm2 res -> asym_lists fm1 fm2 ->
  (forall i j j', In (i, j) fm1 -> In (i, j') fm1 -> j = j') ->
  (forall i, (i < n)%nat -> 0 < w i) ->
  (forall i j m, (i < n)%nat -> (j < n)%nat -> (m < n)%nat ->
     res i j m = false -> w i + w j - w m <> 0) ->
  intermediate n f3 v us ->
  level w (singles n) (xcalc n f4 w f3 zeta B fm1 fm2) gc
    (make_e0 f4 w f3 (make_fermi_checks fm1 fm2) (singles n)) v v2
  = Some (perturbed n w f3 f4 zeta B res v us + angular_shift n zeta B + e0_excess n w f3 res).
Proof.
  intros A1 A2 F1 F2 F3 Z Hr Ha Hu Hw Hd Hus.
  rewrite level_singles. f_equal.
  rewrite <- (constants_sum n w f3 f4 zeta B res v A1 A2 F1 F2 F3 Z
    (fun i j k => reported_swap _ _ _ i j k Hr) (fun i j k => reported_diff _ _ _ i j k Hr Ha) Hw Hd us Hus).
  rewrite (e0_reported_lemma n f4 w f3 fm1 fm2 res Hr Ha Hu Hw Hd).
  destruct (xcalc_exact_lemma n f4 w f3 zeta B fm1 fm2 res Hr Ha Hw Hd) as [X1 X2].
  rewrite (Rsum_ext (fun k => xcalc n f4 w f3 zeta B fm1 fm2 k k * _)
    (fun k => spec_xkk n f4 w f3 res k * ((INR (v k) + / 2) * (INR (v k) + / 2)))).
  2:{ intros k Hk. apply in_seq in Hk. now rewrite X1 by lia. }
  rewrite (Rsum_ext (fun k => Rsum (seq 0 k) (fun l => xcalc n f4 w f3 zeta B fm1 fm2 k l * _))
    (fun k => Rsum (seq 0 k) (fun l => spec_xkl n f4 w f3 zeta B res k l * ((INR (v k) + / 2) * (INR (v l) + / 2))))).
  2:{ intros k Hk. apply in_seq in Hk. apply Rsum_ext. intros l Hl. apply in_seq in Hl.
      destruct (X2 k l) as [E _]; [lia|lia|]. now rewrite E. }
  lra.
Qed.

(** ** the couplings of the two-level problems *)
Definition counts (l : list nat) : occ := fun i => nth i l 0%nat.

Lemma counts_map n f i : (i < n)%nat -> counts (map f (seq 0 n)) i = f i.
Proof.
  intros Hi. unfold counts. rewrite (nth_indep _ 0%nat (f 0%nat)) by now rewrite map_length, seq_length.
  rewrite map_nth, seq_nth by exact Hi. reflexivity.
Qed.

Lemma sqrt_half_sq : sqrt (1 / 2) * sqrt (1 / 2) = 1 / 2.
Proof. apply sqrt_sqrt. lra. Qed.
Lemma sqrt_half : sqrt (1 / 2) = 1 / sqrt 2.
Proof. rewrite sqrt_div_alt by lra. now rewrite sqrt_1. Qed.

Lemma element1 n f3 i j :
  (forall i j k, f3 i j k = f3 j i k) -> (forall i j k, f3 i j k = f3 i k j) ->
  (i < n)%nat -> (j < n)%nat -> i <> j ->
  cubic n f3 (ket n (counts (unit1 n i 2))) (counts (unit1 n j 1)) = f3 i i j / 4.
Proof.
  intros A1 A2 Hi Hj Ne.
  rewrite (cubic_at n (fun _ => 0) f3 _ (fun _ _ _ => false) A1 A2
    (fun _ _ _ => eq_refl) (fun i j k (E : false = true) => match Bool.diff_false_true E with end) (T21 false true i j)).
  - cbn [amp]. unfold unit1. rewrite !counts_map by assumption.
    rewrite Nat.eqb_refl. destruct (Nat.eqb_spec j i); [congruence|].
    unfold a2, a1. cbn [INR Nat.add Nat.sub]. replace ((1 + 1) / 2) with 1 by field. rewrite sqrt_1.
    replace (f3 i i j / 2 * (1 * sqrt (1 / 2) * sqrt (1 / 2)))
      with (f3 i i j / 2 * (sqrt (1 / 2) * sqrt (1 / 2))) by ring.
    rewrite sqrt_half_sq. field.
  - cbn. auto.
  - intros a Ha. unfold unit1. rewrite !counts_map by assumption.
    cbn [delta_of]. unfold dl, sg.
    destruct (Nat.eqb_spec a i), (Nat.eqb_spec a j); try lia.
Qed.

Lemma element2 n f3 i j k :
  (forall i j k, f3 i j k = f3 j i k) -> (forall i j k, f3 i j k = f3 i k j) ->
  (i < n)%nat -> (k < j < i)%nat ->
  cubic n f3 (ket n (counts (unit11 n j i))) (counts (unit1 n k 1)) = f3 j i k / (2 * sqrt 2).
Proof.
  intros A1 A2 Hi Hjk.
  assert (0 < sqrt 2) by (apply sqrt_lt_R0; lra).
  rewrite (cubic_at n (fun _ => 0) f3 _ (fun _ _ _ => false) A1 A2
    (fun _ _ _ => eq_refl) (fun i j k (E : false = true) => match Bool.diff_false_true E with end) (T111 false false true i j k)).
  - cbn [amp]. unfold unit11, unit1. rewrite !counts_map by lia.
    rewrite !Nat.eqb_refl. destruct (Nat.eqb_spec i j), (Nat.eqb_spec k i), (Nat.eqb_spec k j); try lia.
    cbn [orb]. unfold a1. cbn [INR Nat.add].
    rewrite sqrt_half_sq, sqrt_half, (A1 i j k). field. lra.
  - cbn. lia.
  - intros a Ha. unfold unit1, unit11. rewrite !counts_map by assumption.
    cbn [delta_of]. unfold dl, sg.
    destruct (Nat.eqb_spec a i), (Nat.eqb_spec a j), (Nat.eqb_spec a k); cbn [orb]; try lia.
Qed.

Lemma coupling_element_lemma fm1 fm2 n (f3 : nat -> nat -> nat -> R) :
  (forall i j k, f3 i j k = f3 j i k) -> (forall i j k, f3 i j k = f3 i k j) ->
  asym_lists fm1 fm2 ->
  (forall i j, In (i, j) fm1 -> (i < n)%nat /\ (j < n)%nat) ->
  (forall i j k, In (i, j, k) fm2 -> (i < n)%nat /\ (j < n)%nat /\ (k < n)%nat) ->
  exists t ops,
    restst_tables n (ioff (n + 1)) (singles n) = Some t /\
    enrgy_ops (make_fermi_checks fm1 fm2) (singles n) t = Some ops /\
    forall o, In o ops -> exists p q vp vq,
      op_levels o = (p, q) /\
      nth_error (t_states t) p = Some (I1st vp) /\ nth_error (t_states t) q = Some (I1st vq) /\
      coupling f3 o = cubic n f3 (ket n (counts vp)) (counts vq).
Proof.
  intros A1 A2 A B1 B2.
  destruct (treated_asym_lemma fm1 fm2 n A B1 B2) as (t & ops & Et & Eo & Ho & _).
  exists t, ops. split; [exact Et|]. split; [exact Eo|]. intros o Hin.
  destruct (Ho o Hin) as (p & q & Hl & _ & [(i & j & Hij & -> & S1 & S2)|(i & j & k & Hij & -> & S1 & S2)]).
  - exists p, q, (unit1 n i 2), (unit1 n j 1). split; [exact Hl|]. split; [exact S1|]. split; [exact S2|].
    rewrite coupling_R. cbn [spec_coupling]. destruct (B1 _ _ Hij) as [Hi Hj].
    destruct A as [Na _]. apply Na in Hij. now rewrite element1.
  - exists p, q, (unit11 n j i), (unit1 n k 1). split; [exact Hl|]. split; [exact S1|]. split; [exact S2|].
    rewrite coupling_R. cbn [spec_coupling]. destruct (B2 _ _ _ Hij) as (Hi & _ & _).
    destruct A as [_ Na]. apply Na in Hij. now rewrite element2.
Qed.

Lemma intermediate_states_exist_lemma n f3 (v : nat -> nat) :
  (forall i j k, f3 i j k = f3 j i k) -> (forall i j k, f3 i j k = f3 i k j) ->
  exists us, intermediate n f3 v us.
Proof.
  intros A1 A2. apply (intermediate_exists n (fun _ => 0) f3 v (fun _ _ _ => false) A1 A2);
    [reflexivity|discriminate].
Qed.

Lemma cubic_nonzero_ex : cubic 1 (fun _ _ _ => 6) (ket 1 (fun _ => 0%nat)) (fun _ => 3%nat) <> 0.
Proof.
  rewrite (cubic_at 1 (fun _ => 0) (fun _ _ _ => 6) _ (fun _ _ _ => false) (fun _ _ _ => eq_refl)
    (fun _ _ _ => eq_refl) (fun _ _ _ => eq_refl)
    (fun i j k (E : false = true) => match Bool.diff_false_true E with end) (T3 true 0)).
  - cbn [amp]. unfold a3, a2, a1. apply Rgt_not_eq.
    repeat apply Rmult_lt_0_compat; try lra; apply sqrt_lt_R0; cbn; lra.
  - cbn. lia.
  - intros i Hi. assert (i = 0)%nat as -> by lia. reflexivity.
Qed.
