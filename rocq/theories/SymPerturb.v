(** The levels of symmetric tops from perturbation theory. *)
From Coq Require Import Reals Lra Lia List Arith Bool Permutation Sorted.
From Verif Require Import Num Loops Index Modes VibRot Anharm SymAnharm ListFacts ModesFacts StatesFacts
  ResFacts AnharmFacts VibRotFacts TransformFacts ModeFacts HarmFacts EnergyFacts SymFacts SymExact SymE0
  PerturbFacts PerturbSum PerturbLevels.
Import ListNotations.
Open Scope R_scope.

(** ** the specification *)

(** A force field with an axis of symmetry (index 2) of order three or higher: [ns] are the
    nondegenerate modes, [ts] the pairs of degenerate ones.  The partners of all pairs are
    oriented alike, and [ax] is the axis, 0 or 1, along which first partners turn into each
    other. *)
Record axial (ns : list nat) (ts : list (nat * nat)) (w : nat -> R) (f3 : nat -> nat -> nat -> R)
  (f4 : nat -> nat -> nat -> nat -> R) (zeta : nat -> nat -> nat -> R) (B : nat -> R) (ax : nat) : Prop := {
  axial_w : forall a b, In (a, b) ts -> w a = w b;
  axial_nn : forall m m' a b, In m ns -> In m' ns -> In (a, b) ts -> f3 m m' a = 0 /\ f3 m m' b = 0;
  axial_n : forall m a b c d, In m ns -> In (a, b) ts -> In (c, d) ts ->
    f3 m a c = f3 m b d /\ f3 m a d = 0;
  axial_d : forall a b c d e g, In (a, b) ts -> In (c, d) ts -> In (e, g) ts ->
    f3 a d g = - f3 a c e /\ f3 a c g = 0 /\ f3 b d g = 0;
  axial_q1 : forall m a b, In m ns -> In (a, b) ts -> f4 m m a a = f4 m m b b;
  axial_q2 : forall a b, In (a, b) ts -> f4 a a a a = 3 * f4 a a b b;
  axial_q3 : forall a b c d, In (a, b) ts -> In (c, d) ts ->
    f4 a a c c = f4 b b d d /\ f4 a a d d = f4 b b c c;
  axial_z1 : forall m m', In m ns -> In m' ns -> zeta m m' 0%nat = 0 /\ zeta m m' 1%nat = 0;
  axial_z2 : forall m a b, In m ns -> In (a, b) ts ->
    zeta m a 2%nat = 0 /\ zeta m b 2%nat = 0 /\
    Rsqr (zeta m a 0%nat) + Rsqr (zeta m a 1%nat) = Rsqr (zeta m b 0%nat) + Rsqr (zeta m b 1%nat);
  axial_z3 : forall a b c d, In (a, b) ts -> In (c, d) ts ->
    zeta a c 2%nat = 0 /\ zeta b d 2%nat = 0 /\ zeta b c 2%nat = - zeta a d 2%nat;
  axial_z4 : forall a b c d, In (a, b) ts -> In (c, d) ts ->
    zeta a c (1 - ax)%nat = 0 /\ zeta b d (1 - ax)%nat = 0 /\ zeta a d ax = 0 /\ zeta b c ax = 0;
  axial_z5 : forall a b c d, In (a, b) ts -> In (c, d) ts ->
    Rsqr (zeta b d ax) = Rsqr (zeta a c ax) /\
    Rsqr (zeta a d (1 - ax)%nat) = Rsqr (zeta a c ax) /\
    Rsqr (zeta b c (1 - ax)%nat) = Rsqr (zeta a c ax);
  axial_b : B 0%nat = B 1%nat;
  axial_ax : (ax <= 1)%nat
}.

(** the angular momentum of a pair of degenerate modes, divided by the imaginary unit, and
    the mean of its square in a state *)
Definition turn (a b : nat) (psi : occ -> R) : occ -> R := fun u =>
  pos a (mom b psi) u - pos b (mom a psi) u.
Definition mean_l2 (n : nat) (v : occ) (a b : nat) : R := - turn a b (turn a b (ket n v)) v.

(** ** sums over lists *)
Lemma Rsum_filter_if {A} (p : A -> bool) (f : A -> R) l :
  Rsum (filter p l) f = Rsum l (fun a => if p a then f a else 0).
Proof.
  induction l as [|a l IH]; [reflexivity|]. cbn [filter]. rewrite Rsum_cons, <- IH.
  destruct (p a); [now rewrite Rsum_cons|lra].
Qed.

Lemma tri_list {A} (d : A) (P : A -> A -> R) (L : list A) : (forall a b, In a L -> In b L -> P a b = P b a) ->
  Rsum (seq 0 (length L)) (fun i => Rsum (seq 0 (i + 1)) (fun j => P (nth i L d) (nth j L d)))
  = / 2 * (Rsum L (fun a => Rsum L (P a)) + Rsum L (fun a => P a a)).
Proof.
  induction L as [|z L IH] using rev_ind; intros Sy; [cbn; lra|].
  rewrite app_length, Nat.add_1_r, seq_S, Rsum_app, Rsum_one. cbn [plus].
  rewrite (Rsum_ext _ (fun i => Rsum (seq 0 (i + 1)) (fun j => P (nth i L d) (nth j L d)))).
  2:{ intros i Hi. apply in_seq in Hi. apply Rsum_ext. intros j Hj. apply in_seq in Hj.
      rewrite !app_nth1 by lia. reflexivity. }
  rewrite IH by (intros; apply Sy; apply in_or_app; auto).
  rewrite Nat.add_1_r, seq_S, Rsum_app, Rsum_one. cbn [plus].
  rewrite (Rsum_ext _ (fun j => P z (nth j L d))).
  2:{ intros j Hj. apply in_seq in Hj. rewrite app_nth2, Nat.sub_diag by lia. cbn [nth].
      now rewrite app_nth1 by lia. }
  rewrite app_nth2, Nat.sub_diag by lia. cbn [nth].
  assert (E : Rsum (seq 0 (length L)) (fun j => P z (nth j L d)) = Rsum L (P z)).
  { rewrite <- (Rsum_map (fun j => nth j L d) (P z)), map_nth_seq. reflexivity. }
  rewrite E, !Rsum_app, !Rsum_one.
  rewrite (Rsum_ext (fun a => Rsum (L ++ [z]) (P a)) (fun a => Rsum L (P a) + P z a)).
  2:{ intros a Ha. rewrite Rsum_app, Rsum_one, (Sy a z) by (apply in_or_app; cbn; auto). reflexivity. }
  rewrite Rsum_plus, (Rsum_app (P z)), Rsum_one. lra.
Qed.

Lemma but_sum (L : list nat) k (f : nat -> R) : NoDup L -> In k L -> Rsum (but k L) f = Rsum L f - f k.
Proof.
  intros Nd I. unfold but. rewrite Rsum_filter_if. rewrite <- (Rsum_single f L k Nd I), <- Rsum_minus.
  apply Rsum_ext. intros l _. destruct (l =? k)%nat; cbn; lra.
Qed.

Section Below.
  Variable L : list nat.
  Hypothesis Nd : NoDup L.
  Let S (f : nat -> R) := Rsum L f.

  Lemma pick k (f : nat -> R) : In k L -> S (fun l => if (l =? k)%nat then f l else 0) = f k.
  Proof. intros I. now apply Rsum_single. Qed.

  Lemma below_pairs (P : nat -> nat -> R) : (forall a b, P a b = P b a) ->
    S (fun k => Rsum (below k L) (P k)) = / 2 * (S (fun k => S (P k)) - S (fun k => P k k)).
  Proof.
    intros Sy.
    assert (E1 : S (fun k => Rsum (below k L) (P k)) = S (fun k => S (fun l => if (l <? k)%nat then P k l else 0))).
    { apply Rsum_ext. intros k _. apply Rsum_filter_if. }
    assert (E2 : S (fun k => S (fun l => if (k <? l)%nat then P k l else 0))
               = S (fun k => S (fun l => if (l <? k)%nat then P k l else 0))).
    { unfold S. rewrite Rsum_swap. apply Rsum_ext. intros k _. apply Rsum_ext. intros l _.
      rewrite (Sy k l). reflexivity. }
    assert (E3 : S (fun k => S (fun l => if (l =? k)%nat then P k l else 0)) = S (fun k => P k k)).
    { apply Rsum_ext. intros k I. now rewrite (pick k (P k)). }
    assert (E4 : S (fun k => S (P k)) =
      S (fun k => S (fun l => if (l <? k)%nat then P k l else 0))
      + S (fun k => S (fun l => if (k <? l)%nat then P k l else 0))
      + S (fun k => S (fun l => if (l =? k)%nat then P k l else 0))).
    { unfold S. rewrite <- !Rsum_plus. apply Rsum_ext. intros k _. rewrite <- !Rsum_plus. apply Rsum_ext.
      intros l _. destruct (Nat.ltb_spec l k), (Nat.ltb_spec k l), (Nat.eqb_spec l k); try lia; lra. }
    rewrite E1. lra.
  Qed.

  Definition ord (k l m : nat) : bool := (l <? k)%nat && (m <? l)%nat.
  Lemma below_triples (T : nat -> nat -> nat -> R) :
    (forall a b c, T a b c = T b a c) -> (forall a b c, T a b c = T a c b) ->
    S (fun k => Rsum (below k L) (fun l => Rsum (below l L) (T k l))) =
    / 6 * (S (fun k => S (fun l => S (T k l))) - 3 * S (fun k => S (fun l => T k k l)) + 2 * S (fun k => T k k k)).
  Proof.
    intros S1 S2.
    set (I := fun p : nat -> nat -> nat -> bool => S (fun k => S (fun l => S (fun m => if p k l m then T k l m else 0)))).
    assert (E1 : S (fun k => Rsum (below k L) (fun l => Rsum (below l L) (T k l))) = I ord).
    { apply Rsum_ext. intros k _. etransitivity; [apply (Rsum_filter_if _ (fun l => Rsum (below l L) (T k l)) L)|].
      apply Rsum_ext. intros l _.
      unfold ord. destruct (l <? k)%nat; cbn [andb].
      - unfold below. apply Rsum_filter_if.
      - symmetry. now apply Rsum_0. }
    assert (W1 : forall p, I (fun k l m => p l k m) = I p).
    { intros p. unfold I, S. rewrite Rsum_swap. apply Rsum_ext. intros l _. apply Rsum_ext. intros k _.
      apply Rsum_ext. intros m _. now rewrite (S1 k l m). }
    assert (W2 : forall p, I (fun k l m => p k m l) = I p).
    { intros p. unfold I, S. apply Rsum_ext. intros k _. rewrite Rsum_swap. apply Rsum_ext. intros m _.
      apply Rsum_ext. intros l _. now rewrite (S2 k l m). }
    assert (D : I (fun k l m => (m =? l)%nat) = S (fun k => S (fun l => T k k l))).
    { rewrite <- (W1 (fun k l m => (m =? l)%nat)), <- (W2 (fun k l m => (m =? k)%nat)).
      unfold I. apply Rsum_ext. intros k Hk.
      transitivity (S (fun l => if (l =? k)%nat then S (T k l) else 0)).
      { apply Rsum_ext. intros l _. destruct (l =? k)%nat; [reflexivity|]. now apply Rsum_0. }
      now rewrite (pick k (fun l => S (T k l))). }
    assert (DD : I (fun k l m => (l =? k)%nat && (m =? l)%nat) = S (fun k => T k k k)).
    { unfold I. apply Rsum_ext. intros k Hk.
      transitivity (S (fun l => if (l =? k)%nat then S (fun m => if (m =? k)%nat then T k l m else 0) else 0)).
      { apply Rsum_ext. intros l _. destruct (Nat.eqb_spec l k) as [->|]; cbn [andb]; [reflexivity|]. now apply Rsum_0. }
      rewrite (pick k (fun l => S (fun m => if (m =? k)%nat then T k l m else 0))) by exact Hk.
      now rewrite (pick k (T k k)). }
    pose proof (W1 (fun k l m => (m =? l)%nat)) as D1. cbv beta in D1.
    pose proof (W2 (fun k l m => (m =? k)%nat)) as D2. cbv beta in D2.
    assert (A : S (fun k => S (fun l => S (T k l))) =
      I ord + I (fun k l m => ord k m l) + I (fun k l m => ord l k m) + I (fun k l m => ord l m k)
      + I (fun k l m => ord m k l) + I (fun k l m => ord m l k)
      + I (fun k l m => (m =? l)%nat) + I (fun k l m => (m =? k)%nat) + I (fun k l m => (l =? k)%nat)
      - 2 * I (fun k l m => (l =? k)%nat && (m =? l)%nat)).
    { unfold I, S. rewrite <- !Rsum_scal, <- !Rsum_plus, <- Rsum_minus. apply Rsum_ext. intros k _.
      rewrite <- !Rsum_scal, <- !Rsum_plus, <- Rsum_minus. apply Rsum_ext. intros l _.
      rewrite <- !Rsum_scal, <- !Rsum_plus, <- Rsum_minus. apply Rsum_ext. intros m _.
      unfold ord.
      destruct (Nat.ltb_spec l k), (Nat.ltb_spec k l), (Nat.eqb_spec l k); try lia;
      destruct (Nat.ltb_spec m l), (Nat.ltb_spec l m), (Nat.eqb_spec m l); try lia;
      destruct (Nat.ltb_spec m k), (Nat.ltb_spec k m), (Nat.eqb_spec m k); try lia; cbn [andb]; lra. }
    rewrite (W2 ord), (W1 ord) in A.
    assert (O1 : I (fun k l m => ord l m k) = I ord).
    { rewrite (W1 (fun k l m => ord k m l)). apply (W2 ord). }
    assert (O2 : I (fun k l m => ord m k l) = I ord).
    { rewrite (W2 (fun k l m => ord l k m)). apply (W1 ord). }
    assert (O3 : I (fun k l m => ord m l k) = I ord).
    { rewrite <- O1. rewrite <- (W1 (fun k l m => ord m k l)) in O2. cbv beta in O2. rewrite O1. exact O2. }
    rewrite O1, O2, O3, DD, D2, D1, D in A.
    rewrite E1. lra.
  Qed.
End Below.

Lemma pair_facts (l : list (nat * nat)) p q : NoDup (flat_map (fun '(a, b) => [a; b]) l) ->
  In p l -> In q l -> fst p <> snd q /\ (snd p = snd q -> p = q).
Proof.
  assert (F : forall (p : nat * nat) l, In p l -> In (fst p) (flat_map (fun '(a, b) => [a; b]) l) /\
    In (snd p) (flat_map (fun '(a, b) => [a; b]) l)).
  { intros [a b] l0 I. split; apply in_flat_map; exists (a, b); cbn; auto. }
  induction l as [|[a b] l IH]; [intros _ []|]. cbn [flat_map app]. intros Nd Hp Hq.
  apply NoDup_cons_iff in Nd as [Na Nd]. apply NoDup_cons_iff in Nd as [Nb Nd].
  destruct Hp as [<-|Hp], Hq as [<-|Hq]; cbn [fst snd].
  - split; [intros ->; apply Na; now left|reflexivity].
  - destruct (F q l Hq) as [F1 F2]. split; intros E.
    + apply Na. right. now rewrite E.
    + exfalso. apply Nb. now rewrite E.
  - destruct (F p l Hp) as [F1 F2]. split; intros E.
    + apply Nb. now rewrite <- E.
    + exfalso. apply Nb. now rewrite <- E.
  - now apply IH.
Qed.

(** ** sums over all modes *)
Section Field.
  Variables (n : nat) (ns : list nat) (ts : list (nat * nat)).
  Variables (w : nat -> R) (f3 : nat -> nat -> nat -> R) (f4 : nat -> nat -> nat -> nat -> R)
    (zeta : nat -> nat -> nat -> R) (B : nat -> R) (ax : nat).
  Hypothesis Hpart : Permutation (ns ++ flat_map (fun '(a, b) => [a; b]) ts) (seq 0 n).
  Hypothesis Hax : axial ns ts w f3 f4 zeta B ax.
  Hypothesis f3a : forall i j k, f3 i j k = f3 j i k.
  Hypothesis f3b : forall i j k, f3 i j k = f3 i k j.
  Hypothesis f4a : forall i j k l, f4 i j k l = f4 j i k l.
  Hypothesis f4b : forall i j k l, f4 i j k l = f4 i k j l.
  Hypothesis f4c : forall i j k l, f4 i j k l = f4 i j l k.
  Hypothesis za : forall i j a, zeta i j a = - zeta j i a.
  Hypothesis wpos : forall i, (i < n)%nat -> 0 < w i.

  Notation fs := (map fst ts).
  Let S (f : nat -> R) := Rsum (seq 0 n) f.
  Let N (f : nat -> R) := Rsum ns f.
  Let D (f : nat -> R) := Rsum ts (fun p => f (fst p)).
  Let D' (f : nat -> R) := Rsum ts (fun p => f (snd p)).

  Lemma S_split f : S f = N f + D f + D' f.
  Proof.
    unfold S, N, D, D'. rewrite <- (Rsum_perm f _ _ Hpart), Rsum_app, Rplus_assoc. f_equal.
    rewrite <- Rsum_plus. clear. induction ts as [|[a b] l IH]; [reflexivity|].
    cbn [flat_map app]. rewrite !Rsum_cons, IH. cbn [fst snd]. lra.
  Qed.
  Lemma part_nd : NoDup (ns ++ flat_map (fun '(a, b) => [a; b]) ts).
  Proof. apply (Permutation_NoDup (Permutation_sym Hpart)), seq_NoDup. Qed.
  Lemma ns_nd : NoDup ns.
  Proof. pose proof part_nd as H. now apply NoDup_app_inv in H as (H & _ & _). Qed.
  Lemma ts_nd : NoDup (flat_map (fun '(a, b) => [a; b]) ts).
  Proof. pose proof part_nd as H. now apply NoDup_app_inv in H as (_ & H & _). Qed.
  Lemma fs_in (l : list (nat * nat)) a : In a (map fst l) -> In a (flat_map (fun '(a, b) => [a; b]) l).
  Proof.
    intros I. apply in_map_iff in I as ([x y] & <- & I). apply in_flat_map. exists (x, y). cbn. auto.
  Qed.
  Lemma fs_nd : NoDup fs.
  Proof.
    pose proof ts_nd as H. clear - H. induction ts as [|[a b] l IH]; cbn [map fst]; constructor.
    - cbn [flat_map app] in H. inversion H as [|? ? Q _]; subst. intros I. apply Q. right. now apply fs_in.
    - cbn [flat_map app] in H. inversion H as [|? ? _ H']; subst. inversion H' as [|? ? _ H'']; subst. auto.
  Qed.
  Lemma ns_n m : In m ns -> (m < n)%nat.
  Proof.
    intros I. apply (in_seq n 0 m). apply (Permutation_in m Hpart), in_app_iff. now left.
  Qed.
  Lemma ts_n a b : In (a, b) ts -> (a < n)%nat /\ (b < n)%nat.
  Proof.
    intros I. split; apply (in_seq n 0); apply (Permutation_in _ Hpart), in_app_iff; right;
      apply in_flat_map; exists (a, b); cbn; auto.
  Qed.
  Lemma wab a b : In (a, b) ts -> w b = w a.
  Proof. intros I. symmetry. now apply (axial_w _ _ _ _ _ _ _ _ Hax). Qed.

  (** ** cubic constants *)
  Ltac hyp := destruct Hax as [Aw Ann An Ad _ _ _ _ _ _ _ _ _ _].
  Lemma c_nna m m' p : In m ns -> In m' ns -> In p ts -> f3 m m' (fst p) = 0 /\ f3 m m' (snd p) = 0.
  Proof. hyp. destruct p as [a b]. cbn. apply Ann. Qed.
  Lemma c_naa m p q : In m ns -> In p ts -> In q ts ->
    f3 m (snd p) (snd q) = f3 m (fst p) (fst q) /\ f3 m (fst p) (snd q) = 0 /\ f3 m (snd p) (fst q) = 0.
  Proof.
    hyp. destruct p as [a b], q as [c d]. cbn. intros Hm Hp Hq.
    destruct (An m a b c d) as [E1 E2]; auto. destruct (An m c d a b) as [E3 E4]; auto.
    rewrite (f3b m b c). auto.
  Qed.
  Lemma c_aaa p q r : In p ts -> In q ts -> In r ts ->
    f3 (fst p) (snd q) (snd r) = - f3 (fst p) (fst q) (fst r) /\
    f3 (snd p) (fst q) (snd r) = - f3 (fst p) (fst q) (fst r) /\
    f3 (snd p) (snd q) (fst r) = - f3 (fst p) (fst q) (fst r) /\
    f3 (fst p) (fst q) (snd r) = 0 /\ f3 (fst p) (snd q) (fst r) = 0 /\ f3 (snd p) (fst q) (fst r) = 0 /\
    f3 (snd p) (snd q) (snd r) = 0.
  Proof.
    hyp. destruct p as [a b], q as [c d], r as [e g]. cbn. intros Hp Hq Hr.
    destruct (Ad a b c d e g) as (E1 & E2 & E3); auto.
    destruct (Ad c d a b e g) as (F1 & _); auto.
    destruct (Ad e g a b c d) as (G1 & _ & _); auto.
    destruct (Ad a b e g c d) as (_ & H2 & _); auto.
    destruct (Ad c d e g a b) as (_ & I2 & _); auto.
    rewrite E1, (f3a b c g), F1, (f3b b d e), (f3a b e d), G1, E2, E3, (f3b a d e), H2, (f3a b c e), (f3b c b e), I2.
    rewrite (f3a c a e), (f3a e a c), (f3b a e c). auto 10.
  Qed.

  (** a function of three modes that vanishes with their cubic constant and depends only
      on its square and on the frequencies *)
  Section Triple.
    Variable phi : R -> R -> R -> R -> R.
    Hypothesis phi0 : forall x y z, phi 0 x y z = 0.
    Let T (k l m : nat) : R := phi (Rsqr (f3 k l m)) (w k) (w l) (w m).

    Lemma T0 k l m : f3 k l m = 0 -> T k l m = 0.
    Proof. intros E. unfold T. rewrite E, Rsqr_0. apply phi0. Qed.
    Lemma D0 (f : nat -> R) : (forall p, In p ts -> f (fst p) = 0) -> D f = 0.
    Proof. intros E. now apply Rsum_0. Qed.
    Lemma D0' (f : nat -> R) : (forall p, In p ts -> f (snd p) = 0) -> D' f = 0.
    Proof. intros E. now apply Rsum_0. Qed.
    Lemma N0 (f : nat -> R) : (forall m, In m ns -> f m = 0) -> N f = 0.
    Proof. intros E. now apply Rsum_0. Qed.
    Lemma Dext (f g : nat -> R) : (forall p, In p ts -> f (fst p) = g (fst p)) -> D f = D g.
    Proof. intros E. now apply Rsum_ext. Qed.
    Lemma Dext' (f g : nat -> R) : (forall p, In p ts -> f (snd p) = g (fst p)) -> D' f = D g.
    Proof. intros E. now apply Rsum_ext. Qed.
    Lemma Next (f g : nat -> R) : (forall m, In m ns -> f m = g m) -> N f = N g.
    Proof. intros E. now apply Rsum_ext. Qed.
    Lemma Teq k l m k' l' m' : Rsqr (f3 k l m) = Rsqr (f3 k' l' m') -> w k = w k' -> w l = w l' -> w m = w m' ->
      T k l m = T k' l' m'.
    Proof. intros E E1 E2 E3. unfold T. now rewrite E, E1, E2, E3. Qed.
    Lemma D_plus (f g : nat -> R) : D (fun l => f l + g l) = D f + D g.
    Proof. apply Rsum_plus. Qed.
    Lemma D_scal c (f : nat -> R) : D (fun l => c * f l) = c * D f.
    Proof. apply Rsum_scal. Qed.
    Lemma N_plus (f g : nat -> R) : N (fun l => f l + g l) = N f + N g.
    Proof. apply Rsum_plus. Qed.
    Lemma N_scal c (f : nat -> R) : N (fun l => c * f l) = c * N f.
    Proof. apply Rsum_scal. Qed.
    Lemma wp p : In p ts -> w (snd p) = w (fst p).
    Proof. destruct p. apply wab. Qed.
    Ltac weq := first [reflexivity|now apply wp].

    Lemma T_nn m m' : In m ns -> In m' ns -> S (T m m') = N (T m m').
    Proof.
      intros H H'. rewrite S_split, D0, D0'; [lra| |]; intros p Hp; apply T0; now apply c_nna.
    Qed.
    Lemma T_na m p : In m ns -> In p ts -> S (T m (fst p)) = D (T m (fst p)).
    Proof.
      intros H Hp. rewrite S_split, N0, D0'; [lra| |].
      - intros q Hq. apply T0. now apply c_naa.
      - intros m' H'. apply T0. rewrite f3b. now apply c_nna.
    Qed.
    Lemma T_nb m p : In m ns -> In p ts -> S (T m (snd p)) = D (T m (fst p)).
    Proof.
      intros H Hp. rewrite S_split, N0, D0.
      - rewrite (Dext' _ (T m (fst p))); [lra|]. intros q Hq.
        apply Teq; [|weq ..]. now rewrite (proj1 (c_naa m p q H Hp Hq)).
      - intros q Hq. apply T0. now apply c_naa.
      - intros m' H'. apply T0. rewrite f3b. now apply c_nna.
    Qed.
    Lemma T_aa p q : In p ts -> In q ts -> S (T (fst p) (fst q)) = N (T (fst p) (fst q)) + D (T (fst p) (fst q)).
    Proof.
      intros Hp Hq. rewrite S_split, D0'; [lra|]. intros r Hr. apply T0. now apply c_aaa.
    Qed.
    Lemma T_bb p q : In p ts -> In q ts -> S (T (snd p) (snd q)) = N (T (fst p) (fst q)) + D (T (fst p) (fst q)).
    Proof.
      intros Hp Hq. rewrite S_split, D0'; [|intros r Hr; apply T0; now apply c_aaa].
      rewrite (Next _ (T (fst p) (fst q))), (Dext _ (T (fst p) (fst q))); [lra| |].
      - intros r Hr. destruct (c_aaa p q r) as (_ & _ & E & _); auto.
        apply Teq; [|weq ..]. rewrite E. now rewrite <- Rsqr_neg.
      - intros m Hm. apply Teq; [|weq ..].
        rewrite !(f3b _ _ m), !(f3a _ m). now rewrite (proj1 (c_naa m p q Hm Hp Hq)).
    Qed.
    Lemma T_ab p q : In p ts -> In q ts -> S (T (fst p) (snd q)) = D (T (fst p) (fst q)).
    Proof.
      intros Hp Hq. rewrite S_split, N0, D0, (Dext' _ (T (fst p) (fst q))); [lra| | |].
      - intros r Hr. destruct (c_aaa p q r) as (E & _); auto.
        apply Teq; [|weq ..]. rewrite E. now rewrite <- Rsqr_neg.
      - intros r Hr. apply T0. now apply c_aaa.
      - intros m Hm. apply T0. rewrite (f3b _ _ m), (f3a _ m). now apply c_naa.
    Qed.
    Lemma T_ba p q : In p ts -> In q ts -> S (T (snd p) (fst q)) = D (T (fst p) (fst q)).
    Proof.
      intros Hp Hq. rewrite S_split, N0, D0, (Dext' _ (T (fst p) (fst q))); [lra| | |].
      - intros r Hr. destruct (c_aaa p q r) as (_ & E & _); auto.
        apply Teq; [|weq ..]. rewrite E. now rewrite <- Rsqr_neg.
      - intros r Hr. apply T0. now apply c_aaa.
      - intros m Hm. apply T0. rewrite (f3b _ _ m), (f3a _ m). now apply c_naa.
    Qed.

    Hypothesis phia : forall q x y z, phi q x y z = phi q y x z.
    Hypothesis phib : forall q x y z, phi q x y z = phi q x z y.
    Lemma Ta k l m : T k l m = T l k m.
    Proof. unfold T. now rewrite phia, (f3a k l m). Qed.
    Lemma Tb k l m : T k l m = T k m l.
    Proof. unfold T. now rewrite phib, (f3b k l m). Qed.

    Lemma sum_triple :
      S (fun k => S (fun l => S (T k l)))
      = N (fun k => N (fun l => N (T k l))) + 6 * D (fun k => D (fun l => N (T k l)))
        + 4 * D (fun k => D (fun l => D (T k l))).
    Proof.
      rewrite S_split.
      rewrite (Next _ (fun k => N (fun l => N (T k l)) + 2 * D (fun l => D (T k l)))).
      2:{ intros m Hm. rewrite S_split.
          rewrite (Next _ (fun l => N (T m l))) by (intros; now apply T_nn).
          rewrite (Dext _ (fun l => D (T m l))) by (intros; now apply T_na).
          rewrite (Dext' _ (fun l => D (T m l))) by (intros; now apply T_nb). lra. }
      rewrite (Dext _ (fun k => 2 * D (fun l => N (T k l)) + 2 * D (fun l => D (T k l)))).
      2:{ intros p Hp. rewrite S_split.
          rewrite (Next _ (fun l => D (T l (fst p)))).
          2:{ intros m Hm. rewrite <- T_na by assumption. apply Rsum_ext. intros; apply Ta. }
          rewrite (Dext _ (fun l => N (T (fst p) l) + D (T (fst p) l))) by (intros; now apply T_aa).
          rewrite (Dext' _ (fun l => D (T (fst p) l))) by (intros; now apply T_ab).
          replace (N (fun l => D (T l (fst p)))) with (D (fun l => N (T (fst p) l))).
          2:{ unfold D, N. rewrite Rsum_swap. apply Rsum_ext. intros m _. apply Rsum_ext. intros q _.
              now rewrite (Tb (fst p) _ m), (Ta (fst p) m). }
          rewrite D_plus. lra. }
      rewrite (Dext' _ (fun k => 2 * D (fun l => N (T k l)) + 2 * D (fun l => D (T k l)))).
      2:{ intros p Hp. rewrite S_split.
          rewrite (Next _ (fun l => D (T l (fst p)))).
          2:{ intros m Hm. rewrite <- T_nb by assumption. apply Rsum_ext. intros; apply Ta. }
          rewrite (Dext _ (fun l => D (T (fst p) l))) by (intros; now apply T_ba).
          rewrite (Dext' _ (fun l => N (T (fst p) l) + D (T (fst p) l))) by (intros; now apply T_bb).
          replace (N (fun l => D (T l (fst p)))) with (D (fun l => N (T (fst p) l))).
          2:{ unfold D, N. rewrite Rsum_swap. apply Rsum_ext. intros m _. apply Rsum_ext. intros q _.
              now rewrite (Tb (fst p) _ m), (Ta (fst p) m). }
          rewrite D_plus. lra. }
      rewrite N_plus, N_scal, !D_plus, !D_scal.
      replace (N (fun a => D (fun l => D (T a l)))) with (D (fun k => D (fun l => N (T k l)))); [lra|].
      unfold D, N. rewrite (Rsum_swap _ ns ts). apply Rsum_ext. intros p _.
      rewrite (Rsum_swap _ ns ts). apply Rsum_ext. intros q _. apply Rsum_ext. intros m _.
      now rewrite (Tb _ _ m), (Ta _ m).
    Qed.
  End Triple.

  (** ** E0 *)
  Section E0.
    Let psi (q x y : R) : R := q * (1 / (2 * x - y) - 1 / (2 * x + y)).
    Let chi (q y : R) : R := q / y.
    Let phi (q x y z : R) : R :=
      q / 4 * ((1 / (x + y + z) - 1 / (x + z - y) - 1 / (x + y - z) - 1 / (y + z - x)) / 8).
    Let T (k l m : nat) : R := phi (Rsqr (f3 k l m)) (w k) (w l) (w m).
    Let P (k l : nat) : R := psi (Rsqr (f3 k k l)) (w k) (w l).
    Let Q (k l : nat) : R := chi (Rsqr (f3 k k l)) (w l).

    Lemma phi_a q x y z : phi q x y z = phi q y x z.
    Proof.
      unfold phi. replace (y + x + z) with (x + y + z) by ring. replace (y + x - z) with (x + y - z) by ring.
      unfold Rdiv. ring.
    Qed.
    Lemma phi_b q x y z : phi q x y z = phi q x z y.
    Proof.
      unfold phi. replace (x + z + y) with (x + y + z) by ring. replace (z + y - x) with (y + z - x) by ring.
      unfold Rdiv. ring.
    Qed.
    Lemma T_two k l : T k k l = - P k l / 32 - Q k l / 16.
    Proof.
      unfold T, P, Q, phi, psi, chi. replace (w k + w k + w l) with (2 * w k + w l) by ring.
      replace (w k + w l - w k) with (w l) by ring. replace (w k + w k - w l) with (2 * w k - w l) by ring.
      replace (Rsqr (f3 k k l) / w l) with (Rsqr (f3 k k l) * (1 / w l)) by (unfold Rdiv; ring).
      set (i1 := 1 / (2 * w k + w l)). set (i2 := 1 / w l). set (i3 := 1 / (2 * w k - w l)).
      clearbody i1 i2 i3. field.
    Qed.

    Lemma two_sum (p : R -> R -> R -> R) : (forall x y, p 0 x y = 0) ->
      let W := fun k l => p (Rsqr (f3 k k l)) (w k) (w l) in
      S (fun k => S (W k)) = N (fun k => N (W k)) + 2 * D (fun k => N (W k)) + 2 * D (fun k => D (W k)).
    Proof.
      intros p0 W. set (ph := fun q x (_ z : R) => p q x z).
      assert (ph0 : forall x y z, ph 0 x y z = 0) by (intros; apply p0).
      rewrite S_split.
      rewrite (Next _ (fun k => N (W k))) by (intros m Hm; apply (T_nn ph ph0 m m Hm Hm)).
      rewrite (Dext _ (fun k => N (W k) + D (W k))) by (intros r Hr; apply (T_aa ph ph0 r r Hr Hr)).
      rewrite (Dext' _ (fun k => N (W k) + D (W k))) by (intros r Hr; apply (T_bb ph ph0 r r Hr Hr)).
      rewrite D_plus. lra.
    Qed.
    Lemma diag_sum (p : R -> R -> R) : (forall x, p 0 x = 0) ->
      let W := fun k => p (Rsqr (f3 k k k)) (w k) in S W = N W + D W.
    Proof.
      intros p0 W. rewrite S_split, D0'; [lra|]. intros r Hr. unfold W.
      destruct (c_aaa r r r) as (_ & _ & _ & _ & _ & _ & E); auto. rewrite E, Rsqr_0. apply p0.
    Qed.
    Lemma f4_sum : S (fun k => f4 k k k k) = N (fun k => f4 k k k k) + 2 * D (fun k => f4 k k k k).
    Proof.
      rewrite S_split, (Dext' _ (fun k => f4 k k k k)); [lra|]. intros [a b] I.
      destruct (axial_q3 _ _ _ _ _ _ _ _ Hax a b a b I I) as [E _]. cbn. now rewrite E.
    Qed.

    Let q4 (k : nat) : R := f4 k k k k.
    Let q1 (k : nat) : R := Rsqr (f3 k k k) / w k.
    Lemma Pkk k : (k < n)%nat -> P k k = 2 / 3 * q1 k.
    Proof. intros Hk. pose proof (wpos k Hk). unfold P, psi, q1. field. lra. Qed.
    Lemma Tkk k : (k < n)%nat -> T k k k = - q1 k / 12.
    Proof. intros Hk. rewrite T_two, Pkk by exact Hk. change (Q k k) with (q1 k). field. Qed.
    Lemma gfrac_T k l m : Rsqr (f3 k l m) / 4 * gfrac w none k l m = T k l m.
    Proof. reflexivity. Qed.
    Lemma pole_P k l : Rsqr (f3 k k l) * pole w none k l = P k l.
    Proof. reflexivity. Qed.

    Lemma two_T (L : list nat) :
      Rsum L (fun k => Rsum L (fun l => T k k l))
      = - Rsum L (fun k => Rsum L (P k)) / 32 - Rsum L (fun k => Rsum L (Q k)) / 16.
    Proof.
      rewrite (Rsum_ext _ (fun k => - / 32 * Rsum L (P k) - / 16 * Rsum L (Q k))).
      - rewrite Rsum_minus, !Rsum_scal. lra.
      - intros k _. rewrite <- !Rsum_scal, <- Rsum_minus. apply Rsum_ext. intros l _. rewrite T_two. lra.
    Qed.

    Lemma triples (L : list nat) : NoDup L -> (forall k, In k L -> (k < n)%nat) ->
      Rsum L (fun k => Rsum (below k L) (fun l => Rsum (below l L) (T k l)))
      = / 6 * (Rsum L (fun k => Rsum L (fun l => Rsum L (T k l)))
               - 3 * (- Rsum L (fun k => Rsum L (P k)) / 32 - Rsum L (fun k => Rsum L (Q k)) / 16)
               - Rsum L q1 / 6).
    Proof.
      intros Nd HL. rewrite (below_triples L Nd T (Ta phi phi_a) (Tb phi phi_b)), two_T.
      rewrite (Rsum_ext (fun k => T k k k) (fun k => - / 12 * q1 k)).
      - rewrite Rsum_scal. lra.
      - intros k I. rewrite Tkk by auto. lra.
    Qed.
    Lemma pairs_but (L : list nat) : NoDup L -> (forall k, In k L -> (k < n)%nat) ->
      Rsum L (fun k => Rsum (but k L) (P k)) = Rsum L (fun k => Rsum L (P k)) - 2 / 3 * Rsum L q1.
    Proof.
      intros Nd HL. rewrite <- Rsum_scal, <- Rsum_minus. apply Rsum_ext. intros k I.
      rewrite but_sum, Pkk by auto. reflexivity.
    Qed.

    Lemma se_n_value (L : list nat) : NoDup L -> (forall k, In k L -> (k < n)%nat) ->
      se_n f4 w f3 none L =
        Rsum L q4 / 64 - 7 / 576 * Rsum L q1
        + 3 / 128 * (Rsum L (fun k => Rsum L (P k)) - 2 / 3 * Rsum L q1)
        - / 6 * (Rsum L (fun k => Rsum L (fun l => Rsum L (T k l)))
               - 3 * (- Rsum L (fun k => Rsum L (P k)) / 32 - Rsum L (fun k => Rsum L (Q k)) / 16)
               - Rsum L q1 / 6).
    Proof.
      intros Nd HL. unfold se_n. rewrite <- (triples L Nd HL), <- (pairs_but L Nd HL).
      assert (A1 : Rsum L (fun k => f4 k k k k / 64) = Rsum L q4 / 64) by apply Rsum_scal_r.
      assert (A2 : Rsum L (fun k => 7 * Rsqr (f3 k k k) / (576 * w k)) = 7 / 576 * Rsum L q1).
      { rewrite <- Rsum_scal. apply Rsum_ext. intros k I. unfold q1. pose proof (wpos k (HL k I)). field. lra. }
      assert (A3 : Rsum L (fun k => Rsum (but k L) (fun l => 3 / 128 * Rsqr (f3 k k l) * pole w none k l))
                 = 3 / 128 * Rsum L (fun k => Rsum (but k L) (P k))).
      { rewrite <- Rsum_scal. apply Rsum_ext. intros k _. rewrite <- Rsum_scal. apply Rsum_ext. intros l _.
        rewrite <- pole_P. ring. }
      rewrite A1, A2, A3. reflexivity.
    Qed.
    Lemma spec_e0_n : spec_e0 n f4 w f3 none = se_n f4 w f3 none (seq 0 n).
    Proof.
      unfold spec_e0, se_n. f_equal; [f_equal|].
      - apply Rsum_ext. intros k Hk. unfold but. rewrite Rsum_filter_if. apply Rsum_ext. intros l _.
        destruct (l =? k)%nat; reflexivity.
      - apply Rsum_ext. intros k Hk. apply in_seq in Hk. replace (below k (seq 0 n)) with (seq 0 k) by (symmetry; apply filter_lt_seq; lia).
        apply Rsum_ext. intros l Hl. apply in_seq in Hl. replace (below l (seq 0 n)) with (seq 0 l) by (symmetry; apply filter_lt_seq; lia).
        apply Rsum_ext. intros m _. unfold gfrac, Rsqr.
        match goal with |- _ * _ * ?Y = _ => set (y := Y); clearbody y end. field.
    Qed.

    Lemma D_fs (f : nat -> R) : Rsum fs f = D f.
    Proof. apply Rsum_map. Qed.
    Lemma fs_n k : In k fs -> (k < n)%nat.
    Proof. intros I. apply in_map_iff in I as ([a b] & <- & I). now apply ts_n in I. Qed.

    Lemma e0_lemma :
      spec_sym_e0 f4 w f3 none ns fs
      = spec_e0 n f4 w f3 none
        + / 2 * Rsum ts (fun p => sg_dd1 f4 w f3 zeta B none ns ts (fst p) (snd p)
                                  - B 2%nat * Rsqr (zeta (fst p) (snd p) 2%nat)).
    Proof.
      assert (phi0 : forall x y z, phi 0 x y z = 0) by (intros; unfold phi; unfold Rdiv; ring).
      assert (psi0 : forall x y, psi 0 x y = 0) by (intros; unfold psi; ring).
      assert (chi0 : forall x, chi 0 x = 0) by (intros; unfold chi, Rdiv; ring).
      rewrite spec_e0_n, se_n_value by (try apply seq_NoDup; intros k Hk; apply in_seq in Hk; lia).
      assert (X1 : Rsum (seq 0 n) q4 = N q4 + 2 * D q4) by exact f4_sum.
      assert (X2 : Rsum (seq 0 n) q1 = N q1 + D q1) by exact (diag_sum chi chi0).
      assert (X3 : Rsum (seq 0 n) (fun k => Rsum (seq 0 n) (P k))
        = N (fun k => N (P k)) + 2 * D (fun k => N (P k)) + 2 * D (fun k => D (P k))) by exact (two_sum psi psi0).
      assert (X4 : Rsum (seq 0 n) (fun k => Rsum (seq 0 n) (Q k))
        = N (fun k => N (Q k)) + 2 * D (fun k => N (Q k)) + 2 * D (fun k => D (Q k)))
        by exact (two_sum (fun q _ y => chi q y) (fun _ y => chi0 y)).
      assert (X5 : Rsum (seq 0 n) (fun k => Rsum (seq 0 n) (fun l => Rsum (seq 0 n) (T k l)))
        = N (fun k => N (fun l => N (T k l))) + 6 * D (fun k => D (fun l => N (T k l)))
          + 4 * D (fun k => D (fun l => D (T k l)))) by exact (sum_triple phi phi0 phi_a phi_b).
      rewrite X1, X2, X3, X4, X5.
      assert (Hn : se_n f4 w f3 none ns = N q4 / 64 - 7 / 576 * N q1
        + 3 / 128 * (N (fun k => N (P k)) - 2 / 3 * N q1)
        - / 6 * (N (fun k => N (fun l => N (T k l)))
               - 3 * (- N (fun k => N (P k)) / 32 - N (fun k => N (Q k)) / 16) - N q1 / 6))
        by exact (se_n_value ns ns_nd ns_n).
      unfold spec_sym_e0. rewrite Hn.
      assert (Hd : se_d f4 w f3 none ns fs = D q4 / 48 + 11 / 144 * D q1 + D (fun k => N (P k)) / 32).
      { unfold se_d. rewrite !D_fs.
        assert (A1 : D (fun k => f4 k k k k / 48) = D q4 / 48) by apply Rsum_scal_r.
        assert (A2 : D (fun k => 11 * Rsqr (f3 k k k) / (144 * w k)) = 11 / 144 * D q1).
        { rewrite <- D_scal. apply Dext. intros [a b] I. unfold q1. pose proof (wpos a (proj1 (ts_n a b I))).
          cbn [fst]. field. lra. }
        assert (A3 : D (fun k => Rsum ns (fun l => Rsqr (f3 k k l) / 32 * pole w none k l)) = / 32 * D (fun k => N (P k))).
        { rewrite <- D_scal. apply Dext. intros p Hp. unfold N. rewrite <- Rsum_scal. apply Rsum_ext. intros l _.
          rewrite <- pole_P. unfold Rdiv. ring. }
        rewrite A1, A2, A3. lra. }
      assert (Hdd : se_dd w f3 none fs = D (fun k => D (Q k)) / 8 - D q1 / 8
                      + 3 / 32 * (D (fun k => D (P k)) - 2 / 3 * D q1)).
      { unfold se_dd. rewrite D_fs.
        rewrite (Dext _ (fun k => / 8 * (Rsum fs (Q k) - Q k k) + 3 / 32 * (Rsum fs (P k) - P k k))).
        2:{ intros p Hp. assert (I : In (fst p) fs) by now apply in_map.
            rewrite <- !but_sum by (exact I || apply fs_nd). rewrite <- !Rsum_scal, <- Rsum_plus.
            apply Rsum_ext. intros l _. rewrite <- pole_P. unfold Q, chi. unfold Rdiv.
            set (y := pole _ _ _ _). clearbody y. set (i := / w l). clearbody i. field. }
        rewrite D_plus, !D_scal.
        rewrite (Dext (fun k => Rsum fs (Q k) - Q k k) (fun k => D (Q k) + - 1 * q1 k)).
        2:{ intros p _. rewrite D_fs. change (Q (fst p) (fst p)) with (q1 (fst p)). lra. }
        rewrite (Dext (fun k => Rsum fs (P k) - P k k) (fun k => D (P k) + - (2 / 3) * q1 k)).
        2:{ intros p Hp. rewrite D_fs, Pkk by (apply fs_n, in_map, Hp). lra. }
        rewrite !D_plus, !D_scal. lra. }
      assert (Hddn : Rsum fs (se_ddn w f3 none ns fs) = D (fun k => D (fun l => N (T k l)))
          + D (fun k => N (P k)) / 32 + D (fun k => N (Q k)) / 16).
      { unfold se_ddn.
        rewrite (Rsum_ext _ (fun k => Rsum (below k fs) (fun l => 2 * N (T k l)))).
        2:{ intros k _. apply Rsum_ext. intros l _. unfold N. rewrite <- Rsum_scal. apply Rsum_ext. intros m _.
            rewrite <- gfrac_T. field. }
        rewrite (below_pairs fs fs_nd (fun k l => 2 * N (T k l))).
        2:{ intros k l. f_equal. apply Rsum_ext. intros m _. apply (Ta phi phi_a). }
        rewrite !D_fs. rewrite (Dext (fun k => Rsum fs _) (fun k => 2 * D (fun l => N (T k l)))).
        2:{ intros p _. rewrite D_fs. apply D_scal. }
        rewrite !D_scal. rewrite (Dext (fun k => N (T k k)) (fun k => - / 32 * N (P k) + - / 16 * N (Q k))).
        2:{ intros p _. rewrite <- !N_scal, <- N_plus. apply Rsum_ext. intros m _. rewrite T_two. lra. }
        rewrite D_plus, !D_scal. lra. }
      assert (Hddd : se_ddd w f3 none fs = 4 * (/ 6 * (D (fun k => D (fun l => D (T k l)))
               - 3 * (- D (fun k => D (P k)) / 32 - D (fun k => D (Q k)) / 16) - D q1 / 6))).
      { unfold se_ddd.
        rewrite (Rsum_ext _ (fun k => 4 * Rsum (below k fs) (fun l => Rsum (below l fs) (T k l)))).
        2:{ intros k _. rewrite <- Rsum_scal. apply Rsum_ext. intros l _. rewrite <- Rsum_scal. apply Rsum_ext.
            intros m _. rewrite <- gfrac_T. field. }
        rewrite Rsum_scal, (triples fs fs_nd fs_n), !D_fs. f_equal. f_equal.
        rewrite (Dext (fun k => Rsum fs (fun l => Rsum fs (T k l))) (fun k => D (fun l => D (T k l)))).
        2:{ intros p _. rewrite D_fs. apply Dext. intros q _. apply D_fs. }
        rewrite (Dext (fun k => Rsum fs (P k)) (fun k => D (P k))) by (intros; apply D_fs).
        rewrite (Dext (fun k => Rsum fs (Q k)) (fun k => D (Q k))) by (intros; apply D_fs). reflexivity. }
      assert (Hg : Rsum ts (fun p => sg_dd1 f4 w f3 zeta B none ns ts (fst p) (snd p)
                                  - B 2%nat * Rsqr (zeta (fst p) (snd p) 2%nat))
        = - D q4 / 48 - D (fun k => N (P k)) / 32 + D (fun k => D (Q k)) / 8 + D (fun k => D (P k)) / 32).
      { transitivity (D (fun k => - / 48 * q4 k + (- / 32 * N (P k) + (/ 8 * D (Q k) + / 32 * D (P k))))).
        - apply Rsum_ext. intros p _. unfold sg_dd1, q4. rewrite <- !D_scal, <- N_scal, <- D_plus.
          assert (A1 : Rsum ns (fun l => Rsqr (f3 (fst p) (fst p) l) / 32 *
             (keep (none (fst p) (fst p) l) (1 / (2 * w (fst p) - w l)) - 1 / (2 * w (fst p) + w l)))
             = - N (fun l => - / 32 * P (fst p) l)).
          { unfold N. rewrite <- Rsum_opp. apply Rsum_ext. intros l _. unfold P, psi, none, keep. unfold Rdiv. ring. }
          rewrite A1. clear A1.
          assert (A2 : forall x y z t u v : R, y = z -> x - - u + y + t - t = x + (u + z)) by (intros; lra).
          replace (- / 48 * f4 (fst p) (fst p) (fst p) (fst p)) with (- (f4 (fst p) (fst p) (fst p) (fst p) / 48)) by lra.
          apply A2; [exact 0|]. apply Rsum_ext. intros q _. unfold P, Q, psi, chi, none, keep.
          set (y := 1 / (2 * w (fst p) - w (fst q))). set (z := 1 / (2 * w (fst p) + w (fst q))).
          unfold Rdiv. rewrite Rinv_mult. ring.
        - rewrite !D_plus, !D_scal. lra. }
      rewrite Hd, Hdd, Hddn, Hddd, Hg.
      lra.
    Qed.
  End E0.

  (** ** the x and g constants *)
  Let X1 (k : nat) : R := spec_xkk n f4 w f3 none k.
  Let X (k l : nat) : R := spec_xkl n f4 w f3 zeta B none k l.
  Let ph1 (q x y z : R) : R := q * (1 / (8 * z) + / 32 * (1 / (2 * x + z)) - / 32 * (1 / (2 * x - z))).
  Let ph2 (q x y z : R) : R := q * ((1 / (x + y + z) + 1 / (x + z - y) - 1 / (x + y - z) + 1 / (y + z - x)) / 8).
  Let T1 (k l m : nat) : R := ph1 (Rsqr (f3 k l m)) (w k) (w l) (w m).
  Let T2 (k l m : nat) : R := ph2 (Rsqr (f3 k l m)) (w k) (w l) (w m).
  Let U (k l m : nat) : R := f3 k k m * f3 l l m / (4 * w m).
  Let rot (k l : nat) : R :=
    B 0%nat * (zeta k l 0%nat * zeta k l 0%nat) + B 1%nat * (zeta k l 1%nat * zeta k l 1%nat)
    + B 2%nat * (zeta k l 2%nat * zeta k l 2%nat).

  Lemma ph10 x y z : ph1 0 x y z = 0.
  Proof. unfold ph1. ring. Qed.
  Lemma ph20 x y z : ph2 0 x y z = 0.
  Proof. unfold ph2. ring. Qed.
  Lemma ph2a q x y z : ph2 q x y z = ph2 q y x z.
  Proof.
    unfold ph2. replace (y + x + z) with (x + y + z) by ring. replace (y + x - z) with (x + y - z) by ring.
    unfold Rdiv. ring.
  Qed.
  Lemma X1_eq k : X1 k = f4 k k k k / 16 - S (T1 k k).
  Proof. reflexivity. Qed.
  Lemma X_eq k l : X k l = f4 k k l l / 4 - S (U k l) - S (T2 k l) + (w k / w l + w l / w k) * rot k l.
  Proof.
    unfold X, spec_xkl, S, U, rot. do 2 f_equal. apply Rsum_ext. intros m _. unfold T2, ph2, Rsqr, none, keep.
    set (y := _ + _ - _ + _). clearbody y. field.
  Qed.
  Lemma X_sym k l : X k l = X l k.
  Proof.
    rewrite !X_eq. f_equal; [f_equal; [f_equal|]|].
    - now rewrite (f4b k k l l), (f4a k l k l), (f4c l k k l), (f4b l k l k).
    - apply Rsum_ext. intros m _. unfold U. f_equal. ring.
    - apply Rsum_ext. intros m _. unfold T2. now rewrite ph2a, (f3a k l m).
    - unfold rot. rewrite !(za k l). ring.
  Qed.

  Lemma T1_nn m m' : In m ns -> In m' ns -> S (T1 m m') = N (T1 m m').
  Proof. exact (T_nn ph1 ph10 m m'). Qed.
  Lemma T1_aa p q : In p ts -> In q ts -> S (T1 (fst p) (fst q)) = N (T1 (fst p) (fst q)) + D (T1 (fst p) (fst q)).
  Proof. exact (T_aa ph1 ph10 p q). Qed.
  Lemma T1_bb p q : In p ts -> In q ts -> S (T1 (snd p) (snd q)) = N (T1 (fst p) (fst q)) + D (T1 (fst p) (fst q)).
  Proof. exact (T_bb ph1 ph10 p q). Qed.
  Lemma T2_nn m m' : In m ns -> In m' ns -> S (T2 m m') = N (T2 m m').
  Proof. exact (T_nn ph2 ph20 m m'). Qed.
  Lemma T2_na m p : In m ns -> In p ts -> S (T2 m (fst p)) = D (T2 m (fst p)).
  Proof. exact (T_na ph2 ph20 m p). Qed.
  Lemma T2_nb m p : In m ns -> In p ts -> S (T2 m (snd p)) = D (T2 m (fst p)).
  Proof. exact (T_nb ph2 ph20 m p). Qed.
  Lemma T2_aa p q : In p ts -> In q ts -> S (T2 (fst p) (fst q)) = N (T2 (fst p) (fst q)) + D (T2 (fst p) (fst q)).
  Proof. exact (T_aa ph2 ph20 p q). Qed.
  Lemma T2_bb p q : In p ts -> In q ts -> S (T2 (snd p) (snd q)) = N (T2 (fst p) (fst q)) + D (T2 (fst p) (fst q)).
  Proof. exact (T_bb ph2 ph20 p q). Qed.
  Lemma T2_ab p q : In p ts -> In q ts -> S (T2 (fst p) (snd q)) = D (T2 (fst p) (fst q)).
  Proof. exact (T_ab ph2 ph20 p q). Qed.
  Lemma T2_ba p q : In p ts -> In q ts -> S (T2 (snd p) (fst q)) = D (T2 (fst p) (fst q)).
  Proof. exact (T_ba ph2 ph20 p q). Qed.
  Lemma x_nn1 k : In k ns -> X1 k = sx_nn1 f4 w f3 none ns k.
  Proof. intros H. rewrite X1_eq, (T1_nn k k H H). reflexivity. Qed.
  Lemma x_nn k l : In k ns -> In l ns -> X k l = sx_nn f4 w f3 zeta B none ns k l.
  Proof.
    intros Hk Hl. rewrite X_eq, (T2_nn k l Hk Hl).
    assert (EU : S (U k l) = N (U k l)).
    { rewrite S_split, D0, D0'; [lra| |]; intros p Hp; unfold U; destruct (c_nna k k p) as [E1 E2]; auto;
        rewrite ?E1, ?E2; unfold Rdiv; ring. }
    rewrite EU. unfold sx_nn, ratio, rot. destruct (axial_z1 _ _ _ _ _ _ _ _ Hax k l Hk Hl) as [-> ->].
    f_equal; [f_equal|].
    - apply Rsum_ext. intros m _. now rewrite (f3b k m l).
    - unfold Rsqr. ring.
  Qed.
  Lemma x_nd k p : In k ns -> In p ts ->
    X k (fst p) = sx_nd f4 w f3 zeta B none ns ts k (fst p) /\ X k (snd p) = X k (fst p).
  Proof.
    intros Hk Hp. assert (Z : forall a, In p ts -> a = fst p \/ a = snd p -> S (U k a) = N (U k (fst p))).
    { intros a _ Ha. rewrite S_split, D0, D0'.
      - rewrite (Next _ (U k (fst p))); [lra|]. intros m Hm. unfold U.
        assert (E : f3 a a m = f3 (fst p) (fst p) m).
        { destruct Ha as [->| ->]; [reflexivity|]. rewrite !(f3b _ _ m), !(f3a _ m). now apply c_naa. }
        now rewrite E.
      - intros q Hq. unfold U. destruct (c_nna k k q) as [_ E]; auto. rewrite E. unfold Rdiv. ring.
      - intros q Hq. unfold U. destruct (c_nna k k q) as [E _]; auto. rewrite E. unfold Rdiv. ring. }
    assert (E1 : f4 k k (snd p) (snd p) = f4 k k (fst p) (fst p)).
    { destruct p as [a b]. symmetry. now apply (axial_q1 _ _ _ _ _ _ _ _ Hax). }
    assert (E2 : rot k (fst p) = B 1%nat * (Rsqr (zeta k (fst p) 0%nat) + Rsqr (zeta k (fst p) 1%nat)) /\
                 rot k (snd p) = rot k (fst p)).
    { destruct p as [a b]. destruct (axial_z2 _ _ _ _ _ _ _ _ Hax k a b Hk Hp) as (Z1 & Z2 & Z3).
      cbn [fst snd]. unfold rot, Rsqr in *. rewrite Z1, Z2, (axial_b _ _ _ _ _ _ _ _ Hax). split; [ring|].
      replace (B 1%nat * (zeta k b 0%nat * zeta k b 0%nat) + B 1%nat * (zeta k b 1%nat * zeta k b 1%nat))
        with (B 1%nat * (zeta k b 0%nat * zeta k b 0%nat + zeta k b 1%nat * zeta k b 1%nat)) by ring.
      rewrite <- Z3. ring. }
    destruct E2 as [E2 E3]. rewrite !X_eq, E1, E3, !Z, (T2_na k p Hk Hp), (T2_nb k p Hk Hp), E2, wp
      by auto. split; reflexivity.
  Qed.
  Lemma x_dd1 p : In p ts -> X1 (fst p) = sx_dd1 f4 w f3 none ns ts (fst p) /\ X1 (snd p) = X1 (fst p).
  Proof.
    intros Hp. rewrite !X1_eq, (T1_aa p p Hp Hp), (T1_bb p p Hp Hp).
    assert (E : f4 (snd p) (snd p) (snd p) (snd p) = f4 (fst p) (fst p) (fst p) (fst p)).
    { destruct p as [a b]. symmetry. exact (proj1 (axial_q3 _ _ _ _ _ _ _ _ Hax a b a b Hp Hp)). }
    rewrite E. split; [|reflexivity]. unfold sx_dd1.
    fold (D (T1 (fst p) (fst p))) (N (T1 (fst p) (fst p))).
    assert (A : forall x y z : R, x - (y + z) = x - y - z) by (intros; ring). apply A.
  Qed.

  Lemma U_pairs p q : In p ts -> In q ts ->
    S (U (fst p) (fst q)) = N (U (fst p) (fst q)) + D (U (fst p) (fst q)) /\
    S (U (snd p) (snd q)) = N (U (fst p) (fst q)) + D (U (fst p) (fst q)) /\
    S (U (fst p) (snd q)) = N (U (fst p) (fst q)) - D (U (fst p) (fst q)) /\
    S (U (snd p) (fst q)) = N (U (fst p) (fst q)) - D (U (fst p) (fst q)).
  Proof.
    intros Hp Hq.
    assert (B1 : forall r m, In r ts -> In m ns -> f3 (snd r) (snd r) m = f3 (fst r) (fst r) m).
    { intros r m Hr Hm. rewrite !(f3b _ _ m), !(f3a _ m). now apply c_naa. }
    assert (B2 : forall r t, In r ts -> In t ts -> f3 (snd r) (snd r) (fst t) = - f3 (fst r) (fst r) (fst t)).
    { intros r t Hr Ht. now apply c_aaa. }
    assert (B3 : forall r t, In r ts -> In t ts -> f3 (snd r) (snd r) (snd t) = 0).
    { intros r t Hr Ht. now apply c_aaa. }
    assert (B4 : forall r t, In r ts -> In t ts -> f3 (fst r) (fst r) (snd t) = 0).
    { intros r t Hr Ht. now apply c_aaa. }
    assert (Op : forall g, D (fun m => - g m) = - D g) by (intros; apply Rsum_opp).
    repeat split; rewrite S_split.
    - rewrite D0'; [lra|]. intros r Hr. unfold U. rewrite B4 by assumption. unfold Rdiv. ring.
    - rewrite D0', (Next _ (U (fst p) (fst q))), (Dext _ (U (fst p) (fst q))); [lra| | |].
      + intros r Hr. unfold U. rewrite !B2 by assumption. unfold Rdiv. ring.
      + intros m Hm. unfold U. now rewrite !B1.
      + intros r Hr. unfold U. rewrite B3 by assumption. unfold Rdiv. ring.
    - rewrite D0', (Next _ (U (fst p) (fst q))), (Dext _ (fun m => - U (fst p) (fst q) m)); [rewrite Op; lra| | |].
      + intros r Hr. unfold U. rewrite !B2 by assumption. unfold Rdiv. ring.
      + intros m Hm. unfold U. now rewrite !B1.
      + intros r Hr. unfold U. rewrite B4 by assumption. unfold Rdiv. ring.
    - rewrite D0', (Next _ (U (fst p) (fst q))), (Dext _ (fun m => - U (fst p) (fst q) m)); [rewrite Op; lra| | |].
      + intros r Hr. unfold U. rewrite !B2 by assumption. unfold Rdiv. ring.
      + intros m Hm. unfold U. now rewrite !B1.
      + intros r Hr. unfold U. rewrite B3 by assumption. unfold Rdiv. ring.
  Qed.

  Lemma rot_pairs p q : In p ts -> In q ts ->
    rot (fst p) (fst q) = B 1%nat * Rsqr (zeta (fst p) (fst q) ax) /\
    rot (snd p) (snd q) = B 1%nat * Rsqr (zeta (fst p) (fst q) ax) /\
    rot (fst p) (snd q) = B 1%nat * Rsqr (zeta (fst p) (fst q) ax) + B 2%nat * Rsqr (zeta (fst p) (snd q) 2%nat) /\
    rot (snd p) (fst q) = B 1%nat * Rsqr (zeta (fst p) (fst q) ax) + B 2%nat * Rsqr (zeta (fst p) (snd q) 2%nat).
  Proof.
    destruct p as [a b], q as [c d]. cbn [fst snd]. intros Hp Hq.
    destruct (axial_z3 _ _ _ _ _ _ _ _ Hax a b c d Hp Hq) as (Z1 & Z2 & Z3).
    destruct (axial_z4 _ _ _ _ _ _ _ _ Hax a b c d Hp Hq) as (Y1 & Y2 & Y3 & Y4).
    destruct (axial_z5 _ _ _ _ _ _ _ _ Hax a b c d Hp Hq) as (W1 & W2 & W3).
    pose proof (axial_b _ _ _ _ _ _ _ _ Hax) as Eb. pose proof (axial_ax _ _ _ _ _ _ _ _ Hax) as La.
    unfold rot. rewrite Z1, Z2, Z3, Eb. unfold Rsqr in *.
    destruct ax as [|[|]]; [| |lia]; cbn [Nat.sub] in *; rewrite ?Y1, ?Y2, ?Y3, ?Y4, ?W1, ?W2, ?W3;
      repeat split; ring.
  Qed.

  Lemma g_dd1 p : In p ts ->
    X (fst p) (snd p) = 2 * (sg_dd1 f4 w f3 zeta B none ns ts (fst p) (snd p) + X1 (fst p)).
  Proof.
    intros Hp. destruct (U_pairs p p Hp Hp) as (_ & _ & EU & _). destruct (rot_pairs p p Hp Hp) as (_ & _ & ER & _).
    rewrite X_eq, X1_eq, EU, ER, (T2_ab p p Hp Hp), (T1_aa p p Hp Hp), wp by exact Hp.
    assert (Z : zeta (fst p) (fst p) ax = 0) by (pose proof (za (fst p) (fst p) ax); lra).
    assert (E4 : f4 (fst p) (fst p) (snd p) (snd p) = f4 (fst p) (fst p) (fst p) (fst p) / 3).
    { destruct p as [a b]. cbn [fst snd]. rewrite (axial_q2 _ _ _ _ _ _ _ _ Hax a b Hp). field. }
    rewrite Z, E4. unfold Rsqr at 1. unfold sg_dd1.
    assert (Hw : 0 < w (fst p)) by (destruct p as [a b]; apply wpos; now apply (ts_n a b)).
    replace (w (fst p) / w (fst p) + w (fst p) / w (fst p)) with 2 by (field; lra).
    set (Za := Rsqr (zeta _ _ _)). clearbody Za.
    assert (A1 : Rsum ns (fun l => Rsqr (f3 (fst p) (fst p) l) / 32 *
       (keep (none (fst p) (fst p) l) (1 / (2 * w (fst p) - w l)) - 1 / (2 * w (fst p) + w l)))
       = / 2 * N (U (fst p) (fst p)) - N (T1 (fst p) (fst p))).
    { unfold N. rewrite <- Rsum_scal, <- Rsum_minus. apply Rsum_ext. intros m Hm.
      pose proof (wpos m (ns_n m Hm)). unfold U, T1, ph1, none, keep, Rsqr.
      set (y := 1 / (2 * w (fst p) - w m)). set (z := 1 / (2 * w (fst p) + w m)). clearbody y z. field. lra. }
    assert (A2 : Rsum ts (fun l => Rsqr (f3 (fst p) (fst p) (fst l)) *
       (1 / (8 * w (fst l)) + / 32 * (keep (none (fst p) (fst p) (fst l)) (1 / (2 * w (fst p) - w (fst l)))
           - 1 / (2 * w (fst p) + w (fst l)))))
       = / 2 * D (U (fst p) (fst p)) - / 2 * D (T2 (fst p) (fst p)) + D (T1 (fst p) (fst p))).
    { unfold D. rewrite <- !Rsum_scal, <- Rsum_minus, <- Rsum_plus. apply Rsum_ext. intros [c d] Hm.
      destruct (ts_n c d Hm) as [Hc _]. pose proof (wpos c Hc). cbn [fst]. unfold U, T1, T2, ph1, ph2, none, keep, Rsqr.
      replace (w (fst p) + w (fst p) + w c) with (2 * w (fst p) + w c) by ring.
      replace (w (fst p) + w (fst p) - w c) with (2 * w (fst p) - w c) by ring.
      replace (w (fst p) + w c - w (fst p)) with (w c) by ring.
      set (y := 1 / (2 * w (fst p) - w c)). set (z := 1 / (2 * w (fst p) + w c)). clearbody y z. field. lra. }
    rewrite A1, A2. fold (T1 (fst p) (fst p)) (T2 (fst p) (fst p)). lra.
  Qed.

  Lemma x_dd p q : In p ts -> In q ts ->
    X (fst p) (fst q) + X (fst p) (snd q) = 2 * sx_dd f4 w f3 zeta B none ns ts ax (fst p) (fst q) (snd q) /\
    X (snd p) (snd q) = X (fst p) (fst q) /\ X (snd p) (fst q) = X (fst p) (snd q).
  Proof.
    intros Hp Hq. destruct (U_pairs p q Hp Hq) as (U1 & U2 & U3 & U4).
    destruct (rot_pairs p q Hp Hq) as (R1 & R2 & R3 & R4).
    assert (Q : f4 (snd p) (snd p) (snd q) (snd q) = f4 (fst p) (fst p) (fst q) (fst q) /\
                f4 (snd p) (snd p) (fst q) (fst q) = f4 (fst p) (fst p) (snd q) (snd q)).
    { destruct p as [a b], q as [c d]. destruct (axial_q3 _ _ _ _ _ _ _ _ Hax a b c d Hp Hq). cbn. auto. }
    destruct Q as [Q1 Q2].
    rewrite !X_eq, U1, U2, U3, U4, R1, R2, R3, R4, Q1, Q2, !wp by assumption.
    rewrite (T2_aa p q), (T2_bb p q), (T2_ab p q), (T2_ba p q) by assumption.
    split; [|split; reflexivity]. unfold sx_dd, ratio.
    fold (N (U (fst p) (fst q))) (D (T2 (fst p) (fst q))).
    assert (A : Rsum ns (fun m => Rsqr (f3 (fst p) (fst q) m) / 2 * xfrac w none (fst p) (fst q) m)
              = / 2 * N (T2 (fst p) (fst q))).
    { unfold N. rewrite <- Rsum_scal. apply Rsum_ext. intros m _. unfold T2, ph2, xfrac, none, keep, Rdiv. ring. }
    assert (A' : Rsum ts (fun m => Rsqr (f3 (fst p) (fst q) (fst m)) * xfrac w none (fst p) (fst q) (fst m))
              = D (T2 (fst p) (fst q))) by reflexivity.
    assert (A'' : Rsum ns (fun m => f3 (fst p) (fst p) m * f3 (fst q) (fst q) m / (4 * w m)) = N (U (fst p) (fst q)))
      by reflexivity.
    rewrite A, A', A''. set (y := w (fst p) / w (fst q) + w (fst q) / w (fst p)). clearbody y.
    fold (T2 (fst p) (fst q)). lra.
  Qed.
  (** ** the levels *)
  Section Sum.
    Variable h : nat -> R.
    Let H (p : nat * nat) : R := h (fst p) + h (snd p).
    Let G (p : nat * nat) : R := sg_dd1 f4 w f3 zeta B none ns ts (fst p) (snd p).
    Let polar (p q : nat * nat) : R := if (fst p =? fst q)%nat then 0 else
      (X (fst p) (fst q) - X (fst p) (snd q)) / 2 * ((h (fst p) - h (snd p)) * (h (fst q) - h (snd q))).
    Let Kn (k l : nat) : R := (if (l =? k)%nat then X1 k else X k l) * (h k * h l).
    Let Kd (p q : nat * nat) : R :=
      (if (fst q =? fst p)%nat then X1 (fst p) else (X (fst p) (fst q) + X (fst p) (snd q)) / 2) * (H p * H q).

    Lemma ts_fst p q : In p ts -> In q ts -> fst p = fst q -> p = q.
    Proof.
      intros Hp Hq E. pose proof fs_nd as Nd. apply In_nth_error in Hp, Hq.
      destruct Hp as [i Hi], Hq as [j Hj]. 
      assert (i = j).
      { apply (proj1 (NoDup_nth_error fs) Nd).
        - apply nth_error_Some.
          rewrite (map_nth_error fst i ts Hi). discriminate.
        - rewrite (map_nth_error fst i ts Hi), (map_nth_error fst j ts Hj). now f_equal. }
      subst j. rewrite Hi in Hj. now injection Hj.
    Qed.

    Lemma all_pairs (Z : nat -> nat -> R) : (forall k l, Z k l = Z l k) ->
      S (fun k => S (Z k)) = N (fun k => N (Z k)) + 2 * N (fun k => Rsum ts (fun q => Z k (fst q) + Z k (snd q)))
      + Rsum ts (fun p => Rsum ts (fun q =>
          Z (fst p) (fst q) + Z (fst p) (snd q) + Z (snd p) (fst q) + Z (snd p) (snd q))).
    Proof.
      intros Sy. rewrite S_split.
      assert (E1 : N (fun k => S (Z k)) = N (fun k => N (Z k)) + N (fun k => Rsum ts (fun q => Z k (fst q) + Z k (snd q)))).
      { unfold N. rewrite <- Rsum_plus. apply Rsum_ext. intros k _. rewrite S_split. unfold N, D, D'.
        rewrite Rsum_plus. lra. }
      assert (E2 : D (fun k => S (Z k)) + D' (fun k => S (Z k)) =
        Rsum ts (fun p => N (fun k => Z k (fst p) + Z k (snd p)))
        + Rsum ts (fun p => Rsum ts (fun q =>
          Z (fst p) (fst q) + Z (fst p) (snd q) + Z (snd p) (fst q) + Z (snd p) (snd q)))).
      { unfold D, D'. rewrite <- !Rsum_plus. apply Rsum_ext. intros p _.
        rewrite (S_split (Z (fst p))), (S_split (Z (snd p))).
        rewrite !Rsum_plus. unfold N, D, D'. rewrite Rsum_plus.
        rewrite (Rsum_ext (fun k => Z k (fst p)) (Z (fst p))) by (intros; apply Sy).
        rewrite (Rsum_ext (fun k => Z k (snd p)) (Z (snd p))) by (intros; apply Sy). lra. }
      assert (E3 : Rsum ts (fun p => N (fun k => Z k (fst p) + Z k (snd p)))
        = N (fun k => Rsum ts (fun q => Z k (fst q) + Z k (snd q)))).
      { unfold N. apply Rsum_swap. }
      rewrite E1. lra.
    Qed.

    Lemma level_sum :
      S (fun k => X1 k * (h k * h k)) + S (fun k => Rsum (seq 0 k) (fun l => X k l * (h k * h l)))
      = / 2 * (N (fun k => N (Kn k)) + N (fun k => Kn k k))
        + N (fun k => Rsum ts (fun q => X k (fst q) * (h k * H q)))
        + / 2 * (Rsum ts (fun p => Rsum ts (Kd p)) + Rsum ts (fun p => Kd p p))
        + Rsum ts (fun p => 2 * G p * (h (fst p) * h (snd p)))
        + / 2 * Rsum ts (fun p => Rsum ts (polar p)).
    Proof.
      set (Z := fun k l => (if (l =? k)%nat then 2 * X1 k else X k l) * (h k * h l)).
      assert (Zs : forall k l, Z k l = Z l k).
      { intros k l. unfold Z. rewrite (Nat.eqb_sym k l). destruct (Nat.eqb_spec l k) as [->|]; [ring|].
        rewrite (X_sym k l). ring. }
      assert (E1 : S (fun k => X1 k * (h k * h k)) + S (fun k => Rsum (seq 0 k) (fun l => X k l * (h k * h l)))
        = / 2 * S (fun k => S (Z k))).
      { assert (B1 : S (fun k => Rsum (seq 0 k) (fun l => X k l * (h k * h l)))
          = S (fun k => Rsum (below k (seq 0 n)) (Z k))).
        { unfold S. apply Rsum_ext. intros k Hk. apply in_seq in Hk. unfold below.
          rewrite Rsum_filter_if. rewrite (Rsum_lt n k) by lia. apply Rsum_ext.
          intros l Hl. apply in_seq in Hl. unfold Z. destruct (Nat.ltb_spec l k), (Nat.eqb_spec l k); try lia; reflexivity. }
        rewrite B1. pose proof (below_pairs (seq 0 n) (seq_NoDup n 0) Z Zs) as B2. cbv beta zeta in B2.
        unfold S. rewrite B2.
        assert (B3 : Rsum (seq 0 n) (fun k => Z k k) = 2 * Rsum (seq 0 n) (fun k => X1 k * (h k * h k))).
        { rewrite <- Rsum_scal. apply Rsum_ext. intros k _. unfold Z. rewrite Nat.eqb_refl. ring. }
        rewrite B3. lra. }
      rewrite E1, (all_pairs Z Zs).
      assert (E2 : N (fun k => N (Z k)) = N (fun k => N (Kn k)) + N (fun k => Kn k k)).
      { unfold N. rewrite <- Rsum_plus. apply Rsum_ext. intros k Hk.
        assert (P : Kn k k = Rsum ns (fun l => if (l =? k)%nat then Kn k l else 0)).
        { symmetry. now apply (Rsum_single (Kn k) ns k ns_nd). }
        rewrite P, <- Rsum_plus. apply Rsum_ext. intros l _. unfold Z, Kn.
        destruct (l =? k)%nat; ring. }
      assert (E3 : N (fun k => Rsum ts (fun q => Z k (fst q) + Z k (snd q)))
        = N (fun k => Rsum ts (fun q => X k (fst q) * (h k * H q)))).
      { unfold N. apply Rsum_ext. intros k Hk. apply Rsum_ext. intros q Hq.
        destruct (x_nd k q Hk Hq) as [_ Eb].
        assert (Ne : fst q <> k /\ snd q <> k).
        { pose proof (NoDup_app_inv _ _ part_nd) as (_ & _ & Dj).
          destruct q as [a b]. cbn [fst snd]. split; intros ->; apply (Dj k Hk); apply in_flat_map.
          - exists (k, b). cbn. auto.
          - exists (a, k). cbn. auto. }
        unfold Z. destruct (Nat.eqb_spec (fst q) k), (Nat.eqb_spec (snd q) k); try tauto.
        rewrite Eb. unfold H. ring. }
      assert (E4 : Rsum ts (fun p => Rsum ts (fun q =>
          Z (fst p) (fst q) + Z (fst p) (snd q) + Z (snd p) (fst q) + Z (snd p) (snd q)))
        = Rsum ts (fun p => Rsum ts (Kd p)) + Rsum ts (fun p => Kd p p)
          + Rsum ts (fun p => 4 * G p * (h (fst p) * h (snd p))) + Rsum ts (fun p => Rsum ts (polar p))).
      { rewrite <- !Rsum_plus. apply Rsum_ext. intros p Hp.
        assert (P : Kd p p + 4 * G p * (h (fst p) * h (snd p))
          = Rsum ts (fun q => if (fst q =? fst p)%nat then Kd p p + 4 * G p * (h (fst p) * h (snd p)) else 0)).
        { symmetry. rewrite <- (Rsum_map fst (fun m => if (m =? fst p)%nat then
             Kd p p + 4 * G p * (h (fst p) * h (snd p)) else 0)).
          apply (Rsum_single (fun _ => Kd p p + 4 * G p * (h (fst p) * h (snd p))) fs (fst p) fs_nd).
          now apply in_map. }
        transitivity (Rsum ts (Kd p) + Rsum ts (fun q => if (fst q =? fst p)%nat then Kd p p + 4 * G p * (h (fst p) * h (snd p)) else 0)
          + Rsum ts (polar p)); [|lra].
        rewrite <- !Rsum_plus. apply Rsum_ext. intros q Hq.
        assert (O1 : fst p <> snd q /\ snd p <> fst q).
        { split; [apply (pair_facts ts p q ts_nd Hp Hq)|].
          intros E. symmetry in E. revert E. apply (pair_facts ts q p ts_nd Hq Hp). }
        assert (O2 : fst p = fst q <-> snd p = snd q).
        { split; intros E; [now rewrite (ts_fst p q Hp Hq E)|].
          now rewrite (proj2 (pair_facts ts p q ts_nd Hp Hq) E). }
        unfold Z, polar. destruct O1 as [O1 O3].
        rewrite (Nat.eqb_sym (fst p) (fst q)).
        destruct (Nat.eqb_spec (snd q) (fst p)); [congruence|].
        destruct (Nat.eqb_spec (fst q) (snd p)); [congruence|].
        destruct (Nat.eqb_spec (fst q) (fst p)) as [E|E].
        - assert (p = q) by (now apply ts_fst). subst q. rewrite Nat.eqb_refl.
          unfold Kd. rewrite Nat.eqb_refl.
          pose proof (g_dd1 p Hp) as Eg. fold (G p) in Eg. destruct (x_dd1 p Hp) as [_ E2'].
          rewrite (X_sym (snd p) (fst p)), E2', Eg. unfold H. ring.
        - destruct (Nat.eqb_spec (snd q) (snd p)); [exfalso; apply E; symmetry; now apply O2|].
          destruct (x_dd p q Hp Hq) as (_ & E2' & E3').
          rewrite E2', E3'. unfold Kd, H.
          destruct (Nat.eqb_spec (fst q) (fst p)); [tauto|]. field. }
      rewrite E2, E3, E4.
      rewrite (Rsum_ext (fun p => 4 * G p * (h (fst p) * h (snd p))) (fun p => 2 * (2 * G p * (h (fst p) * h (snd p)))))
        by (intros; ring).
      rewrite Rsum_scal. lra.
    Qed.
  End Sum.
End Field.
