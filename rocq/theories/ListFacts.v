(** Lemmas about the loop vocabulary. *)
From Coq Require Import List Arith Lia Bool.
From Verif Require Import Loops.
Import ListNotations.

Lemma in_range a b x : In x (range a b) <-> a <= x < b.
Proof. unfold range. rewrite in_seq. lia. Qed.

Lemma range_0 n : range 0 n = seq 0 n.
Proof. unfold range. now rewrite Nat.sub_0_r. Qed.

Lemma range_nodup a b : NoDup (range a b).
Proof. apply seq_NoDup. Qed.

Lemma NoDup_app_intro {A} (l l' : list A) :
  NoDup l -> NoDup l' -> (forall x, In x l -> In x l' -> False) -> NoDup (l ++ l').
Proof.
  induction 1 as [|a l Hn Hd IH]; intros H2 Hx; [exact H2|].
  cbn. constructor.
  - rewrite in_app_iff. intros [Hi|Hi]; [now apply Hn|].
    apply (Hx a); [now left|exact Hi].
  - apply IH; [exact H2|]. intros x H3 H4. apply (Hx x); [now right|exact H4].
Qed.

Lemma NoDup_app_inv {A} (l l' : list A) :
  NoDup (l ++ l') -> NoDup l /\ NoDup l' /\ (forall x, In x l -> In x l' -> False).
Proof.
  induction l as [|a l IH]; cbn; intros Hd.
  - repeat split; [constructor|exact Hd|intros x []].
  - inversion Hd as [|? ? Hn Hd']; subst. destruct (IH Hd') as (H1 & H2 & H3).
    rewrite in_app_iff in Hn. repeat split.
    + constructor; tauto.
    + exact H2.
    + intros x [<-|Hx] Hx'; [tauto|now apply (H3 x)].
Qed.

Lemma NoDup_flat_map {A B} (f : A -> list B) l :
  NoDup l ->
  (forall x, In x l -> NoDup (f x)) ->
  (forall x y z, In x l -> In y l -> In z (f x) -> In z (f y) -> x = y) ->
  NoDup (flat_map f l).
Proof.
  induction 1 as [|a l Hn Hd IH]; intros Hf Hx; [constructor|].
  cbn. apply NoDup_app_intro.
  - apply Hf. now left.
  - apply IH.
    + intros x Hin. apply Hf. now right.
    + intros x y z H1 H2. apply Hx; now right.
  - intros z Hz Hin. apply in_flat_map in Hin as (y & Hy & Hzy).
    apply Hn. rewrite (Hx a y z); auto; [now left|now right].
Qed.

Lemma NoDup_map_inj {A B} (f : A -> B) l :
  NoDup l -> (forall x y, In x l -> In y l -> f x = f y -> x = y) -> NoDup (map f l).
Proof.
  induction 1 as [|a l Hn Hd IH]; intros Hf; [constructor|]. cbn. constructor.
  - intros Hin. apply in_map_iff in Hin as (b & He & Hb).
    apply Hn. rewrite <- (Hf b a); auto; [now right|now left].
  - apply IH. intros; apply Hf; auto; now right.
Qed.

Lemma flat_map_singleton_if {A B} (c : A -> bool) (f : A -> B) l :
  flat_map (fun x => if c x then [f x] else []) l = map f (filter c l).
Proof.
  induction l as [|a l IH]; [reflexivity|]. cbn. destruct (c a); cbn; now rewrite IH.
Qed.

Lemma fold_push {A B} (f : A -> B) l acc :
  fold_left (fun s x => s ++ [f x]) l acc = acc ++ map f l.
Proof.
  revert acc. induction l as [|a l IH]; intros acc; cbn; [now rewrite app_nil_r|].
  now rewrite IH, <- app_assoc.
Qed.
Lemma fold_push_if {A B} (c : A -> bool) (f : A -> B) l acc :
  fold_left (fun s x => if c x then s ++ [f x] else s) l acc = acc ++ map f (filter c l).
Proof.
  revert acc. induction l as [|a l IH]; intros acc; cbn; [now rewrite app_nil_r|].
  rewrite IH. destruct (c a); [now rewrite <- app_assoc|reflexivity].
Qed.

Lemma in_collect {A B} (l : list A) (f : A -> list B) y :
  In y (collect l f) <-> exists x, In x l /\ In y (f x).
Proof. apply in_flat_map. Qed.

Lemma in_collect_range {B} a b (f : nat -> list B) y :
  In y (collect (range a b) f) <-> exists x, a <= x < b /\ In y (f x).
Proof.
  rewrite in_collect. split; intros (x & H1 & H2); exists x; rewrite in_range in *; auto.
Qed.

Lemma ofold_app {A S} (f : S -> A -> option S) l l' s :
  ofold f (l ++ l') s = obind (ofold f l s) (ofold f l').
Proof.
  revert s. induction l as [|a l IH]; intros s; cbn; [reflexivity|].
  destruct (f s a); [apply IH|reflexivity].
Qed.

Lemma ofold_flat_map {A B S} (f : S -> B -> option S) (g : A -> list B) l s :
  ofold f (flat_map g l) s = ofold (fun s a => ofold f (g a) s) l s.
Proof.
  revert s. induction l as [|a l IH]; intros s; cbn; [reflexivity|].
  rewrite ofold_app. destruct (ofold f (g a) s); [apply IH|reflexivity].
Qed.

Lemma ofold_map {A B S} (f : S -> B -> option S) (g : A -> B) l s :
  ofold f (map g l) s = ofold (fun s a => f s (g a)) l s.
Proof.
  revert s. induction l as [|a l IH]; intros s; cbn; [reflexivity|].
  destruct (f s (g a)); [apply IH|reflexivity].
Qed.

Lemma ofold_ext {A S} (f g : S -> A -> option S) l s :
  (forall s a, In a l -> f s a = g s a) -> ofold f l s = ofold g l s.
Proof.
  revert s. induction l as [|a l IH]; intros s He; cbn; [reflexivity|].
  rewrite He by now left. destruct (g s a); [|reflexivity].
  apply IH. intros; apply He; now right.
Qed.

Lemma nth_error_seq a n i : i < n -> nth_error (seq a n) i = Some (a + i).
Proof.
  intros Hi. rewrite (nth_error_nth' _ 0) by (rewrite seq_length; exact Hi).
  now rewrite seq_nth.
Qed.
