(** Lemmas about the transformations of the force constants. *)
From Coq Require Import Reals Lra List ZArith Arith Lia Bool Permutation.
From Verif Require Import Num Loops Index ListFacts IndexFacts LoadFacts ResFacts Anharm AnharmFacts Transform.
Import ListNotations.
Open Scope nat_scope.

(** ** loops in which one iteration does the work *)
Lemma fold_inv {S X} (P : S -> Prop) (step : S -> X -> S) l : forall s,
  (forall s x, In x l -> P s -> P (step s x)) -> P s -> P (fold_left step l s).
Proof.
  induction l as [|x l IH]; intros s H Hs; [exact Hs|]. cbn. apply IH.
  - intros s' y Hy. apply H. now right.
  - apply H; [now left|exact Hs].
Qed.

Lemma fold_once {S X} (P Q : S -> Prop) (step : S -> X -> S) l x0 : forall s,
  NoDup l -> In x0 l ->
  (forall s, P s -> Q (step s x0)) ->
  (forall s x, In x l -> x <> x0 -> P s -> P (step s x)) ->
  (forall s x, In x l -> x <> x0 -> Q s -> Q (step s x)) ->
  P s -> Q (fold_left step l s).
Proof.
  induction l as [|x l IH]; intros s Hd Hin H0 HP HQ Hs; [destruct Hin|].
  inversion Hd as [|x' l' Hx Hd']; subst. cbn. destruct Hin as [->|Hin].
  - apply fold_inv; [|now apply H0]. intros s' y Hy. apply HQ; [now right|].
    intros ->. contradiction.
  - apply IH; try assumption.
    + intros s' y Hy. apply HP. now right.
    + intros s' y Hy. apply HQ. now right.
    + apply HP; [now left| |exact Hs]. intros ->. contradiction.
Qed.

(** ** contraction of every index with a matrix *)
Local Open Scope R_scope.
Notation Sum n f := (Rsum (seq 0 n) f).
Definition con1 (n : nat) (U : nat -> nat -> R) (g : nat -> R) (a : nat) : R :=
  Sum n (fun r => U r a * g r).
Definition con2 n U (f : nat -> nat -> R) (a b : nat) : R :=
  con1 n U (fun r => con1 n U (fun s => f r s) b) a.
Definition con3 n U (f : nat -> nat -> nat -> R) (a b c : nat) : R :=
  con1 n U (fun r => con2 n U (fun s t => f r s t) b c) a.
Definition con4 n U (f : nat -> nat -> nat -> nat -> R) (a b c d : nat) : R :=
  con1 n U (fun r => con3 n U (fun s t u => f r s t u) b c d) a.

Lemma con1_ext n U V g h a :
  (forall r, (r < n)%nat -> U r a = V r a) -> (forall r, (r < n)%nat -> g r = h r) ->
  con1 n U g a = con1 n V h a.
Proof.
  intros HU Hg. unfold con1. apply Rsum_ext. intros r Hr. apply in_seq in Hr.
  rewrite HU, Hg by lia. reflexivity.
Qed.
Lemma con1_g n U g h a : (forall r, (r < n)%nat -> g r = h r) -> con1 n U g a = con1 n U h a.
Proof. intros. now apply con1_ext. Qed.
Lemma con2_g n U f g a b :
  (forall r s, (r < n)%nat -> (s < n)%nat -> f r s = g r s) -> con2 n U f a b = con2 n U g a b.
Proof. intros E. unfold con2. apply con1_g. intros r Hr. apply con1_g. intros s Hs. now apply E. Qed.
Lemma con3_g n U f g a b c :
  (forall r s t, (r < n)%nat -> (s < n)%nat -> (t < n)%nat -> f r s t = g r s t) ->
  con3 n U f a b c = con3 n U g a b c.
Proof. intros E. unfold con3. apply con1_g. intros r Hr. apply con2_g. intros. now apply E. Qed.
Lemma con4_g n U f g a b c d :
  (forall r s t u, (r < n)%nat -> (s < n)%nat -> (t < n)%nat -> (u < n)%nat -> f r s t u = g r s t u) ->
  con4 n U f a b c d = con4 n U g a b c d.
Proof. intros E. unfold con4. apply con1_g. intros r Hr. apply con3_g. intros. now apply E. Qed.

Lemma con1_scal n U c g a : con1 n U (fun r => c * g r) a = c * con1 n U g a.
Proof.
  unfold con1. rewrite <- Rsum_scal. apply Rsum_ext. intros. ring.
Qed.
Lemma con1_swap n U V h a b :
  con1 n U (fun r => con1 n V (fun s => h r s) b) a = con1 n V (fun s => con1 n U (fun r => h r s) a) b.
Proof.
  unfold con1.
  transitivity (Sum n (fun r => Sum n (fun s => U r a * (V s b * h r s)))).
  { apply Rsum_ext. intros. now rewrite Rsum_scal. }
  rewrite Rsum_swap. apply Rsum_ext. intros s _. rewrite <- Rsum_scal. apply Rsum_ext.
  intros. ring.
Qed.

(** symmetric tables stay symmetric *)
Lemma con2_sym n U f a b :
  (forall r s, (r < n)%nat -> (s < n)%nat -> f r s = f s r) -> con2 n U f a b = con2 n U f b a.
Proof.
  intros E. unfold con2. rewrite con1_swap. apply con1_g. intros s Hs. apply con1_g.
  intros r Hr. now apply E.
Qed.
Definition tsym3 (n : nat) (f : nat -> nat -> nat -> R) : Prop :=
  forall r s t, (r < n)%nat -> (s < n)%nat -> (t < n)%nat -> f r s t = f s r t /\ f r s t = f r t s.
Definition tsym4 (n : nat) (f : nat -> nat -> nat -> nat -> R) : Prop :=
  forall r s t u, (r < n)%nat -> (s < n)%nat -> (t < n)%nat -> (u < n)%nat ->
    f r s t u = f s r t u /\ f r s t u = f r t s u /\ f r s t u = f r s u t.

Lemma con3_12 n U f a b c :
  (forall r s t, (r < n)%nat -> (s < n)%nat -> (t < n)%nat -> f r s t = f s r t) ->
  con3 n U f a b c = con3 n U f b a c.
Proof.
  intros E. unfold con3, con2. rewrite con1_swap. apply con1_g. intros s Hs. apply con1_g.
  intros r Hr. apply con1_g. intros t Ht. now apply E.
Qed.
Lemma con3_23 n U f a b c :
  (forall r s t, (r < n)%nat -> (s < n)%nat -> (t < n)%nat -> f r s t = f r t s) ->
  con3 n U f a b c = con3 n U f a c b.
Proof. intros E. unfold con3. apply con1_g. intros r Hr. apply con2_sym. intros. now apply E. Qed.
Lemma con4_12 n U f a b c d :
  (forall r s t u, (r < n)%nat -> (s < n)%nat -> (t < n)%nat -> (u < n)%nat -> f r s t u = f s r t u) ->
  con4 n U f a b c d = con4 n U f b a c d.
Proof.
  intros E. unfold con4, con3. rewrite con1_swap. apply con1_g. intros s Hs. apply con1_g.
  intros r Hr. apply con2_g. intros. now apply E.
Qed.
Lemma con4_23 n U f a b c d :
  (forall r s t u, (r < n)%nat -> (s < n)%nat -> (t < n)%nat -> (u < n)%nat -> f r s t u = f r t s u) ->
  con4 n U f a b c d = con4 n U f a c b d.
Proof. intros E. unfold con4. apply con1_g. intros r Hr. apply con3_12. intros. now apply E. Qed.
Lemma con4_34 n U f a b c d :
  (forall r s t u, (r < n)%nat -> (s < n)%nat -> (t < n)%nat -> (u < n)%nat -> f r s t u = f r s u t) ->
  con4 n U f a b c d = con4 n U f a b d c.
Proof. intros E. unfold con4. apply con1_g. intros r Hr. apply con3_23. intros. now apply E. Qed.

(** one change of basis after another *)
Definition mprod (n : nat) (U L : nat -> nat -> R) (r a : nat) : R := Sum n (fun s => U r s * L s a).

Lemma con1_comp n U L g a : con1 n L (con1 n U g) a = con1 n (mprod n U L) g a.
Proof.
  unfold con1, mprod.
  transitivity (Sum n (fun s => Sum n (fun r => U r s * L s a * g r))).
  { apply Rsum_ext. intros s _. rewrite <- Rsum_scal. apply Rsum_ext. intros. ring. }
  rewrite Rsum_swap. apply Rsum_ext. intros r _. now rewrite Rsum_scal_r.
Qed.
Lemma con2_comp n U L f a b : con2 n L (con2 n U f) a b = con2 n (mprod n U L) f a b.
Proof.
  unfold con2.
  transitivity (con1 n L (con1 n U (fun p => con1 n (mprod n U L) (fun q => f p q) b)) a).
  2: apply con1_comp.
  apply con1_g. intros r _.
  rewrite (con1_swap n L U (fun s p => con1 n U (fun q => f p q) s)).
  apply con1_g. intros p _. apply con1_comp.
Qed.
Lemma con12_swap n U V (h : nat -> nat -> nat -> R) a b c :
  con1 n U (fun p => con2 n V (fun s t => h p s t) b c) a
  = con2 n V (fun s t => con1 n U (fun p => h p s t) a) b c.
Proof.
  unfold con2. rewrite con1_swap. apply con1_g. intros s _. apply con1_swap.
Qed.
Lemma con12_swap_r n U (h : nat -> nat -> nat -> R) a b c :
  con1 n U (fun p => con2 n U (fun s t => h p s t) b c) a
  = con1 n U (fun t => con2 n U (fun p s => h p s t) a b) c.
Proof.
  unfold con2. symmetry. rewrite con1_swap. apply con1_g. intros p _.
  now rewrite con1_swap.
Qed.
Lemma con3_comp n U L f a b c : con3 n L (con3 n U f) a b c = con3 n (mprod n U L) f a b c.
Proof.
  unfold con3.
  transitivity (con1 n L (con1 n U (fun p => con2 n (mprod n U L) (fun q t => f p q t) b c)) a).
  2: apply con1_comp.
  apply con1_g. intros r _.
  rewrite <- (con12_swap n U L (fun p s t => con2 n U (fun q u => f p q u) s t)).
  apply con1_g. intros p _. apply con2_comp.
Qed.
Lemma con13_swap n U V (h : nat -> nat -> nat -> nat -> R) a b c d :
  con1 n U (fun p => con3 n V (fun s t u => h p s t u) b c d) a
  = con3 n V (fun s t u => con1 n U (fun p => h p s t u) a) b c d.
Proof.
  unfold con3. rewrite con1_swap. apply con1_g. intros s _. apply con12_swap.
Qed.
Lemma con4_comp n U L f a b c d : con4 n L (con4 n U f) a b c d = con4 n (mprod n U L) f a b c d.
Proof.
  unfold con4.
  transitivity (con1 n L (con1 n U (fun p => con3 n (mprod n U L) (fun q t u => f p q t u) b c d)) a).
  2: apply con1_comp.
  apply con1_g. intros r _.
  rewrite <- (con13_swap n U L (fun p s t u => con3 n U (fun q v w => f p q v w) s t u)).
  apply con1_g. intros p _. apply con3_comp.
Qed.

Lemma con1_mat n U V g a : (forall r, (r < n)%nat -> U r a = V r a) -> con1 n U g a = con1 n V g a.
Proof. intros. now apply con1_ext. Qed.
Lemma con2_mat n U V f a b : (forall r c, (r < n)%nat -> c = a \/ c = b -> U r c = V r c) ->
  con2 n U f a b = con2 n V f a b.
Proof.
  intros E. unfold con2. apply con1_ext; [intros; apply E; auto|]. intros r _.
  apply con1_mat. intros; apply E; auto.
Qed.
Lemma con3_mat n U V f a b c : (forall r d, (r < n)%nat -> d = a \/ d = b \/ d = c -> U r d = V r d) ->
  con3 n U f a b c = con3 n V f a b c.
Proof.
  intros E. unfold con3. apply con1_ext; [intros; apply E; auto|]. intros r _.
  apply con2_mat. intros q e Hq He; apply E; tauto.
Qed.
Lemma con4_mat n U V f a b c d :
  (forall r e, (r < n)%nat -> e = a \/ e = b \/ e = c \/ e = d -> U r e = V r e) ->
  con4 n U f a b c d = con4 n V f a b c d.
Proof.
  intros E. unfold con4. apply con1_ext; [intros; apply E; auto|]. intros r _.
  apply con3_mat. intros q e Hq He; apply E; tauto.
Qed.

Lemma Rsum_only (f : nat -> R) n i :
  (i < n)%nat -> (forall a, (a < n)%nat -> a <> i -> f a = 0) -> Sum n f = f i.
Proof.
  intros Hi E. rewrite <- (Rsum_single f (seq 0 n) i (seq_NoDup _ _)) by (apply in_seq; lia).
  apply Rsum_ext. intros a Ha. apply in_seq in Ha.
  destruct (Nat.eqb_spec a i) as [->|N]; [reflexivity|]. apply E; lia.
Qed.
Definition delta (a b : nat) : R := if (a =? b)%nat then 1 else 0.
Lemma con1_delta n g a : (a < n)%nat -> con1 n delta g a = g a.
Proof.
  intros Ha. unfold con1. rewrite (Rsum_only _ n a Ha).
  - unfold delta. rewrite Nat.eqb_refl. ring.
  - intros r Hr N. unfold delta. destruct (Nat.eqb_spec r a); [contradiction|]. ring.
Qed.
Lemma con2_delta n f a b : (a < n)%nat -> (b < n)%nat -> con2 n delta f a b = f a b.
Proof. intros. unfold con2. rewrite con1_delta by assumption. now apply con1_delta. Qed.
Lemma con3_delta n f a b c : (a < n)%nat -> (b < n)%nat -> (c < n)%nat -> con3 n delta f a b c = f a b c.
Proof. intros. unfold con3. rewrite con1_delta by assumption. now apply con2_delta. Qed.
Lemma con4_delta n f a b c d : (a < n)%nat -> (b < n)%nat -> (c < n)%nat -> (d < n)%nat ->
  con4 n delta f a b c d = f a b c d.
Proof. intros. unfold con4. rewrite con1_delta by assumption. now apply con3_delta. Qed.

(** ** rotation to the principal axes *)

(** the matrix that turns the three coordinates of every atom *)
Definition every_atom (axes : nat -> nat -> R) (r c : nat) : R :=
  if (r / 3 =? c / 3)%nat then axes (r mod 3) (c mod 3) else 0.

Lemma sum_blocks N (f : nat -> R) :
  Sum (3 * N) f = Sum N (fun q => Sum 3 (fun m => f (3 * q + m)%nat)).
Proof.
  induction N as [|N IH]; [reflexivity|].
  rewrite (seq_S N), Rsum_app, <- IH.
  replace (3 * S N)%nat with (3 * N + 3)%nat by lia.
  rewrite seq_app, Rsum_app. f_equal.
  cbn [seq]. rewrite !Rsum_cons. cbn [Nat.add]. unfold Rsum at 1 2 3. cbn [fold_right].
  rewrite Nat.add_0_r. replace (S (3 * N))%nat with (3 * N + 1)%nat by lia.
  replace (S (3 * N + 1))%nat with (3 * N + 2)%nat by lia. ring.
Qed.
Lemma div_block q m : (m < 3)%nat -> ((3 * q + m) / 3 = q)%nat.
Proof. intros Hm. rewrite Nat.mul_comm, Nat.div_add_l by lia. rewrite Nat.div_small by lia. lia. Qed.
Lemma mod_block q m : (m < 3)%nat -> ((3 * q + m) mod 3 = m)%nat.
Proof. intros Hm. rewrite Nat.add_comm, Nat.mul_comm, Nat.mod_add by lia. now apply Nat.mod_small. Qed.
Lemma block_eq a : (3 * (a / 3) + a mod 3 = a)%nat.
Proof. symmetry. apply Nat.div_mod. lia. Qed.
Lemma block_lt N a : (a < 3 * N)%nat -> (a / 3 < N)%nat.
Proof. intros. apply Nat.div_lt_upper_bound; lia. Qed.

(** contracting with [every_atom] touches one block *)
Lemma con1_block N axes g a : (a < 3 * N)%nat ->
  con1 (3 * N) (every_atom axes) g a
  = Sum 3 (fun m => axes m (a mod 3)%nat * g (3 * (a / 3) + m)%nat).
Proof.
  intros Ha. unfold con1. rewrite sum_blocks.
  rewrite (Rsum_only _ N (a / 3)%nat (block_lt _ _ Ha)).
  - apply Rsum_ext. intros m Hm. apply in_seq in Hm. unfold every_atom.
    rewrite div_block, mod_block, Nat.eqb_refl by lia. reflexivity.
  - intros q Hq Nq. apply Rsum_0. intros m Hm. apply in_seq in Hm. unfold every_atom.
    rewrite div_block by lia. destruct (Nat.eqb_spec q (a / 3)%nat); [contradiction|]. ring.
Qed.

Lemma mm_R n (a b : nat -> nat -> R) i j : mm n a b i j = Sum n (fun k => a i k * b k j).
Proof. unfold mm. now rewrite nsum_R, range_0. Qed.
Lemma turn_R (axes A : nat -> nat -> R) i j :
  turn axes A i j = Sum 3 (fun a => axes a i * Sum 3 (fun b => axes b j * A a b)).
Proof.
  unfold turn. rewrite mm_R. unfold Rsum. cbn [seq fold_right].
  rewrite !mm_R. unfold Rsum, tr. cbn [seq fold_right]. ring.
Qed.

Lemma set_block_in {F} (f : nat -> nat -> F) ia ib t a b : (a < 3)%nat -> (b < 3)%nat ->
  set_block f ia ib t (ia + a) (ib + b) = t a b.
Proof.
  intros Ha Hb. unfold set_block.
  destruct (Nat.leb_spec ia (ia + a)); [|lia]. destruct (Nat.ltb_spec (ia + a) (ia + 3)); [|lia].
  destruct (Nat.leb_spec ib (ib + b)); [|lia]. destruct (Nat.ltb_spec (ib + b) (ib + 3)); [|lia].
  cbn [andb]. f_equal; lia.
Qed.
Lemma set_block_at {F} (f : nat -> nat -> F) ia ib t a b x y :
  (x < 3)%nat -> (y < 3)%nat -> (a = ia + x)%nat -> (b = ib + y)%nat ->
  set_block f ia ib t a b = t x y.
Proof. intros Hx Hy -> ->. now apply set_block_in. Qed.
Lemma set_block_out {F} (f : nat -> nat -> F) ia ib t a b :
  ~ (ia <= a < ia + 3 /\ ib <= b < ib + 3)%nat -> set_block f ia ib t a b = f a b.
Proof.
  intros N. unfold set_block.
  destruct (Nat.leb_spec ia a), (Nat.ltb_spec a (ia + 3)), (Nat.leb_spec ib b), (Nat.ltb_spec b (ib + 3));
    cbn [andb]; try reflexivity. exfalso. apply N. lia.
Qed.

Lemma rot2nd_lemma N axes f a b : (a < 3 * N)%nat -> (b < 3 * N)%nat ->
  rot2nd N axes f a b = con2 (3 * N) (every_atom axes) f a b.
Proof.
  intros Ha Hb.
  transitivity (turn axes (block f (3 * (a / 3)) (3 * (b / 3))) (a mod 3) (b mod 3)).
  2:{ rewrite turn_R. unfold con2. rewrite con1_block by assumption. apply Rsum_ext. intros m _.
      rewrite con1_block by assumption. reflexivity. }
  set (v := turn axes (block f (3 * (a / 3)) (3 * (b / 3))) (a mod 3) (b mod 3)).
  assert (Ma : (a mod 3 < 3)%nat) by (apply Nat.mod_upper_bound; lia).
  assert (Mb : (b mod 3 < 3)%nat) by (apply Nat.mod_upper_bound; lia).
  assert (Ia : In (3 * (a / 3))%nat (map (fun q => 3 * q)%nat (range 0 N))).
  { apply in_map_iff. exists (a / 3)%nat. split; [reflexivity|]. apply in_range.
    pose proof (block_lt _ _ Ha). lia. }
  assert (Ib : In (3 * (b / 3))%nat (map (fun q => 3 * q)%nat (range 0 N))).
  { apply in_map_iff. exists (b / 3)%nat. split; [reflexivity|]. apply in_range.
    pose proof (block_lt _ _ Hb). lia. }
  assert (Nd : NoDup (map (fun q => 3 * q)%nat (range 0 N))).
  { apply NoDup_map_inj; [apply range_nodup|]. intros x y _ _ E. lia. }
  pose proof (block_eq a) as Ea. pose proof (block_eq b) as Eb.
  unfold rot2nd.
  apply (fold_once (fun _ => True) (fun s => s a b = v) _ _ (3 * (a / 3))%nat); auto.
  - intros s _. apply (fold_once (fun _ => True) (fun s => s a b = v) _ _ (3 * (b / 3))%nat); auto.
    + intros s' _. apply set_block_at; auto.
    + intros s' x Hx Nx E. rewrite set_block_out; [exact E|].
      apply in_map_iff in Hx as (q & <- & _). lia.
  - intros s x Hx Nx E. apply (fold_inv (fun s => s a b = v)); [|exact E].
    intros s' y _ E'. rewrite set_block_out; [exact E'|].
    apply in_map_iff in Hx as (q & <- & _). lia.
Qed.

Lemma rot3rd_lemma N axes f a b c : (a < 3 * N)%nat -> (b < 3 * N)%nat -> (c < 3 * N)%nat ->
  rot3rd N (3 * N) axes f a b c = con3 (3 * N) (every_atom axes) f a b c.
Proof.
  intros Ha Hb Hc.
  assert (M : forall x, (x mod 3 < 3)%nat) by (intros; apply Nat.mod_upper_bound; lia).
  assert (H12 : forall t, (t < 3 * N)%nat ->
    rot3rd_12 N (3 * N) axes f a b t = con2 (3 * N) (every_atom axes) (fun r s => f r s t) a b).
  { intros t Ht.
    transitivity (turn axes (block (fun r s => f r s t) (a / 3 * 3) (b / 3 * 3)) (a mod 3) (b mod 3)).
    2:{ rewrite turn_R. unfold con2. rewrite con1_block by assumption. apply Rsum_ext. intros m _.
        rewrite con1_block by assumption. unfold block.
        rewrite (Nat.mul_comm (a / 3)), (Nat.mul_comm (b / 3)). reflexivity. }
    set (v := turn axes (block (fun r s => f r s t) (a / 3 * 3) (b / 3 * 3)) (a mod 3) (b mod 3)).
    pose proof (block_eq a) as Ea. pose proof (block_eq b) as Eb.
    pose proof (block_lt _ _ Ha). pose proof (block_lt _ _ Hb).
    unfold rot3rd_12.
    apply (fold_once (fun _ => True) (fun s => s a b t = v) _ _ t); auto; try apply range_nodup.
    - apply in_range. lia.
    - intros s _.
      apply (fold_once (fun _ => True) (fun s => s a b t = v) _ _ (a / 3)%nat); auto; try apply range_nodup.
      + apply in_range. lia.
      + intros s1 _.
        apply (fold_once (fun _ => True) (fun s => s a b t = v) _ _ (b / 3)%nat); auto; try apply range_nodup.
        * apply in_range. lia.
        * intros s2 _. cbv zeta. rewrite Nat.eqb_refl.
          apply set_block_at; auto; lia.
        * intros s2 x Hx Nx E. cbv zeta. rewrite Nat.eqb_refl, set_block_out; [exact E|]. lia.
      + intros s1 x Hx Nx E. apply (fold_inv (fun s => s a b t = v)); [|exact E].
        intros s2 y _ E2. cbv zeta. rewrite Nat.eqb_refl, set_block_out; [exact E2|]. lia.
    - intros s x Hx Nx E. apply (fold_inv (fun s => s a b t = v)); [|exact E].
      intros s1 y _ E1. apply (fold_inv (fun s => s a b t = v)); [|exact E1].
      intros s2 z _ E2. cbv zeta. destruct (Nat.eqb_spec t x) as [->|]; [contradiction|]. exact E2. }
  pose proof (block_eq c) as Ec. pose proof (block_lt _ _ Hc) as Lc.
  set (g := fun t => con2 (3 * N) (every_atom axes) (fun r s => f r s t) a b).
  transitivity (Sum 3 (fun m => axes m (c mod 3)%nat * g (3 * (c / 3) + m)%nat)).
  2:{ rewrite <- (con1_block N axes g c Hc). unfold con3, g. symmetry. apply con12_swap_r. }
  set (v := fun ii => Sum 3 (fun m => axes m ii * g (3 * (c / 3) + m)%nat)).
  enough (E : forall ii, (ii < 3)%nat -> rot3rd N (3 * N) axes f a b (3 * (c / 3) + ii)%nat = v ii).
  { rewrite <- Ec at 1. now apply E. }
  set (P := fun s : nat -> nat -> nat -> R => forall ii, (ii < 3)%nat -> s a b (3 * (c / 3) + ii)%nat = g (3 * (c / 3) + ii)%nat).
  set (Q := fun s : nat -> nat -> nat -> R => forall ii, (ii < 3)%nat -> s a b (3 * (c / 3) + ii)%nat = v ii).
  change (Q (rot3rd N (3 * N) axes f)).
  assert (Keep : forall (u : nat -> R) j k i (s : nat -> nat -> nat -> R) val,
     (j, k, i) <> (a, b, c / 3)%nat ->
     (forall ii, (ii < 3)%nat -> s a b (3 * (c / 3) + ii)%nat = u ii) ->
     forall ii, (ii < 3)%nat ->
     fold_left (fun r ii => upd3 r j k (i * 3 + ii) (nth ii val 0)) (range 0 3) s a b (3 * (c / 3) + ii)%nat = u ii).
  { intros u j k i s val Nx Hs ii Hii. rewrite <- Hs by assumption.
    cbn -[Nat.mul Nat.div nth]. unfold upd3.
    assert (X : forall e, (e < 3)%nat -> ((a =? j) && (b =? k) && (3 * (c / 3) + ii =? i * 3 + e))%nat = false).
    { intros e He. destruct (Nat.eqb_spec a j), (Nat.eqb_spec b k),
        (Nat.eqb_spec (3 * (c / 3) + ii) (i * 3 + e)); try reflexivity.
      exfalso. apply Nx. subst j k. f_equal. lia. }
    now rewrite !X by lia. }
  assert (KP : forall j k i s val, (j, k, i) <> (a, b, c / 3)%nat -> P s ->
     P (fold_left (fun r ii => upd3 r j k (i * 3 + ii) (nth ii val 0)) (range 0 3) s)).
  { intros j k i s val Nx Hs. exact (Keep (fun ii => g (3 * (c / 3) + ii)%nat) j k i s val Nx Hs). }
  assert (KQ : forall j k i s val, (j, k, i) <> (a, b, c / 3)%nat -> Q s ->
     Q (fold_left (fun r ii => upd3 r j k (i * 3 + ii) (nth ii val 0)) (range 0 3) s)).
  { intros j k i s val Nx Hs. exact (Keep v j k i s val Nx Hs). }
  assert (Z : (@nz R _ 0) = 0) by apply nz_R.
  unfold rot3rd. rewrite Z.
  apply (fold_once P Q _ _ a); try apply range_nodup.
  - apply in_range. lia.
  - intros s Hs. apply (fold_once P Q _ _ b); try apply range_nodup; [apply in_range; lia| | | |exact Hs].
    + intros s1 Hs1. apply (fold_once P Q _ _ (c / 3)%nat); try apply range_nodup; [apply in_range; lia| | | |exact Hs1].
      * intros s2 Hs2 ii Hii. cbv zeta.
        assert (E0 := Hs2 0%nat ltac:(lia)). assert (E1 := Hs2 1%nat ltac:(lia)). assert (E2 := Hs2 2%nat ltac:(lia)).
        rewrite Nat.add_0_r in E0. rewrite (Nat.mul_comm 3) in E0, E1, E2 |- *.
        rewrite E0, E1, E2. cbn -[Nat.mul Nat.div]. unfold upd3. rewrite !Nat.eqb_refl. cbn [andb].
        unfold v, Rsum. cbn [seq fold_right]. rewrite !(Nat.mul_comm 3), Nat.add_0_r.
        destruct ii as [|[|[|]]]; try lia;
          repeat match goal with |- context [(?x =? ?y)%nat] => destruct (Nat.eqb_spec x y); [try lia|try lia] end; ring.
      * intros s2 x _ Nx Hs2. apply KP; [|exact Hs2]. congruence.
      * intros s2 x _ Nx Hs2. apply KQ; [|exact Hs2]. congruence.
    + intros s1 x _ Nx Hs1. apply (fold_inv P); [|exact Hs1]. intros s2 y _. apply KP. congruence.
    + intros s1 x _ Nx Hs1. apply (fold_inv Q); [|exact Hs1]. intros s2 y _. apply KQ. congruence.
  - intros s x _ Nx Hs. apply (fold_inv P); [|exact Hs]. intros s1 y _ Hs1.
    apply (fold_inv P); [|exact Hs1]. intros s2 z _. apply KP. congruence.
  - intros s x _ Nx Hs. apply (fold_inv Q); [|exact Hs]. intros s1 y _ Hs1.
    apply (fold_inv Q); [|exact Hs1]. intros s2 z _. apply KQ. congruence.
  - intros ii Hii. apply H12. lia.
Qed.
