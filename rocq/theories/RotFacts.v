(** The fourth-order rotation, and what the three rotations preserve. *)
From Coq Require Import Reals Lra List ZArith Arith Lia Bool Permutation.
From Verif Require Import Num Loops Index ListFacts IndexFacts ResFacts Anharm AnharmFacts Transform
  TransformFacts.
Import ListNotations.
Open Scope nat_scope.
Local Open Scope R_scope.

Lemma con4_as_22 n U f a b c d :
  con4 n U f a b c d = con2 n U (fun r s => con2 n U (f r s) c d) a b.
Proof. reflexivity. Qed.

Lemma rot4th_34_R N axes f i j c d :
  (i < 3 * N)%nat -> (j < 3 * N)%nat -> (c < 3 * N)%nat -> (d < 3 * N)%nat ->
  rot4th_34 N (3 * N) axes f i j c d = con2 (3 * N) (every_atom axes) (f i j) c d.
Proof.
  intros Hi Hj Hc Hd.
  assert (M : forall x, (x mod 3 < 3)%nat) by (intros; apply Nat.mod_upper_bound; lia).
  transitivity (turn axes (block (f i j) (c / 3 * 3) (d / 3 * 3)) (c mod 3) (d mod 3)).
  2:{ rewrite turn_R. unfold con2. rewrite con1_block by assumption. apply Rsum_ext. intros m _.
      rewrite con1_block by assumption. unfold block.
      rewrite (Nat.mul_comm (c / 3)), (Nat.mul_comm (d / 3)). reflexivity. }
  set (v := turn axes (block (f i j) (c / 3 * 3) (d / 3 * 3)) (c mod 3) (d mod 3)).
  pose proof (block_eq c) as Ec. pose proof (block_eq d) as Ed.
  pose proof (block_lt _ _ Hc). pose proof (block_lt _ _ Hd).
  unfold rot4th_34. set (Q := fun s : nat -> nat -> nat -> nat -> R => s i j c d = v).
  change (Q (rot4th_34 N (3 * N) axes f)). unfold rot4th_34.
  apply (fold_once (fun _ => True) Q _ _ i); auto; try apply range_nodup.
  - apply in_range. lia.
  - intros s _. apply (fold_once (fun _ => True) Q _ _ j); auto; try apply range_nodup.
    + apply in_range. lia.
    + intros s1 _. apply (fold_once (fun _ => True) Q _ _ (c / 3)%nat); auto; try apply range_nodup.
      * apply in_range. lia.
      * intros s2 _. apply (fold_once (fun _ => True) Q _ _ (d / 3)%nat); auto; try apply range_nodup.
        -- apply in_range. lia.
        -- intros s3 _. unfold Q. cbv zeta. rewrite !Nat.eqb_refl. cbn [andb].
           apply set_block_at; auto; lia.
        -- intros s3 x Hx Nx E. unfold Q. cbv zeta. rewrite !Nat.eqb_refl. cbn [andb].
           rewrite set_block_out; [exact E|]. lia.
      * intros s2 x Hx Nx E. apply (fold_inv Q); [|exact E]. intros s3 y _ E3.
        unfold Q. cbv zeta. rewrite !Nat.eqb_refl. cbn [andb].
        rewrite set_block_out; [exact E3|]. lia.
    + intros s1 x Hx Nx E. apply (fold_inv Q); [|exact E]. intros s2 y _ E2.
      apply (fold_inv Q); [|exact E2]. intros s3 z _ E3. unfold Q. cbv zeta.
      destruct (Nat.eqb_spec j x) as [->|]; [contradiction|]. rewrite andb_false_r. exact E3.
  - intros s x Hx Nx E. apply (fold_inv Q); [|exact E]. intros s1 y _ E1.
    apply (fold_inv Q); [|exact E1]. intros s2 z _ E2. apply (fold_inv Q); [|exact E2].
    intros s3 u _ E3. unfold Q. cbv zeta.
    destruct (Nat.eqb_spec i x) as [->|]; [contradiction|]. exact E3.
Qed.

Lemma turn_ext (axes A A' : nat -> nat -> R) i j :
  (forall x y, (x < 3)%nat -> (y < 3)%nat -> A x y = A' x y) -> turn axes A i j = turn axes A' i j.
Proof.
  intros E. rewrite !turn_R. apply Rsum_ext. intros x Hx. apply in_seq in Hx. f_equal.
  apply Rsum_ext. intros y Hy. apply in_seq in Hy. rewrite E by lia. reflexivity.
Qed.

Lemma rot4th_lemma N axes f a b c d :
  (a < 3 * N)%nat -> (b < 3 * N)%nat -> (c < 3 * N)%nat -> (d < 3 * N)%nat ->
  rot4th N (3 * N) axes f a b c d = con4 (3 * N) (every_atom axes) f a b c d.
Proof.
  intros Ha Hb Hc Hd.
  assert (M : forall x, (x mod 3 < 3)%nat) by (intros; apply Nat.mod_upper_bound; lia).
  set (g := fun r s => con2 (3 * N) (every_atom axes) (f r s) c d).
  transitivity (turn axes (block g (a / 3 * 3) (b / 3 * 3)) (a mod 3) (b mod 3)).
  2:{ rewrite con4_as_22. fold g. rewrite turn_R. unfold con2. rewrite con1_block by assumption.
      apply Rsum_ext. intros m _. rewrite con1_block by assumption. unfold block.
      rewrite (Nat.mul_comm (a / 3)), (Nat.mul_comm (b / 3)). reflexivity. }
  set (t := turn axes (block g (a / 3 * 3) (b / 3 * 3))).
  pose proof (block_eq a) as Ea. pose proof (block_eq b) as Eb.
  pose proof (block_lt _ _ Ha). pose proof (block_lt _ _ Hb).
  set (P := fun s : nat -> nat -> nat -> nat -> R => forall x y, (x < 3)%nat -> (y < 3)%nat ->
     s (a / 3 * 3 + x)%nat (b / 3 * 3 + y)%nat c d = g (a / 3 * 3 + x)%nat (b / 3 * 3 + y)%nat).
  set (Q := fun s : nat -> nat -> nat -> nat -> R => forall x y, (x < 3)%nat -> (y < 3)%nat ->
     s (a / 3 * 3 + x)%nat (b / 3 * 3 + y)%nat c d = t x y).
  enough (E : Q (rot4th N (3 * N) axes f)).
  { specialize (E _ _ (M a) (M b)).
    rewrite (Nat.mul_comm (a / 3)), (Nat.mul_comm (b / 3)), Ea, Eb in E. exact E. }
  set (step := fun k l i (ret : nat -> nat -> nat -> nat -> R) j a b c d =>
     if (Nat.eqb c k && Nat.eqb d l)
     then set_block (fun a b => ret a b k l) (i * 3) (j * 3)
            (turn axes (block (fun a b => ret a b k l) (i * 3) (j * 3))) a b
     else ret a b c d).
  assert (Keep : forall (u : nat -> nat -> R) k l i ret j, (k, l, i, j) <> (c, d, a / 3, b / 3)%nat ->
     (forall x y, (x < 3)%nat -> (y < 3)%nat -> ret (a / 3 * 3 + x)%nat (b / 3 * 3 + y)%nat c d = u x y) ->
     forall x y, (x < 3)%nat -> (y < 3)%nat ->
       step k l i ret j (a / 3 * 3 + x)%nat (b / 3 * 3 + y)%nat c d = u x y).
  { intros u k l i ret j Nx E x y Hx Hy. unfold step.
    destruct (Nat.eqb_spec c k) as [->|]; [|now apply E]. destruct (Nat.eqb_spec d l) as [->|]; [|now apply E].
    cbn [andb]. rewrite set_block_out; [now apply E|]. intros [H1 H2]. apply Nx.
    assert (i = a / 3)%nat by lia. assert (j = b / 3)%nat by lia. congruence. }
  assert (KP : forall k l i ret j, (k, l, i, j) <> (c, d, a / 3, b / 3)%nat -> P ret -> P (step k l i ret j)).
  { intros k l i ret j Nx E. exact (Keep _ k l i ret j Nx E). }
  assert (KQ : forall k l i ret j, (k, l, i, j) <> (c, d, a / 3, b / 3)%nat -> Q ret -> Q (step k l i ret j)).
  { intros k l i ret j Nx E. exact (Keep t k l i ret j Nx E). }
  unfold rot4th. fold step.
  change (Q (fold_left (fun ret k => fold_left (fun ret l => fold_left (fun ret i => fold_left (step k l i)
     (range 0 N) ret) (range 0 N) ret) (range 0 (3 * N)) ret) (range 0 (3 * N)) (rot4th_34 N (3 * N) axes f))).
  apply (fold_once P Q _ _ c); try apply range_nodup.
  - apply in_range. lia.
  - intros s Hs. apply (fold_once P Q _ _ d); try apply range_nodup; [apply in_range; lia| | | |exact Hs].
    + intros s1 Hs1. apply (fold_once P Q _ _ (a / 3)%nat); try apply range_nodup; [apply in_range; lia| | | |exact Hs1].
      * intros s2 Hs2. apply (fold_once P Q _ _ (b / 3)%nat); try apply range_nodup; [apply in_range; lia| | | |exact Hs2].
        -- intros s3 Hs3 x y Hx Hy. unfold step. rewrite !Nat.eqb_refl. cbn [andb].
           rewrite set_block_in by assumption. apply turn_ext. intros p q Hp Hq. now apply Hs3.
        -- intros s3 j _ Nx. apply KP. congruence.
        -- intros s3 j _ Nx. apply KQ. congruence.
      * intros s2 i _ Nx Hs2. apply (fold_inv P); [|exact Hs2]. intros s3 j _. apply KP. congruence.
      * intros s2 i _ Nx Hs2. apply (fold_inv Q); [|exact Hs2]. intros s3 j _. apply KQ. congruence.
    + intros s1 l _ Nx Hs1. apply (fold_inv P); [|exact Hs1]. intros s2 i _ Hs2.
      apply (fold_inv P); [|exact Hs2]. intros s3 j _. apply KP. congruence.
    + intros s1 l _ Nx Hs1. apply (fold_inv Q); [|exact Hs1]. intros s2 i _ Hs2.
      apply (fold_inv Q); [|exact Hs2]. intros s3 j _. apply KQ. congruence.
  - intros s k _ Nx Hs. apply (fold_inv P); [|exact Hs]. intros s1 l _ Hs1.
    apply (fold_inv P); [|exact Hs1]. intros s2 i _ Hs2.
    apply (fold_inv P); [|exact Hs2]. intros s3 j _. apply KP. congruence.
  - intros s k _ Nx Hs. apply (fold_inv Q); [|exact Hs]. intros s1 l _ Hs1.
    apply (fold_inv Q); [|exact Hs1]. intros s2 i _ Hs2.
    apply (fold_inv Q); [|exact Hs2]. intros s3 j _. apply KQ. congruence.
  - intros x y Hx Hy. apply rot4th_34_R; lia.
Qed.

(** ** symmetry and inverse *)
Lemma rot_sym_lemma N axes :
  (forall f a b, (a < 3 * N)%nat -> (b < 3 * N)%nat ->
     (forall r s, (r < 3 * N)%nat -> (s < 3 * N)%nat -> f r s = f s r) ->
     rot2nd N axes f a b = rot2nd N axes f b a) /\
  (forall f, tsym3 (3 * N) f -> tsym3 (3 * N) (rot3rd N (3 * N) axes f)) /\
  (forall f, tsym4 (3 * N) f -> tsym4 (3 * N) (rot4th N (3 * N) axes f)).
Proof.
  split; [|split].
  - intros f a b Ha Hb E. rewrite !rot2nd_lemma by assumption. now apply con2_sym.
  - intros f E a b c Ha Hb Hc. rewrite !rot3rd_lemma by assumption. split.
    + apply con3_12. intros. now apply E.
    + apply con3_23. intros. now apply E.
  - intros f E a b c d Ha Hb Hc Hd. rewrite !rot4th_lemma by assumption. split; [|split].
    + apply con4_12. intros. now apply E.
    + apply con4_23. intros. now apply E.
    + apply con4_34. intros. now apply E.
Qed.

(** the rows of a 3x3 matrix are orthonormal *)
Definition orthonormal_rows (axes : nat -> nat -> R) : Prop :=
  forall i j, (i < 3)%nat -> (j < 3)%nat -> Sum 3 (fun m => axes i m * axes j m) = delta i j.

Lemma every_atom_inv N axes r a : orthonormal_rows axes -> (r < 3 * N)%nat -> (a < 3 * N)%nat ->
  mprod (3 * N) (every_atom axes) (every_atom (tr axes)) r a = delta r a.
Proof.
  intros O Hr Ha. unfold mprod.
  transitivity (Sum (3 * N) (fun s => every_atom (tr axes) s a * every_atom axes r s)).
  { apply Rsum_ext. intros. ring. }
  change (con1 (3 * N) (every_atom (tr axes)) (every_atom axes r) a = delta r a).
  rewrite con1_block by assumption. unfold every_atom, tr.
  assert (M : forall x, (x mod 3 < 3)%nat) by (intros; apply Nat.mod_upper_bound; lia).
  destruct (Nat.eqb_spec (r / 3) (a / 3)) as [E|Ne].
  - transitivity (delta (r mod 3) (a mod 3)).
    + rewrite <- O by apply M. apply Rsum_ext. intros m Hm. apply in_seq in Hm.
      rewrite div_block, mod_block by lia.
      destruct (Nat.eqb_spec (r / 3) (a / 3)); [|contradiction]. ring.
    + unfold delta. pose proof (block_eq r). pose proof (block_eq a).
      destruct (Nat.eqb_spec (r mod 3) (a mod 3)), (Nat.eqb_spec r a); try reflexivity; subst; lia.
  - rewrite Rsum_0.
    + unfold delta. destruct (Nat.eqb_spec r a) as [->|]; [contradiction|reflexivity].
    + intros m Hm. apply in_seq in Hm. rewrite div_block by lia.
      destruct (Nat.eqb_spec (r / 3) (a / 3)); [contradiction|]. ring.
Qed.

Lemma rot_inverse_lemma N axes : orthonormal_rows axes ->
  (forall f a b, (a < 3 * N)%nat -> (b < 3 * N)%nat ->
     rot2nd N (tr axes) (rot2nd N axes f) a b = f a b) /\
  (forall f a b c, (a < 3 * N)%nat -> (b < 3 * N)%nat -> (c < 3 * N)%nat ->
     rot3rd N (3 * N) (tr axes) (rot3rd N (3 * N) axes f) a b c = f a b c) /\
  (forall f a b c d, (a < 3 * N)%nat -> (b < 3 * N)%nat -> (c < 3 * N)%nat -> (d < 3 * N)%nat ->
     rot4th N (3 * N) (tr axes) (rot4th N (3 * N) axes f) a b c d = f a b c d).
Proof.
  intros O. split; [|split].
  - intros f a b Ha Hb. rewrite rot2nd_lemma by assumption.
    transitivity (con2 (3 * N) (every_atom (tr axes)) (con2 (3 * N) (every_atom axes) f) a b).
    { apply con2_g. intros. now apply rot2nd_lemma. }
    rewrite con2_comp, <- (con2_delta (3 * N) f a b) by assumption.
    apply con2_mat. intros r c Hr [->| ->]; now apply every_atom_inv.
  - intros f a b c Ha Hb Hc. rewrite rot3rd_lemma by assumption.
    transitivity (con3 (3 * N) (every_atom (tr axes)) (con3 (3 * N) (every_atom axes) f) a b c).
    { apply con3_g. intros. now apply rot3rd_lemma. }
    rewrite con3_comp, <- (con3_delta (3 * N) f a b c) by assumption.
    apply con3_mat. intros r e Hr [->|[->| ->]]; now apply every_atom_inv.
  - intros f a b c d Ha Hb Hc Hd. rewrite rot4th_lemma by assumption.
    transitivity (con4 (3 * N) (every_atom (tr axes)) (con4 (3 * N) (every_atom axes) f) a b c d).
    { apply con4_g. intros. now apply rot4th_lemma. }
    rewrite con4_comp, <- (con4_delta (3 * N) f a b c d) by assumption.
    apply con4_mat. intros r e Hr [->|[->|[->| ->]]]; now apply every_atom_inv.
Qed.
