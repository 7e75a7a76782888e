(** Displacements of a molecule that is turned as a whole: zero frequencies, and modes
    without angular momentum. *)
From Coq Require Import Reals Lra List ZArith Arith Lia Bool Permutation Sorted.
From Verif Require Import Num Loops Index ListFacts IndexFacts ResFacts Anharm AnharmFacts DistortFacts
  VibRot VibRotFacts Transform TransformFacts RotFacts NormalFacts HarmFacts ModeFacts ZeroFacts InertiaFacts.
Import ListNotations.
Open Scope nat_scope.
Local Open Scope R_scope.

(** the position of atom [q] in the axes of the input, from that in the principal axes *)
Definition input_position (axes : nat -> nat -> R) (geom : nat -> R * R * R) (q m : nat) : R :=
  Sum 3 (fun x => axes m x * comp (geom q) x).
(** the energy does not change when the molecule is turned: displacements [W r] with [W]
    antisymmetric cost no energy *)
Definition rotation_free (N : nat) (f : nat -> nat -> R) (p : nat -> nat -> R) : Prop :=
  forall W : nat -> nat -> R, (forall j k, W j k = - W k j) ->
  forall a, (a < 3 * N)%nat ->
  Sum (3 * N) (fun b => f a b * Sum 3 (fun k => W (b mod 3)%nat k * p (b / 3)%nat k)) = 0.

Definition moved (axes : nat -> nat -> R) (e : nat -> nat -> R) (a : nat) : R :=
  Sum 3 (fun x => axes (a mod 3)%nat x * e (a / 3)%nat x).

(** an orthogonal matrix keeps products *)
Lemma orth_product (A : nat -> nat -> R) (e e' : nat -> R) : orth 3 A ->
  Sum 3 (fun m => Sum 3 (fun x => A m x * e x) * Sum 3 (fun y => A m y * e' y)) = Sum 3 (fun x => e x * e' x).
Proof.
  intros [_ O].
  transitivity (Sum 3 (fun x => Sum 3 (fun y => Sum 3 (fun m => A m x * A m y) * (e x * e' y)))).
  - rewrite !sum_3. ring.
  - apply sum_g. intros x Hx. transitivity (Sum 3 (fun y => delta x y * (e x * e' y))).
    + apply sum_g. intros y Hy. now rewrite O.
    + apply (sum_delta 3 (fun y => e x * e' y) x Hx).
Qed.
Lemma orth_back (A : nat -> nat -> R) (e : nat -> R) x : orth 3 A -> (x < 3)%nat ->
  Sum 3 (fun m => A m x * Sum 3 (fun y => A m y * e y)) = e x.
Proof.
  intros [_ O] Hx. transitivity (Sum 3 (fun y => Sum 3 (fun m => A m x * A m y) * e y)).
  - rewrite !sum_3. ring.
  - transitivity (Sum 3 (fun y => delta x y * e y)); [|now apply sum_delta].
    apply sum_g. intros y Hy. now rewrite O.
Qed.

Section Turn.
  Variables (N : nat) (axes f : nat -> nat -> R) (w : nat -> R) (geom : nat -> R * R * R)
            (eig : (nat -> nat -> R) -> list R * (nat -> nat -> R)).
  Notation n := (3 * N)%nat.
  Hypothesis Sy : sym2 n f.
  Hypothesis Hw : forall q, (q < N)%nat -> 0 < w q.
  Hypothesis HO : orth 3 axes.
  Hypothesis HS : solves n eig (secular N axes f w).

  Lemma turn_null E : rotation_free N f (input_position axes geom) -> (forall j k, E j k = - E k j) ->
    null n f (moved axes (fun q x => Sum 3 (fun b => E x b * comp (geom q) b))).
  Proof.
    intros Hr HE a Ha.
    rewrite <- (Hr (fun m k => Sum 3 (fun x => Sum 3 (fun b => axes m x * E x b * axes k b)))) with (a := a).
    - apply sum_g. intros b Hb. f_equal. unfold moved, input_position.
      set (m := (b mod 3)%nat). set (q := (b / 3)%nat).
      transitivity (Sum 3 (fun x => axes m x * Sum 3 (fun c => E x c *
        Sum 3 (fun k => axes k c * Sum 3 (fun l => axes k l * comp (geom q) l))))).
      + apply sum_g. intros x Hx. f_equal. apply sum_g. intros c Hc. f_equal. symmetry.
        now apply (orth_back axes (comp (geom q))).
      + rewrite !sum_3. ring.
    - intros j k. rewrite !sum_3.
      rewrite (HE 1%nat 0%nat), (HE 2%nat 0%nat), (HE 2%nat 1%nat).
      assert (D : forall i, E i i = 0) by (intros i; specialize (HE i i); lra). rewrite !D. ring.
    - exact Ha.
  Qed.
  Lemma shift_null (v : nat -> R) : translation_free N f -> null n f (moved axes (fun _ x => v x)).
  Proof. intros Ht. exact (translation_null N f w Hw (fun m => Sum 3 (fun x => axes m x * v x)) Ht). Qed.

  Lemma moved_overlap e e' : Sum n (fun a => w (a / 3)%nat * moved axes e a * moved axes e' a)
    = Sum N (fun q => w q * Sum 3 (fun x => e q x * e' q x)).
  Proof.
    rewrite sum_blocks. apply sum_g. intros q _. rewrite <- (orth_product axes (e q) (e' q) HO), <- Rsum_scal.
    apply sum_g. intros m Hm. unfold moved. rewrite div_block, mod_block by exact Hm. ring.
  Qed.
  Lemma moved_back e q x : (q < N)%nat -> (x < 3)%nat -> con1 n (every_atom axes) (moved axes e) (3 * q + x) = e q x.
  Proof.
    intros Hq Hx. rewrite con1_block by lia. rewrite div_block, mod_block by exact Hx.
    rewrite <- (orth_back axes (e q) x HO Hx). apply sum_g. intros m Hm.
    unfold moved. rewrite div_block, mod_block by exact Hm. reflexivity.
  Qed.

  (** the modes *)
  Lemma eckart_lemma : rotation_free N f (input_position axes geom) ->
    exists freq lxm, harmonic N axes f w eig = Some (freq, lxm) /\
      forall i y, nth_error freq i = Some y -> y <> 0 -> eckart N geom w lxm i.
  Proof.
    intros Hr.
    destruct (free_run N axes f w eig Sy Hw HO HS) as (h & V & E & He & _).
    exists (map to_wavenumber h), V. split; [exact E|]. intros i y Ey Ny a b Ha Hb.
    set (G := fun x c : nat => delta x b * delta c a - delta x a * delta c b).
    destruct (free_mode_lemma N axes f w eig Sy Hw HO HS _ (turn_null G Hr
      ltac:(intros j k; unfold G; ring))) as (fr & V' & E' & Q).
    rewrite E in E'. injection E' as <- <-. specialize (Q i y Ey Ny).
    assert (Hi : (i < n)%nat).
    { destruct He as (Hl & _). rewrite <- Hl, <- (map_length to_wavenumber). apply nth_error_Some. congruence. }
    rewrite <- Q. rewrite sum_blocks. apply sum_g. intros q Hq.
    assert (P : 0 < sqrt (w q)) by (apply sqrt_lt_R0; auto).
    transitivity (Sum 3 (fun x => sqrt (w q) * Sum 3 (fun c => G x c * comp (geom q) c) * V (3 * q + x)%nat i)).
    - unfold G. rewrite !sum_3.
      destruct a as [|[|[|a]]]; try lia; destruct b as [|[|[|b]]]; try lia; unfold delta; cbn [Nat.eqb]; ring_simplify;
        rewrite ?Nat.add_0_r; ring.
    - apply sum_g. intros x Hx. rewrite moved_back by assumption. rewrite div_block by exact Hx.
      rewrite make_lx_eq by (try assumption; lia). unfold make_sqm. rewrite nz_R, div_block by exact Hx.
      cbn [nmul ndiv nsqrt Rnum]. rewrite <- (sqrt_sqrt (w q)) at 2 by (apply Rlt_le; auto). field. lra.
  Qed.

  (** the number of zero frequencies *)
  Definition about (c x b : nat) : R :=
    match c, x, b with
    | 0%nat, 1%nat, 2%nat => -1 | 0%nat, 2%nat, 1%nat => 1
    | 1%nat, 2%nat, 0%nat => -1 | 1%nat, 0%nat, 2%nat => 1
    | 2%nat, 0%nat, 1%nat => -1 | 2%nat, 1%nat, 0%nat => 1
    | _, _, _ => 0
    end.
  Lemma about_anti c j k : about c j k = - about c k j.
  Proof.
    destruct c as [|[|[|c]]], j as [|[|[|j]]], k as [|[|[|k]]]; cbn; ring.
  Qed.
  Lemma about_inertia c c' : (c < 3)%nat -> (c' < 3)%nat ->
    Sum N (fun q => w q * Sum 3 (fun x => Sum 3 (fun b => about c x b * comp (geom q) b) * Sum 3 (fun b => about c' x b * comp (geom q) b)))
    = inertia N w geom c c'.
  Proof.
    intros Hc Hc'. unfold inertia. apply sum_g. intros q _. f_equal. rewrite !sum_3. unfold kron.
    destruct c as [|[|[|c]]]; try lia; destruct c' as [|[|[|c']]]; try lia; cbn [about Nat.eqb]; ring.
  Qed.
  Lemma about_shift c v s : (forall x, (x < 3)%nat -> Sum N (fun q => w q * comp (geom q) x) = 0) ->
    Sum N (fun q => w q * Sum 3 (fun x => v x * (Sum 3 (fun b => about c x b * comp (geom q) b) * s))) = 0.
  Proof.
    intros Hm.
    transitivity (Sum 3 (fun x => Sum 3 (fun b => v x * about c x b * s * Sum N (fun q => w q * comp (geom q) b)))).
    - transitivity (Sum N (fun q => Sum 3 (fun x => Sum 3 (fun b => v x * about c x b * s * (w q * comp (geom q) b))))).
      + apply sum_g. intros q _. rewrite !sum_3. ring.
      + rewrite Rsum_swap. apply sum_g. intros x _. rewrite Rsum_swap. apply sum_g. intros b _. now rewrite Rsum_scal.
    - apply Rsum_0. intros x _. apply Rsum_0. intros b Hb%in_seq. rewrite Hm by lia. ring.
  Qed.

  Lemma zeros_lemma (ax : list nat) :
    (0 < N)%nat -> translation_free N f -> rotation_free N f (input_position axes geom) ->
    (forall x, (x < 3)%nat -> Sum N (fun q => w q * comp (geom q) x) = 0) ->
    (forall x y, (x < 3)%nat -> (y < 3)%nat -> x <> y -> inertia N w geom x y = 0) ->
    NoDup ax -> (forall x, In x ax -> (x < 3)%nat /\ 0 < inertia N w geom x x) ->
    exists freq lxm, harmonic N axes f w eig = Some (freq, lxm) /\
      (3 + length ax <= count_occ Req_EM_T freq 0%R)%nat.
  Proof.
    intros HN Ht Hr Hm Hi Nd Hax.
    set (M := Sum N w). assert (MP : 0 < M) by (apply sum_pos; assumption).
    pose proof (sqrt_lt_R0 M MP) as SM.
    set (k := length ax).
    set (c := fun i => nth (i - 3)%nat ax 0%nat).
    assert (Hc : forall i, (3 <= i)%nat -> (i < 3 + k)%nat -> In (c i) ax) by (intros; apply nth_In; unfold k in *; lia).
    set (E := fun (i q x : nat) => if (i <? 3)%nat then delta x i / sqrt M
      else Sum 3 (fun b => about (c i) x b * comp (geom q) b) * / sqrt (inertia N w geom (c i) (c i))).
    apply (free_count_lemma N axes f w eig Sy Hw HO HS (3 + k) (fun i => moved axes (E i))).
    - intros i Hi'. unfold E. destruct (Nat.ltb_spec i 3) as [L|L].
      + apply (shift_null (fun x => delta x i / sqrt M) Ht).
      + set (s := / sqrt (inertia N w geom (c i) (c i))).
        assert (Q : null n f (moved axes (fun q x => Sum 3 (fun b => (s * about (c i) x b) * comp (geom q) b)))).
        { apply (turn_null (fun x b => s * about (c i) x b) Hr). intros j l. rewrite (about_anti _ j l). ring. }
        intros a Ha. rewrite <- (Q a Ha). apply sum_g. intros b Hb. f_equal. unfold moved. apply sum_g. intros x Hx.
        f_equal. rewrite !sum_3. ring.
    - intros i j Hi' Hj'. rewrite moved_overlap. unfold E.
      destruct (Nat.ltb_spec i 3) as [Li|Li], (Nat.ltb_spec j 3) as [Lj|Lj].
      + transitivity (Sum N (fun q => delta i j / M * w q)).
        * apply sum_g. intros q Hq. rewrite (Rsum_only _ 3 i Li).
          -- unfold delta at 1. rewrite Nat.eqb_refl. rewrite <- (sqrt_sqrt M) at 3 by lra. field. lra.
          -- intros m Hm' Nm. unfold delta at 1. destruct (Nat.eqb_spec m i); [contradiction|]. field. lra.
        * rewrite Rsum_scal. fold M. field. lra.
      + rewrite about_shift by exact Hm. unfold delta. destruct (Nat.eqb_spec i j); [lia|reflexivity].
      + rewrite (sum_g N _ (fun q => w q * Sum 3 (fun x => delta x j / sqrt M * (Sum 3 (fun b => about (c i) x b * comp (geom q) b) * / sqrt (inertia N w geom (c i) (c i)))))).
        * rewrite about_shift by exact Hm. unfold delta. destruct (Nat.eqb_spec i j); [lia|reflexivity].
        * intros q _. f_equal. apply sum_g. intros. ring.
      + destruct (Hax _ (Hc i Li Hi')) as [Ci Pi]. destruct (Hax _ (Hc j Lj Hj')) as [Cj Pj].
        pose proof (sqrt_lt_R0 _ Pi) as Si. pose proof (sqrt_lt_R0 _ Pj) as Sj.
        transitivity (/ sqrt (inertia N w geom (c i) (c i)) * / sqrt (inertia N w geom (c j) (c j)) * inertia N w geom (c i) (c j)).
        * rewrite <- (about_inertia (c i) (c j) Ci Cj), <- Rsum_scal. apply sum_g. intros q _. rewrite !sum_3. ring.
        * unfold delta. destruct (Nat.eqb_spec i j) as [->|Nij].
          -- rewrite <- (sqrt_sqrt (inertia N w geom (c j) (c j))) at 3 by lra. field. lra.
          -- rewrite (Hi (c i) (c j)); [ring|exact Ci|exact Cj|]. intros Ecc. apply Nij.
             assert (Q : (i - 3 = j - 3)%nat).
             { apply (proj1 (NoDup_nth ax 0%nat) Nd); unfold k in *; try lia. exact Ecc. }
             lia.
  Qed.
End Turn.
