(** The rotational constants of asymmetric tops in every vibrational state, from the
    perturbation theory of a vibrating rotor. *)
From Coq Require Import List Arith ZArith Bool Reals Lra Lia FunctionalExtensionality.
From Verif Require Import Num Loops Index ListFacts AnharmFacts Modes ModesFacts VibRot VibRotFacts.
From Verif Require Import PerturbFacts PerturbSum PerturbLevels VanVleck VanVleckSum.
Import ListNotations.
Open Scope R_scope.

(** ** The specification side *)
Section Spec.
  Variable n : nat.
  Variables (w : nat -> R) (f3 zeta : nat -> nat -> nat -> R).
  (** [a k y z] is the derivative of the moment of inertia [y z] along normal coordinate
      [k], [I] are the principal moments of inertia; [K / I x] is a rotational constant,
      and normal coordinate [k] is [q_k / (lam * sqrt (w k))] *)
  Variables (a : nat -> nat -> nat -> R) (I : nat -> R) (K lam : R).
  (** pairs of modes whose resonance about the axis is reported *)
  Variable rep : nat -> nat -> bool.
  Let S (f : nat -> R) : R := Rsum (seq 0 n) f.
  Let axes (f : nat -> R) : R := f 0%nat + f 1%nat + f 2%nat.

  (** the coefficients of the reciprocal inertia tensor, component [x x], to first and
      second order in the normal coordinates *)
  Definition mu1 (x k : nat) : R := - a k x x / (I x * I x).
  Definition mu2 (x k l : nat) : R := 3 / 4 * axes (fun y => a k x y * a l x y / I y) / (I x * I x).

  (** the terms of the energy of rotation about [x] per square of the angular momentum,
      linear and quadratic in the coordinates *)
  Definition tilt (x : nat) (psi : occ -> R) : occ -> R := fun u =>
    S (fun k => K * mu1 x k / (lam * sqrt (w k)) * pos k psi u).
  Definition bend (x : nat) (psi : occ -> R) : occ -> R := fun u =>
    S (fun k => S (fun l =>
      K * mu2 x k l / (lam * sqrt (w k) * (lam * sqrt (w l))) * pos k (pos l psi) u)).

  (** the first order wave function that [op] mixes into the state [v], without the
      transitions to the states in [skip] *)
  Definition mixed (skip : occ -> bool) (op : (occ -> R) -> occ -> R) (v : occ) : occ -> R :=
    fun u => if skip u then 0
             else op (ket n v) u / (harm_energy n w v - harm_energy n w u).
  Definition every : occ -> bool := fun _ => false.
  (** a quantum goes from one mode of a reported pair to the other *)
  Definition exchanged (v u : occ) : bool :=
    existsb (fun i => existsb (fun j =>
      rep i j && negb (i =? j)%nat && same n (up j u) (up i v)) (seq 0 n)) (seq 0 n).

  (** the coefficient of the square of the angular momentum about [x] in the energy of the
      state [v]: the rotational constant, the quadratic terms in first order, the linear
      terms together with the cubic potential in second order, and the coupling
      -2 B J p of the rotation to the vibrational angular momentum p in second order
      ([angular] is p divided by the imaginary unit) *)
  Definition rot_const (x : nat) (v : occ) : R :=
    K / I x
    + bend x (ket n v) v
    + cubic n f3 (mixed every (tilt x) v) v
    + tilt x (mixed every (cubic n f3) v) v
    - 4 * (K / I x) ^ 2 * angular n w zeta x (mixed (exchanged v) (angular n w zeta x) v) v.
End Spec.

(** The matrices [M0], [M1], [M2] are the terms of order 0, 1 and 2 in the coordinates of the
    reciprocal inertia tensor (I' I0^-1 I')^-1, where I' = I0 + E, I0 is diagonal with the
    moments [I], and E is linear in the coordinates *)
Definition reciprocal (I : nat -> R) (E M0 M1 M2 : nat -> nat -> R) : Prop :=
  let D := fun y z : nat => if (y =? z)%nat then I y else 0 in
  let mul := fun (A B : nat -> nat -> R) y z => A y 0%nat * B 0%nat z + A y 1%nat * B 1%nat z + A y 2%nat * B 2%nat z in
  forall y z, (y < 3)%nat -> (z < 3)%nat ->
    mul D (mul M0 D) y z = D y z /\
    mul D (mul M1 D) y z + mul E (mul M0 D) y z + mul D (mul M0 E) y z = 0 /\
    mul D (mul M2 D) y z + mul E (mul M1 D) y z + mul D (mul M1 E) y z + mul E (mul M0 E) y z = 0.

Lemma reciprocal_lemma I E M0 M1 M2 x : (x < 3)%nat ->
  (forall y, (y < 3)%nat -> I y <> 0) -> (forall y z, E y z = E z y) -> reciprocal I E M0 M1 M2 ->
  M0 x x = / I x /\ M1 x x = - 2 * E x x / (I x * I x) /\
  M2 x x = 3 * (E x 0%nat * E x 0%nat / I 0%nat + E x 1%nat * E x 1%nat / I 1%nat + E x 2%nat * E x 2%nat / I 2%nat)
           / (I x * I x).
Proof.
  intros Hx HI HE HR.
  pose proof (HI 0%nat ltac:(lia)) as I0. pose proof (HI 1%nat ltac:(lia)) as I1. pose proof (HI 2%nat ltac:(lia)) as I2.
  assert (A : forall y z, (y < 3)%nat -> (z < 3)%nat ->
    M0 y z = (if (y =? z)%nat then / I y else 0) /\
    M1 y z = - 2 * E y z / (I y * I z) /\
    I y * M2 y z * I z = 3 * (E y 0%nat * E 0%nat z / I 0%nat + E y 1%nat * E 1%nat z / I 1%nat + E y 2%nat * E 2%nat z / I 2%nat)).
  2:{ destruct (A x x Hx Hx) as (A0 & A1 & A2). rewrite Nat.eqb_refl in A0. split; [exact A0|]. split; [exact A1|].
      rewrite !(HE _ x) in A2. pose proof (HI x Hx) as Ix. apply (Rmult_eq_reg_r (I x * I x)); [|now apply Rmult_integral_contrapositive].
      transitivity (I x * M2 x x * I x); [ring|]. rewrite A2. field. auto. }
  assert (A0 : forall y z, (y < 3)%nat -> (z < 3)%nat -> M0 y z = (if (y =? z)%nat then / I y else 0)).
  { intros y z Hy Hz. destruct (HR y z Hy Hz) as (H0 & _). pose proof (HI y Hy). pose proof (HI z Hz).
    assert (T : I y * M0 y z * I z = if (y =? z)%nat then I y else 0).
    { rewrite <- H0. destruct y as [|[|[|]]]; try lia; destruct z as [|[|[|]]]; try lia; cbn [Nat.eqb]; ring. }
    apply (Rmult_eq_reg_r (I y * I z)); [|now apply Rmult_integral_contrapositive].
    transitivity (I y * M0 y z * I z); [ring|]. rewrite T. destruct (Nat.eqb_spec y z); [subst; field; auto|ring]. }
  assert (A1 : forall y z, (y < 3)%nat -> (z < 3)%nat -> M1 y z = - 2 * E y z / (I y * I z)).
  { intros y z Hy Hz. destruct (HR y z Hy Hz) as (_ & H1 & _). pose proof (HI y Hy). pose proof (HI z Hz).
    rewrite !A0 in H1 by lia.
    assert (T : I y * M1 y z * I z = - 2 * E y z).
    { apply (Rplus_eq_reg_r (2 * E y z)). transitivity 0; [|ring]. rewrite <- H1.
      destruct y as [|[|[|]]]; try lia; destruct z as [|[|[|]]]; try lia; cbn [Nat.eqb]; field; auto. }
    apply (Rmult_eq_reg_r (I y * I z)); [|now apply Rmult_integral_contrapositive].
    transitivity (I y * M1 y z * I z); [ring|]. rewrite T. field. auto. }
  intros y z Hy Hz. split; [now apply A0|]. split; [now apply A1|].
  destruct (HR y z Hy Hz) as (_ & _ & H2). rewrite !A0, !A1 in H2 by lia.
  match goal with |- _ = ?r => apply (Rplus_eq_reg_r (- r)) end. transitivity 0; [|ring]. rewrite <- H2.
  destruct y as [|[|[|]]]; try lia; destruct z as [|[|[|]]]; try lia; cbn [Nat.eqb]; field; auto.
Qed.

(** the coefficients of the specification are those of the expansion *)
Lemma mu_lemma n (a : nat -> nat -> nat -> R) I (Q : nat -> R) M0 M1 M2 x : (x < 3)%nat ->
  (forall y, (y < 3)%nat -> I y <> 0) -> (forall k y z, a k y z = a k z y) ->
  reciprocal I (fun y z => / 2 * Rsum (seq 0 n) (fun k => a k y z * Q k)) M0 M1 M2 ->
  M0 x x = / I x /\
  M1 x x = Rsum (seq 0 n) (fun k => mu1 a I x k * Q k) /\
  M2 x x = Rsum (seq 0 n) (fun k => Rsum (seq 0 n) (fun l => mu2 a I x k l * (Q k * Q l))).
Proof.
  intros Hx HI Ha HR.
  pose proof (reciprocal_lemma I (fun y z => / 2 * Rsum (seq 0 n) (fun k => a k y z * Q k)) M0 M1 M2 x Hx HI) as T.
  destruct T as (E0 & E1 & E2); [|exact HR|].
  { intros y z. f_equal. apply Rsum_ext. intros k _. now rewrite Ha. }
  pose proof (HI x Hx) as Ix.
  pose proof (HI 0%nat ltac:(lia)) as I0. pose proof (HI 1%nat ltac:(lia)) as I1. pose proof (HI 2%nat ltac:(lia)) as I2.
  split; [exact E0|]. split.
  - rewrite E1. unfold mu1.
    transitivity (- / (I x * I x) * Rsum (seq 0 n) (fun k => a k x x * Q k)); [field; auto|].
    rewrite <- Rsum_scal. apply Rsum_ext. intros k _. field. auto.
  - rewrite E2.
    assert (SQ : forall f : nat -> R, Rsum (seq 0 n) f * Rsum (seq 0 n) f = Rsum (seq 0 n) (fun k => Rsum (seq 0 n) (fun l => f k * f l))).
    { intros f. rewrite <- (Rsum_scal (Rsum (seq 0 n) f)). apply Rsum_ext. intros k _.
      rewrite Rsum_scal. ring. }
    transitivity (3 / 4 / (I x * I x) * (/ I 0%nat * (Rsum (seq 0 n) (fun k => a k x 0%nat * Q k) * Rsum (seq 0 n) (fun k => a k x 0%nat * Q k))
      + / I 1%nat * (Rsum (seq 0 n) (fun k => a k x 1%nat * Q k) * Rsum (seq 0 n) (fun k => a k x 1%nat * Q k))
      + / I 2%nat * (Rsum (seq 0 n) (fun k => a k x 2%nat * Q k) * Rsum (seq 0 n) (fun k => a k x 2%nat * Q k))));
      [field; auto|].
    rewrite !SQ, <- !Rsum_scal, <- !Rsum_plus, <- Rsum_scal. apply Rsum_ext. intros k _.
    rewrite <- !Rsum_scal, <- !Rsum_plus, <- Rsum_scal. apply Rsum_ext. intros l _. unfold mu2. field. auto.
Qed.

(** ** Evaluation *)
Section Eval.
  Variables (n : nat) (w : nat -> R) (f3 zeta : nat -> nat -> nat -> R).
  Hypothesis f3a : forall i j k, f3 i j k = f3 j i k.
  Hypothesis f3b : forall i j k, f3 i j k = f3 i k j.
  Hypothesis zanti : forall i j a, zeta i j a = - zeta j i a.
  Hypothesis wpos : forall i, (i < n)%nat -> 0 < w i.
  Variable v : occ.
  Let Sm (f : nat -> R) : R := Rsum (seq 0 n) f.
  Let h (i : nat) : R := INR (v i) + / 2.
  Let gap (u : occ) : R := harm_energy n w v - harm_energy n w u.

  Lemma pos2_diag k l : (k < n)%nat -> (l < n)%nat ->
    pos k (pos l (ket n v)) v = if (l =? k)%nat then h k else 0.
  Proof.
    intros Hk Hl. rewrite !pos_lad.
    change (lad 1 k (lad 1 l (ket n v)) v) with (act [(k, 1); (l, 1)] (ket n v) v).
    assert (Hw : forall m s, In (m, s) [(k, 1); (l, 1)] -> (m < n)%nat) by (intros m s [E|[E|[]]]; injection E; intros; subst; assumption).
    destruct (Nat.eqb_spec l k) as [->|N].
    - rewrite (act_diag n v _ [k] Hw).
      + cbn [Rprod]. unfold on. cbn [filter]. rewrite Nat.eqb_refl. cbn [map snd]. rewrite elt_diag2. unfold h. field.
      + repeat constructor. intros [].
      + intros m [<-|[]]. assumption.
      + intros i Hi. cbn in Hi. rewrite orb_false_r in Hi. unfold on. cbn [filter]. rewrite Nat.eqb_sym, Hi. reflexivity.
    - apply (act_zero n v _ k Hw Hk). unfold on. cbn [filter]. rewrite Nat.eqb_refl.
      destruct (Nat.eqb_spec l k); [contradiction|]. cbn [map snd]. apply elt_odd1.
  Qed.

  Lemma bend_value (c : nat -> nat -> R) :
    Sm (fun k => Sm (fun l => c k l * pos k (pos l (ket n v)) v)) = Sm (fun k => c k k * h k).
  Proof.
    apply Sm_ext. intros k Hk. rewrite (Sm_ext n _ (fun l => if (l =? k)%nat then c k l * h k else 0)).
    - exact (Rsum_pick n (fun l => c k l * h k) k Hk).
    - intros l Hl. rewrite pos2_diag by assumption. destruct (l =? k)%nat; ring.
  Qed.

  (** the energy denominators of a word *)
  Lemma word_gap l u (skip : occ -> bool) (c : R) : of_word n l ->
    (ops l (ket n v) u <> 0 -> (if skip u then 0 else - / energy w l) = c) ->
    (if skip u then 0 else ops l (ket n v) u / gap u) = c * ops l (ket n v) u.
  Proof.
    intros Hl Hc. destruct (Req_dec (ops l (ket n v) u) 0) as [E|N].
    - rewrite E. destruct (skip u); unfold Rdiv; ring.
    - rewrite <- (Hc N). destruct (skip u); [ring|]. unfold gap.
      rewrite (energy_support n w l v u Hl (ops_support n l v u N)).
      unfold Rdiv. rewrite Rinv_opp. ring.
  Qed.

  Lemma mixed_tilt (c : nat -> R) u :
    mixed n w every (fun psi u => Sm (fun k => c k * pos k psi u)) v u
    = Sm (fun k => - c k / w k * mom k (ket n v) u).
  Proof.
    unfold mixed, every. fold (gap u). unfold Rdiv at 1. rewrite Rmult_comm.
    unfold Sm. rewrite <- Rsum_scal. apply Sm_ext. intros k Hk.
    rewrite pos_letters, mom_letters.
    change (opr (k, true) (ket n v)) with (ops [(k, true)] (ket n v)).
    change (opr (k, false) (ket n v)) with (ops [(k, false)] (ket n v)).
    pose proof (wpos k Hk).
    assert (Hw : forall s, of_word n [(k, s)]) by (intros s y [<-|[]]; exact Hk).
    pose proof (word_gap [(k, true)] u every (- / w k) (Hw true)) as G1.
    pose proof (word_gap [(k, false)] u every (/ w k) (Hw false)) as G2.
    unfold every in G1, G2.
    transitivity (c k * (ops [(k, true)] (ket n v) u / gap u + ops [(k, false)] (ket n v) u / gap u)); [unfold Rdiv; ring|].
    rewrite G1, G2.
    - unfold Rdiv. ring.
    - intros _. unfold energy, es. cbn [fold_right fst snd]. replace (-1 * w k + 0) with (- w k) by ring. rewrite Rinv_opp. ring.
    - intros _. unfold energy, es. cbn [fold_right fst snd]. f_equal. f_equal. ring.
  Qed.

  Lemma elt_up b : elt [1; 1; -1] (S b) b = sqrt (INR (b + 1) / 2) * (/ 2 + INR (b + 2) / 2).
  Proof.
    change (elt [1; 1; -1] (S b) b) with
      (sqrt (INR (S b) / 2) * elt [1; -1] b b + 1 * sqrt (INR (S b + 1) / 2) * elt [1; -1] (S (S b)) b).
    rewrite elt_diag2, !elt2. unfold at_z, a2, a1. zcases.
    replace (S b + 1)%nat with (b + 2)%nat by lia. replace (b + 1 + 1)%nat with (b + 2)%nat by lia.
    replace (S b) with (b + 1)%nat by lia.
    pose proof (sq_half (b + 2)) as Q. set (p := sqrt (INR (b + 2) / 2)) in *.
    transitivity (sqrt (INR (b + 1) / 2) * (/ 2 + p * p)); [field|]. now rewrite Q.
  Qed.
  Lemma elt_down c : elt [1; 1; -1] c (S c) = sqrt (INR (S c) / 2) * (/ 2 - INR c / 2).
  Proof.
    change (elt [1; 1; -1] c (S c)) with
      (sqrt (INR c / 2) * elt [1; -1] (pred c) (S c) + 1 * sqrt (INR (c + 1) / 2) * elt [1; -1] (S c) (S c)).
    rewrite elt_diag2, !elt2. unfold at_z, a2, a1.
    replace (c + 1)%nat with (S c) by lia.
    destruct c as [|c].
    - rewrite sq0. change (INR 0) with 0. cbn [pred]. zcases; field.
    - cbn [pred]. zcases. replace (S (S c) - 1)%nat with (S c) by lia.
      pose proof (sq_half (S c)) as Q. set (p := sqrt (INR (S c) / 2)) in *.
      transitivity (sqrt (INR (S (S c)) / 2) * (/ 2 - p * p)); [field|]. now rewrite Q.
  Qed.
  Lemma elt_qqqp b : elt [1; 1; 1; -1] b b = 3 / 2 * (INR b + / 2).
  Proof.
    change (elt [1; 1; 1; -1] b b) with
      (sqrt (INR b / 2) * elt [1; 1; -1] (pred b) b + 1 * sqrt (INR (b + 1) / 2) * elt [1; 1; -1] (S b) b).
    rewrite elt_up. pose proof (sq_half (b + 1)) as Q. set (p := sqrt (INR (b + 1) / 2)) in *.
    transitivity (sqrt (INR b / 2) * elt [1; 1; -1] (pred b) b + p * p * (/ 2 + INR (b + 2) / 2)); [ring|]. rewrite Q.
    destruct b as [|c].
    - rewrite sq0. cbn [INR Nat.add]. field.
    - cbn [pred]. rewrite elt_down. pose proof (sq_half (S c)) as Q'. set (q := sqrt (INR (S c) / 2)) in *.
      transitivity (q * q * (/ 2 - INR c / 2) + INR (S c + 1) / 2 * (/ 2 + INR (S c + 2) / 2)); [ring|]. rewrite Q'.
      rewrite !plus_INR, !S_INR. cbn [INR]. field.
  Qed.

  (** the linear terms mixed in first, then the cubic potential *)
  Lemma cubic_tilt (c : nat -> R) :
    cubic n f3 (fun u => Sm (fun k => c k * mom k (ket n v) u)) v
    = / 4 * Sm (fun k => c k * Sm (fun i => f3 i i k * h i)).
  Proof.
    transitivity (Sm (fun i => Sm (fun j => Sm (fun k => Sm (fun l =>
      f3 i j k / 6 * c l * act (w4 1 1 1 (-1) i j k l) (ket n v) v))))).
    { unfold cubic. apply Sm_ext. intros i _. apply Sm_ext. intros j _. apply Sm_ext. intros k _.
      rewrite !pos_lad.
      rewrite (lad_ext 1 i _ (fun u => Sm (fun l => c l * lad 1 j (lad 1 k (mom l (ket n v))) u))).
      - unfold Sm. rewrite (lad_sum 1 i (seq 0 n) c (fun l => lad 1 j (lad 1 k (mom l (ket n v))))), <- Rsum_scal.
        apply Rsum_ext. intros l _. rewrite mom_lad.
        change (act (w4 1 1 1 (-1) i j k l) (ket n v) v)
          with (lad 1 i (lad 1 j (lad 1 k (lad (-1) l (ket n v)))) v). ring.
      - intros u'. rewrite (lad_ext 1 j _ (fun u => Sm (fun l => c l * lad 1 k (mom l (ket n v)) u))).
        + apply (lad_sum 1 j (seq 0 n) c (fun l => lad 1 k (mom l (ket n v)))).
        + intros u''. apply (lad_sum 1 k (seq 0 n) c (fun l => mom l (ket n v))). }
    unfold Sm. rewrite sum4.
    assert (E : forall s t b, elt [s; t] b b = (s + t) / 2 * (INR b + / 2) + (s - t) / 4)
      by (intros; rewrite elt_diag2; field).
    rewrite <- Rsum_scal.
    transitivity (Sm (fun i => / 4 * (c i * (f3 i i i * h i)))
      + Sm (fun i => Sm (fun j => if (j =? i)%nat then 0 else / 4 * (c i * (f3 j j i * h j))))).
    - f_equal.
      + apply Sm_ext. intros i _. rewrite elt_qqqp. unfold h. field.
      + transitivity (Sm (fun i => Sm (fun j => (if (j =? i)%nat then 0 else / 6 * (c j * (f3 i i j * h i)))
          + (if (j =? i)%nat then 0 else / 12 * (c i * (f3 j j i * h j)))))).
        * apply Sm_ext. intros i _. apply Sm_ext. intros j _. destruct (j =? i)%nat; [ring|].
          rewrite !E, (f3b i j i), (f3a i j j), (f3b j i j). unfold h. field.
        * unfold Sm. rewrite (Sm_ext n _ (fun i => Rsum (seq 0 n) (fun j => if (j =? i)%nat then 0 else / 6 * (c j * (f3 i i j * h i)))
            + Rsum (seq 0 n) (fun j => if (j =? i)%nat then 0 else / 12 * (c i * (f3 j j i * h j))))) by (intros; apply Rsum_plus).
          rewrite Rsum_plus, Rsum_swap, <- Rsum_plus. apply Sm_ext. intros i _. rewrite <- Rsum_plus.
          apply Sm_ext. intros j _. rewrite Nat.eqb_sym. destruct (i =? j)%nat eqn:Q; rewrite Nat.eqb_sym in Q; rewrite Q; field.
    - unfold Sm. rewrite <- Rsum_plus. apply Sm_ext. intros i Hi.
      rewrite <- (Rsum_pick n (fun j => / 4 * (c i * (f3 j j i * h j))) i Hi) at 1.
      rewrite <- Rsum_plus. rewrite <- !Rsum_scal. apply Sm_ext. intros j _. destruct (j =? i)%nat; ring.
  Qed.

  (** the cubic potential first, then the linear terms *)
  Lemma gap_up k : (k < n)%nat -> gap (up k v) = - w k.
  Proof.
    intros Hk. unfold gap. rewrite (energy_support n w [(k, true)]).
    - unfold energy, es. cbn [fold_right fst snd]. ring.
    - intros y [<-|[]]. exact Hk.
    - intros i _. rewrite shift_cons. cbn [fst snd sg]. unfold dl, up. cbn. destruct (i =? k)%nat; lia.
  Qed.
  Lemma gap_down k : (k < n)%nat -> v k <> 0%nat -> gap (down k v) = w k.
  Proof.
    intros Hk Hv. unfold gap. rewrite (energy_support n w [(k, false)]).
    - unfold energy, es. cbn [fold_right fst snd]. ring.
    - intros y [<-|[]]. exact Hk.
    - intros i _. rewrite shift_cons. cbn [fst snd sg]. unfold dl, down. cbn. destruct (Nat.eqb_spec i k); subst; lia.
  Qed.
  Lemma cubic_leads t u : valid n t -> leads n v t u -> cubic n f3 (ket n v) u = PerturbFacts.amp n f3 v t.
  Proof.
    apply (cubic_at n w f3 v (fun _ _ _ => false) f3a f3b).
    - reflexivity.
    - discriminate.
  Qed.
  Lemma tilt_cubic (c : nat -> R) :
    Sm (fun k => c k * pos k (mixed n w every (cubic n f3) v) v)
    = - / 4 * Sm (fun k => c k / w k * Sm (fun i => f3 i i k * h i)).
  Proof.
    unfold Sm. rewrite <- Rsum_scal. apply Sm_ext. intros k Hk. pose proof (wpos k Hk) as H2.
    assert (E : forall s, one_coef n f3 v s k = f3 k k k * (INR (if s then v k + 1 else v k) / 4 - h k / 2)
                + / 2 * Rsum (seq 0 n) (fun i => f3 i i k * h i)).
    { intros s. unfold one_coef. rewrite <- Rsum_scal.
      rewrite (Sm_ext n (fun i => / 2 * (f3 i i k * h i)) (fun i => (if (i =? k)%nat then f3 i i k / 2 * h i else 0)
        + (if (i =? k)%nat then 0 else f3 i i k / 2 * h i))) by (intros i _; destruct (i =? k)%nat; field).
      rewrite Rsum_plus, (Rsum_pick n (fun i => f3 i i k / 2 * h i) k Hk). unfold h. field. }
    unfold pos, mixed, every. fold (gap (up k v)) (gap (down k v)).
    rewrite (gap_up k Hk), (cubic_leads (T1 true k) (up k v)).
    2:{ cbn. exact Hk. }
    2:{ intros i _. cbn [delta_of]. unfold dl, sg, up. destruct (i =? k)%nat; lia. }
    cbn [PerturbFacts.amp]. unfold a1. cbv iota.
    pose proof (sq_half (v k + 1)) as Q. set (p := sqrt (INR (v k + 1) / 2)) in *.
    set (T := Rsum (seq 0 n) (fun i => f3 i i k * h i)) in *.
    assert (D : sqrt (INR (v k) / 2) * (cubic n f3 (ket n v) (down k v) / gap (down k v))
              = INR (v k) / 2 * one_coef n f3 v false k / w k).
    { destruct (Nat.eq_dec (v k) 0) as [Z|Z].
      - rewrite Z, sq0. change (INR 0) with 0. unfold Rdiv. ring.
      - rewrite (gap_down k Hk Z), (cubic_leads (T1 false k) (down k v)).
        + cbn [PerturbFacts.amp]. unfold a1. cbv iota. pose proof (sq_half (v k)) as Q'. set (q := sqrt (INR (v k) / 2)) in *.
          transitivity (q * q * one_coef n f3 v false k / w k); [field; lra|]. rewrite Q'. field. lra.
        + cbn. exact Hk.
        + intros i _. cbn [delta_of]. unfold dl, sg, down. destruct (Nat.eqb_spec i k); subst; lia. }
    rewrite D.
    transitivity (c k / w k * (INR (v k) / 2 * one_coef n f3 v false k - p * p * one_coef n f3 v true k)); [field; lra|].
    rewrite Q, !E. fold T. unfold h. rewrite plus_INR. change (INR 1) with 1. field. lra.
  Qed.

  (** ** the coupling to the vibrational angular momentum *)
  Variable rep : nat -> nat -> bool.
  Hypothesis rep_sym : forall i j, rep i j = rep j i.
  Variable x : nat.
  Hypothesis apart : forall i j, (i < n)%nat -> (j < n)%nat -> i <> j -> rep i j = false -> w i <> w j.
  Let C (k l : nat) : R := zeta k l x * sqrt (w l / w k).
  (** the inverse of the difference of two frequencies, nothing for a reported pair *)
  Let D (k l : nat) : R := if rep k l then 0 else / (w k - w l).

  Lemma exchanged_word k l s t u : (k < n)%nat -> (l < n)%nat -> k <> l ->
    (forall i, (i < n)%nat -> Z.of_nat (u i) = (Z.of_nat (v i) + shift [(k, s); (l, t)] i)%Z) ->
    exchanged n rep v u = xorb s t && rep k l.
  Proof.
    intros Hk Hl N Hu. apply eq_true_iff_eq. unfold exchanged. split.
    - intros H. apply existsb_exists in H as (i & Hi & H). apply existsb_exists in H as (j & Hj & H).
      apply in_seq in Hi, Hj. apply andb_true_iff in H as [H Hs]. apply andb_true_iff in H as [Hr Hn].
      apply negb_true_iff, Nat.eqb_neq in Hn. rewrite same_iff in Hs.
      assert (U : forall m, (m < n)%nat -> (shift [(k, s); (l, t)] m + dl j m = dl i m)%Z).
      { intros m Hm. specialize (Hs m Hm). specialize (Hu m Hm). unfold up in Hs. unfold dl.
        destruct (m =? j)%nat, (m =? i)%nat; lia. }
      pose proof (U k Hk) as Uk. pose proof (U l Hl) as Ul. pose proof (U i ltac:(lia)) as Ui. pose proof (U j ltac:(lia)) as Uj.
      rewrite !shift_cons in *. cbn [fst snd shift fold_right] in *. unfold dl, sg in *.
      rewrite !Nat.eqb_refl in *.
      destruct (Nat.eqb_spec k l); [congruence|]. destruct (Nat.eqb_spec l k); [congruence|].
      destruct (Nat.eqb_spec k i), (Nat.eqb_spec k j), (Nat.eqb_spec l i), (Nat.eqb_spec l j),
        (Nat.eqb_spec i k), (Nat.eqb_spec j k), (Nat.eqb_spec i l), (Nat.eqb_spec j l),
        (Nat.eqb_spec i j), (Nat.eqb_spec j i); try congruence; destruct s, t; try (exfalso; lia); cbn [xorb andb];
        subst; rewrite ?Hr; auto; rewrite rep_sym; exact Hr.
    - intros H. apply andb_true_iff in H as [Hx Hr].
      assert (W : forall i j, (i < n)%nat -> (j < n)%nat -> i <> j -> rep i j = true ->
        (forall m, (m < n)%nat -> Z.of_nat (u m) + dl j m = Z.of_nat (v m) + dl i m)%Z ->
        existsb (fun i => existsb (fun j => rep i j && negb (i =? j)%nat && same n (up j u) (up i v)) (seq 0 n)) (seq 0 n) = true).
      { intros i j Hi Hj Nij Rij U. apply existsb_exists. exists i. split; [apply in_seq; lia|].
        apply existsb_exists. exists j. split; [apply in_seq; lia|]. rewrite Rij. apply Nat.eqb_neq in Nij. rewrite Nij.
        cbn [negb andb]. apply same_iff. intros m Hm. specialize (U m Hm). unfold up, dl in *.
        destruct (m =? j)%nat, (m =? i)%nat; lia. }
      destruct s, t; try discriminate.
      + apply (W k l Hk Hl N Hr). intros m Hm. rewrite (Hu m Hm), !shift_cons. cbn [fst snd sg shift fold_right]. lia.
      + rewrite rep_sym in Hr. apply (W l k Hl Hk (not_eq_sym N) Hr). intros m Hm. rewrite (Hu m Hm), !shift_cons.
        cbn [fst snd sg shift fold_right]. lia.
  Qed.

  Lemma mixed_pair k l u : (k < n)%nat -> (l < n)%nat -> k <> l ->
    (if exchanged n rep v u then 0 else pos k (mom l (ket n v)) u / gap u)
    = / 2 * (- / (w k + w l) + D k l) * pos k (pos l (ket n v)) u
      + / 2 * (- / (w k + w l) - D k l) * mom k (mom l (ket n v)) u.
  Proof.
    intros Hk Hl N. pose proof (wpos k Hk). pose proof (wpos l Hl).
    assert (Hw : forall s t, of_word n [(k, s); (l, t)]) by (intros s t y [<-|[<-|[]]]; assumption).
    assert (G : forall s t, (if exchanged n rep v u then 0 else ops [(k, s); (l, t)] (ket n v) u / gap u)
      = (if xorb s t then (if s then - D k l else D k l) else if s then - / (w k + w l) else / (w k + w l))
        * ops [(k, s); (l, t)] (ket n v) u).
    { intros s t. apply (word_gap _ u (exchanged n rep v)); [apply Hw|]. intros Nz.
      rewrite (exchanged_word k l s t u Hk Hl N (ops_support n _ v u Nz)).
      unfold energy, es. cbn [fold_right fst snd]. unfold D.
      destruct (rep k l) eqn:Er.
      - destruct s, t; cbn [xorb andb]; try ring.
        + f_equal. f_equal. ring.
        + replace (-1 * w k + (-1 * w l + 0)) with (- (w k + w l)) by ring. rewrite Rinv_opp. ring.
      - pose proof (apart k l Hk Hl N Er).
        destruct s, t; cbn [xorb andb].
        + f_equal. f_equal. ring.
        + f_equal. f_equal. ring.
        + replace (-1 * w k + (1 * w l + 0)) with (- (w k - w l)) by ring. rewrite Rinv_opp. ring.
        + replace (-1 * w k + (-1 * w l + 0)) with (- (w k + w l)) by ring. rewrite Rinv_opp. ring. }
    pose proof (G true true) as G1. pose proof (G true false) as G2.
    pose proof (G false true) as G3. pose proof (G false false) as G4. cbn [xorb] in *.
    assert (P : forall s t, opr (k, s) (opr (l, t) (ket n v)) u = ops [(k, s); (l, t)] (ket n v) u) by reflexivity.
    rewrite !pos_ops, !mom_ops.
    rewrite ?opr_plus, ?opr_scal, ?opr_plus, ?opr_scal. cbv beta. rewrite !P.
    set (o1 := ops [(k, true); (l, true)] (ket n v) u) in *. set (o2 := ops [(k, true); (l, false)] (ket n v) u) in *.
    set (o3 := ops [(k, false); (l, true)] (ket n v) u) in *. set (o4 := ops [(k, false); (l, false)] (ket n v) u) in *.
    transitivity ((if exchanged n rep v u then 0 else o1 / gap u) - (if exchanged n rep v u then 0 else o2 / gap u)
      + (if exchanged n rep v u then 0 else o3 / gap u) - (if exchanged n rep v u then 0 else o4 / gap u)).
    - destruct (exchanged n rep v u); [ring|]. unfold Rdiv. ring.
    - rewrite G1, G2, G3, G4. field. lra.
  Qed.

  Lemma mixed_angular u :
    mixed n w (exchanged n rep v) (angular n w zeta x) v u
    = Sm (fun k => Sm (fun l => C k l * (/ 2 * (- / (w k + w l) + D k l) * pos k (pos l (ket n v)) u
        + / 2 * (- / (w k + w l) - D k l) * mom k (mom l (ket n v)) u))).
  Proof.
    assert (Z0 : forall i, zeta i i x = 0) by (intros i; pose proof (zanti i i x); lra).
    transitivity (Sm (fun k => Sm (fun l => C k l * (if exchanged n rep v u then 0 else pos k (mom l (ket n v)) u / gap u)))).
    - unfold mixed, angular. fold (gap u). destruct (exchanged n rep v u).
      + symmetry. apply Rsum_0. intros k _. apply Rsum_0. intros l _. ring.
      + unfold Rdiv at 1. rewrite Rmult_comm, <- Rsum_scal. apply Sm_ext. intros k _. rewrite <- Rsum_scal.
        apply Sm_ext. intros l _. unfold C, Rdiv. ring.
    - apply Sm_ext. intros k Hk. apply Sm_ext. intros l Hl. destruct (Nat.eq_dec k l) as [->|N].
      + unfold C. rewrite Z0. ring.
      + now rewrite mixed_pair by assumption.
  Qed.

  Lemma lad_pairs s m t r (c : nat -> nat -> R) (psi : nat -> nat -> occ -> R) u :
    lad s m (lad t r (fun u => Sm (fun k => Sm (fun l => c k l * psi k l u)))) u
    = Sm (fun k => Sm (fun l => c k l * lad s m (lad t r (psi k l)) u)).
  Proof.
    rewrite (lad_ext s m _ (fun u => Sm (fun k => Sm (fun l => c k l * lad t r (psi k l) u)))).
    - unfold Sm. rewrite (lad_Rsum s m (seq 0 n)). apply Sm_ext. intros k _.
      apply (lad_sum s m (seq 0 n) (c k) (fun l => lad t r (psi k l))).
    - intros u'. unfold Sm. rewrite (lad_Rsum t r (seq 0 n)). apply Sm_ext. intros k _.
      apply (lad_sum t r (seq 0 n) (c k) (psi k)).
  Qed.

  Lemma lad_two s m t r c d (psi phi : occ -> R) u :
    lad s m (lad t r (fun u => c * psi u + d * phi u)) u = c * lad s m (lad t r psi) u + d * lad s m (lad t r phi) u.
  Proof. unfold lad. ring. Qed.

  (** what a pair contributes for each quantum of mode [i] *)
  Definition pair_term (res : bool) (z wi wj : R) : R :=
    if res then - (z * z * (wi - wj) ^ 2 / (2 * (wi * wj * (wi + wj))))
    else z * z * (3 * wi ^ 2 + wj ^ 2) / (wi * (wi ^ 2 - wj ^ 2)).

  Lemma sum_diff (g : nat -> nat -> R) :
    Sm (fun i => Sm (fun j => if (j =? i)%nat then 0 else g i j))
    = Sm (fun i => Sm (fun j => if (j =? i)%nat then 0 else g j i)).
  Proof.
    unfold Sm. rewrite Rsum_swap. apply Sm_ext. intros i _. apply Sm_ext. intros j _.
    now rewrite Nat.eqb_sym.
  Qed.

  Lemma angular_mixed_value :
    angular n w zeta x (mixed n w (exchanged n rep v) (angular n w zeta x) v) v
    = - / 2 * Sm (fun i => h i * Sm (fun j => if (j =? i)%nat then 0 else pair_term (rep i j) (zeta i j x) (w i) (w j))).
  Proof.
    assert (Z0 : forall i, zeta i i x = 0) by (intros i; pose proof (zanti i i x); lra).
    pose (al k l := / 2 * (- / (w k + w l) + D k l)). pose (be k l := / 2 * (- / (w k + w l) - D k l)).
    assert (E : mixed n w (exchanged n rep v) (angular n w zeta x) v
      = fun u => Sm (fun k => Sm (fun l => C k l * (fun u => al k l * pos k (pos l (ket n v)) u + be k l * mom k (mom l (ket n v)) u) u))).
    { apply functional_extensionality. intros u. exact (mixed_angular u). }
    rewrite E. clear E. unfold angular.
    transitivity (Sm (fun i => Sm (fun j => Sm (fun k => Sm (fun l => (C i j * (C k l * al k l)) * act (w4 1 (-1) 1 1 i j k l) (ket n v) v))))
      + Sm (fun i => Sm (fun j => Sm (fun k => Sm (fun l => (C i j * (C k l * be k l)) * act (w4 1 (-1) (-1) (-1) i j k l) (ket n v) v))))).
    { unfold Sm. rewrite <- Rsum_plus. apply Sm_ext. intros i _.
      rewrite <- Rsum_plus. apply Sm_ext. intros j _. rewrite (pos_lad i), (mom_lad j).
      pose proof (lad_pairs 1 i (-1) j C (fun k l u => al k l * pos k (pos l (ket n v)) u + be k l * mom k (mom l (ket n v)) u) v) as LP.
      unfold Sm in LP. rewrite LP. clear LP. fold (C i j). rewrite <- Rsum_plus, <- Rsum_scal. apply Sm_ext. intros k _.
      rewrite <- Rsum_plus, <- Rsum_scal. apply Sm_ext. intros l _.
      rewrite lad_two, !pos_lad, !mom_lad.
      change (act (w4 1 (-1) 1 1 i j k l) (ket n v) v) with (lad 1 i (lad (-1) j (lad 1 k (lad 1 l (ket n v)))) v).
      change (act (w4 1 (-1) (-1) (-1) i j k l) (ket n v) v) with (lad 1 i (lad (-1) j (lad (-1) k (lad (-1) l (ket n v)))) v).
      ring. }
    unfold Sm. rewrite !sum4.
    rewrite !(Rsum_0 (fun i => _ * elt _ _ _)) by (intros i _; unfold C; rewrite Z0; ring).
    rewrite !Rplus_0_l.
    assert (Sy : forall i j, (i < n)%nat -> (j < n)%nat -> i <> j -> D i j = - D j i).
    { intros i j Hi Hj N. unfold D. rewrite (rep_sym i j). destruct (rep j i) eqn:Er; [ring|].
      replace (w i - w j) with (- (w j - w i)) by ring. now rewrite Rinv_opp. }
    transitivity (Sm (fun i => Sm (fun j => if (j =? i)%nat then 0 else
        - / 2 * (C i j * (C i j * al i j + C j i * al j i)) * h i))
      + Sm (fun i => Sm (fun j => if (j =? i)%nat then 0 else
        - / 2 * (C i j * (C i j * be i j + C j i * be j i)) * h j))).
    { f_equal; apply Sm_ext; intros i _; apply Sm_ext; intros j _; (destruct (j =? i)%nat; [ring|]);
        rewrite !elt_diag2; unfold C at 1 2; rewrite !Z0; unfold h; field. }
    rewrite (sum_diff (fun i j => - / 2 * (C i j * (C i j * be i j + C j i * be j i)) * h j)).
    unfold Sm. rewrite <- Rsum_plus, <- Rsum_scal. apply Sm_ext. intros i Hi.
    rewrite <- Rsum_plus. transitivity (- / 2 * h i * Rsum (seq 0 n) (fun j => if (j =? i)%nat then 0 else pair_term (rep i j) (zeta i j x) (w i) (w j))); [|ring].
    rewrite <- Rsum_scal. apply Sm_ext. intros j Hj. destruct (Nat.eqb_spec j i) as [->|N]; [ring|].
    pose proof (wpos i Hi) as Wi. pose proof (wpos j Hj) as Wj.
    assert (S1 : C i j * C i j = zeta i j x * zeta i j x * (w j / w i)).
    { unfold C. assert (S1 : sqrt (w j / w i) * sqrt (w j / w i) = w j / w i)
        by (apply sqrt_sqrt; apply Rlt_le, Rdiv_lt_0_compat; assumption).
      transitivity (zeta i j x * zeta i j x * (sqrt (w j / w i) * sqrt (w j / w i))); [ring|now rewrite S1]. }
    assert (S2 : C j i * C j i = zeta i j x * zeta i j x * (w i / w j)).
    { unfold C. assert (S2 : sqrt (w i / w j) * sqrt (w i / w j) = w i / w j)
        by (apply sqrt_sqrt; apply Rlt_le, Rdiv_lt_0_compat; assumption).
      rewrite (zanti j i x). transitivity (zeta i j x * zeta i j x * (sqrt (w i / w j) * sqrt (w i / w j))); [ring|now rewrite S2]. }
    assert (S3 : C i j * C j i = - (zeta i j x * zeta i j x)).
    { unfold C. rewrite (zanti j i x).
      assert (S3 : sqrt (w j / w i) * sqrt (w i / w j) = 1).
      { rewrite <- sqrt_mult_alt by (apply Rlt_le, Rdiv_lt_0_compat; assumption).
        replace (w j / w i * (w i / w j)) with 1 by (field; lra). apply sqrt_1. }
      transitivity (- (zeta i j x * zeta i j x * (sqrt (w j / w i) * sqrt (w i / w j)))); [ring|]. rewrite S3. ring. }
    transitivity (- / 2 * h i * ((C i j * C i j) * al i j + (C i j * C j i) * al j i + (C j i * C j i) * be j i + (C i j * C j i) * be i j)); [ring|].
    f_equal. rewrite S1, S2, S3. unfold al, be. rewrite (Sy j i) by auto.
    unfold D, pair_term. destruct (rep i j) eqn:Er.
    - field. lra.
    - assert (Wn : w i <> w j) by (apply apart; auto). field. repeat split; try lra.
      assert (w i ^ 2 - w j ^ 2 = (w i - w j) * (w i + w j)) as -> by ring.
      apply Rmult_integral_contrapositive. split; lra.
  Qed.
End Eval.

(** ** The model *)
Section Value.
  Variables (n : nat) (B I w : nat -> R) (wl : nat -> nat -> R) (zeta f3 : nat -> nat -> nat -> R)
    (K lam : R) (x : nat) (rep : nat -> nat -> bool).
  Hypothesis wpos : forall i, (i < n)%nat -> 0 < w i.
  Hypothesis Ix : 0 < I x.
  Hypothesis Bx : B x = K / I x.
  Hypothesis HK : 2 * K * lam ^ 2 = 1.
  Hypothesis f3a : forall i j k, f3 i j k = f3 j i k.
  Hypothesis f3b : forall i j k, f3 i j k = f3 i k j.
  Hypothesis zanti : forall i j a, zeta i j a = - zeta j i a.
  Hypothesis rep_sym : forall i j, rep i j = rep j i.
  Hypothesis apart : forall i j, (i < n)%nat -> (j < n)%nat -> i <> j -> rep i j = false -> w i <> w j.
  Let a (k y z : nat) : R := wl k (acol y z).

  (** what the rounded constant of the code adds *)
  Definition rounding (v : occ) : R :=
    (2 * (86112 / 1000000) - lam) * B x ^ 2 * Rsum (seq 0 n) (fun i => Rsum (seq 0 n) (fun k =>
      wl k (acol x x) * f3 i i k / (w k * sqrt (w k)) * (INR (v i) + / 2))).

  Lemma rot_const_value v :
    B x + (Rsum (seq 0 n) (fun i => 2 * B x ^ 2 / w i * (3 / 4 * (a i x 0%nat ^ 2 / I 0%nat + a i x 1%nat ^ 2 / I 1%nat + a i x 2%nat ^ 2 / I 2%nat)) * (INR (v i) + / 2))
      + (2 * B x ^ 2 * Rsum (seq 0 n) (fun i => (INR (v i) + / 2) * Rsum (seq 0 n) (fun j => if (j =? i)%nat then 0 else pair_term (rep i j) (zeta i j x) (w i) (w j)))
      + 2 * (86112 / 1000000) * B x ^ 2 * Rsum (seq 0 n) (fun i => Rsum (seq 0 n) (fun k => wl k (acol x x) * f3 i i k / (w k * sqrt (w k)) * (INR (v i) + / 2)))))
    = rot_const n w f3 zeta a I K lam rep x v + rounding v.
  Proof.
    assert (K0 : K <> 0) by (intros ->; lra).
    assert (L0 : lam <> 0) by (intros ->; lra).
    assert (KB : K / (I x * I x) = 2 * lam ^ 2 * B x ^ 2).
    { rewrite Bx. transitivity (2 * K * lam ^ 2 * (K / (I x * I x))); [rewrite HK; ring|]. field. lra. }
    unfold rot_const. rewrite <- Bx. rewrite !Rplus_assoc. unfold Rminus at 1. rewrite !Rplus_assoc. f_equal.
    rewrite (angular_mixed_value n w f3 zeta f3a f3b zanti wpos v rep rep_sym x apart).
    unfold bend. rewrite (bend_value n v (fun k l => K * mu2 a I x k l / (lam * sqrt (w k) * (lam * sqrt (w l))))).
    assert (T : mixed n w every (tilt n w a I K lam x) v
      = fun u => Rsum (seq 0 n) (fun k => - (K * mu1 a I x k / (lam * sqrt (w k))) / w k * mom k (ket n v) u)).
    { apply functional_extensionality. intros u.
      exact (mixed_tilt n w wpos v (fun k => K * mu1 a I x k / (lam * sqrt (w k))) u). }
    rewrite T. clear T.
    rewrite (cubic_tilt n w f3 zeta f3a f3b zanti wpos v (fun k => - (K * mu1 a I x k / (lam * sqrt (w k))) / w k)).
    unfold tilt. rewrite (tilt_cubic n w f3 zeta f3a f3b zanti wpos v (fun k => K * mu1 a I x k / (lam * sqrt (w k)))).
      assert (E1 : Rsum (seq 0 n) (fun k => K * mu2 a I x k k / (lam * sqrt (w k) * (lam * sqrt (w k))) * (INR (v k) + / 2))
        = Rsum (seq 0 n) (fun i => 2 * B x ^ 2 / w i * (3 / 4 * (a i x 0%nat ^ 2 / I 0%nat + a i x 1%nat ^ 2 / I 1%nat + a i x 2%nat ^ 2 / I 2%nat)) * (INR (v i) + / 2))).
      { apply Sm_ext. intros k Hk. pose proof (wpos k Hk) as Wk. f_equal.
        pose proof (sqrt_sqrt (w k) (Rlt_le _ _ Wk)) as Q.
        set (q := a k x 0%nat ^ 2 / I 0%nat + a k x 1%nat ^ 2 / I 1%nat + a k x 2%nat ^ 2 / I 2%nat).
        assert (mu2 a I x k k = 3 / 4 * q / (I x * I x)) as -> by (unfold mu2, q, Rdiv; ring).
        clearbody q. transitivity (K / (I x * I x) / lam ^ 2 / (sqrt (w k) * sqrt (w k)) * (3 / 4 * q)).
        - pose proof (sqrt_lt_R0 _ Wk). field. repeat split; lra.
        - rewrite Q, KB. field. repeat split; lra. }
      assert (E2 : forall s : R, s * / 4 * Rsum (seq 0 n) (fun k => K * mu1 a I x k / (lam * sqrt (w k)) / w k * Rsum (seq 0 n) (fun i => f3 i i k * (INR (v i) + / 2)))
        = - s * / 2 * (lam * B x ^ 2) * Rsum (seq 0 n) (fun i => Rsum (seq 0 n) (fun k => wl k (acol x x) * f3 i i k / (w k * sqrt (w k)) * (INR (v i) + / 2)))).
      { intros s. rewrite Rsum_swap, <- !Rsum_scal. apply Sm_ext. intros k Hk. pose proof (wpos k Hk) as Wk.
        pose proof (sqrt_lt_R0 _ Wk).
        transitivity (s * / 4 * (- (K / (I x * I x)) / lam / (sqrt (w k) * w k)) * a k x x * Rsum (seq 0 n) (fun i => f3 i i k * (INR (v i) + / 2))).
        - unfold mu1. field. repeat split; lra.
        - rewrite KB, <- !Rsum_scal. apply Sm_ext. intros i _. unfold a. field. repeat split; lra. }
      rewrite E1. unfold rounding.
      assert (E3 : / 4 * Rsum (seq 0 n) (fun k => - (K * mu1 a I x k / (lam * sqrt (w k))) / w k * Rsum (seq 0 n) (fun i => f3 i i k * (INR (v i) + / 2)))
        = (- 1) * / 4 * Rsum (seq 0 n) (fun k => K * mu1 a I x k / (lam * sqrt (w k)) / w k * Rsum (seq 0 n) (fun i => f3 i i k * (INR (v i) + / 2)))).
      { rewrite <- !Rsum_scal. apply Sm_ext. intros k Hk. unfold Rdiv. ring. }
      pose proof (E2 (- 1)) as F. rewrite E3.
      set (S3 := Rsum (seq 0 n) (fun k : nat => K * mu1 a I x k / (lam * sqrt (w k)) / w k * _)) in *.
      set (S4 := Rsum (seq 0 n) (fun i : nat => Rsum (seq 0 n) (fun k : nat => wl k (acol x x) * f3 i i k / (w k * sqrt (w k)) * _))) in *.
      clearbody S3 S4.
      assert (F' : / 4 * S3 = - (/ 2 * (lam * B x ^ 2)) * S4) by lra.
      replace (- 1 * / 4 * S3) with (/ 2 * (lam * B x ^ 2) * S4) by lra.
      replace (- / 4 * S3) with (/ 2 * (lam * B x ^ 2) * S4) by lra.
      field.
  Qed.
End Value.

Section Model.
  Variables (n : nat) (B I w : nat -> R) (wl : nat -> nat -> R) (zeta f3 : nat -> nat -> nat -> R)
    (cor : list (nat * nat * nat)) (K lam : R) (x : nat) (rep : nat -> nat -> bool).
  Hypothesis Hx : (x < 3)%nat.
  Hypothesis wpos : forall i, (i < n)%nat -> 0 < w i.
  Hypothesis Ipos : forall y, (y < 3)%nat -> 0 < I y.
  Hypothesis HB : forall y, (y < 3)%nat -> B y = K / I y.
  Hypothesis HK : 2 * K * lam ^ 2 = 1.
  Hypothesis f3a : forall i j k, f3 i j k = f3 j i k.
  Hypothesis f3b : forall i j k, f3 i j k = f3 i k j.
  Hypothesis zanti : forall i j a, zeta i j a = - zeta j i a.
  Hypothesis Hone : forall i j, (i < n)%nat -> (j < n)%nat -> one_axis cor i j.
  Hypothesis Hrep : forall i j, rep i j = true <-> listed cor i j x.
  Hypothesis apart : forall i j, (i < n)%nat -> (j < n)%nat -> i <> j -> rep i j = false -> w i <> w j.
  Let a (k y z : nat) : R := wl k (acol y z).
  Let rounding := rounding n B w wl f3 lam x.

  Lemma rep_swap i j : rep i j = rep j i.
  Proof. apply eq_true_iff_eq. rewrite !Hrep. unfold listed. tauto. Qed.

  Lemma state_constant v :
    B x + Rsum (seq 0 n) (fun i => alpha n B I w wl zeta f3 cor i x * (INR (v i) + / 2))
    = rot_const n w f3 zeta a I K lam rep x v + rounding v.
  Proof.
    unfold rounding, a.
    rewrite <- (rot_const_value n B I w wl zeta f3 K lam x rep wpos (Ipos x Hx) (HB x Hx) HK f3a f3b zanti rep_swap apart).
    f_equal. fold a.
    change (fun k y z => wl k (acol y z)) with a.
    rewrite <- !Rsum_scal, <- !Rsum_plus. apply Sm_ext. intros i Hi.
      pose proof (wpos i Hi) as Wi.
      destruct (alpha_exact_lemma n B I w wl zeta f3 cor i x Hi Hx wpos (fun j Hj => Hone i j Hi Hj)) as (t & -> & Ht).
      fold (a i x 0%nat) (a i x 1%nat) (a i x 2%nat).
      assert (E1 : Rsum (others i n) t = w i * Rsum (seq 0 n) (fun j => if (j =? i)%nat then 0 else pair_term (rep i j) (zeta i j x) (w i) (w j))).
      { unfold others. rewrite <- Rsum_scal.
        transitivity (Rsum (seq 0 n) (fun j => if (j =? i)%nat then 0 else t j)).
        - generalize (seq 0 n). intros l. induction l as [|b l IH]; [reflexivity|]. cbn [filter]. rewrite Rsum_cons, <- IH.
          destruct (b =? i)%nat; cbn [negb]; [ring|now rewrite Rsum_cons].
        - apply Sm_ext. intros j Hj. destruct (Nat.eqb_spec j i) as [|N]; [ring|].
          pose proof (wpos j Hj) as Wj. destruct (Ht j Hj N) as (P1 & P2 & P3). unfold pair_term.
          destruct (rep i j) eqn:Er.
          + apply Hrep in Er. destruct (Req_dec (w i) (w j)) as [We|We].
            * specialize (P3 Er). rewrite We in P3. replace (w j - w j) with 0 in P3 by ring. rewrite Rabs_R0 in P3.
              assert (t j = 0) as ->.
              { assert (Rabs (t j) <= 0) as Z by (unfold Rdiv in P3; lra).
                pose proof (Rabs_pos (t j)). destruct (Req_dec (t j) 0) as [|Q]; [assumption|].
                apply Rabs_pos_lt in Q. lra. }
              rewrite We. field. lra.
            * rewrite (P2 Er We). field. repeat split; try lra.
              assert (w i ^ 2 - w j ^ 2 = (w i - w j) * (w i + w j)) as -> by ring.
              apply Rmult_integral_contrapositive. split; lra.
          + assert (We : w i <> w j) by (apply apart; auto).
            rewrite P1 by (rewrite <- ?Hrep; congruence). field. split; [|lra].
            assert (w i ^ 2 - w j ^ 2 = (w i - w j) * (w i + w j)) as -> by ring.
            apply Rmult_integral_contrapositive. split; lra. }
      rewrite E1.
      transitivity (2 * B x ^ 2 / w i * (3 / 4 * (a i x 0%nat ^ 2 / I 0%nat + a i x 1%nat ^ 2 / I 1%nat + a i x 2%nat ^ 2 / I 2%nat)) * (INR (v i) + / 2)
        + (2 * B x ^ 2 * ((INR (v i) + / 2) * Rsum (seq 0 n) (fun j => if (j =? i)%nat then 0 else pair_term (rep i j) (zeta i j x) (w i) (w j)))
        + 2 * (86112 / 1000000) * B x ^ 2 * ((INR (v i) + / 2) * (/ w i * Rsum (seq 0 n) (fun j => wl j (acol x x) * f3 i i j * w i / (w j * sqrt (w j))))))).
      + field. pose proof (Ipos 0%nat ltac:(lia)). pose proof (Ipos 1%nat ltac:(lia)). pose proof (Ipos 2%nat ltac:(lia)). repeat split; lra.
      + f_equal. f_equal. f_equal. rewrite <- Rsum_scal, <- Rsum_scal. apply Sm_ext. intros k Hk. pose proof (wpos k Hk) as H2.
        pose proof (sqrt_lt_R0 _ H2). field. lra.
  Qed.

  Lemma rot_second_order vs m v :
    (forall u, In u vs -> length u = n) -> (n + 1 <= length vs)%nat ->
    (m < n + 1)%nat -> nth_error vs m = Some v ->
    exists rows row, alphaa n B I w wl zeta f3 (singles n) (map I1st vs) cor = Some rows /\
      nth_error rows m = Some row /\
      nth x [fst (fst row); snd (fst row); snd row] 0
      = rot_const n w f3 zeta a I K lam rep x (fun i => nth i v 0%nat) + rounding (fun i => nth i v 0%nat).
  Proof.
    intros L Hn Hm Hv. exists (map (fun m => const_row n B I w wl zeta f3 cor (nth m vs [])) (seq 0 (n + 1))).
    exists (const_row n B I w wl zeta f3 cor v). split; [now apply alphaa_R|]. split.
    - rewrite nth_error_map, (nth_error_nth_lt (seq 0 (n + 1)) m 0%nat) by now rewrite seq_length.
      cbn [option_map]. rewrite seq_nth by lia. cbn [Nat.add]. now rewrite (nth_error_nth vs m [] Hv).
    - rewrite <- state_constant. unfold const_row, vib_sum.
      destruct x as [|[|[|]]]; [reflexivity|reflexivity|reflexivity|lia].
  Qed.
End Model.
