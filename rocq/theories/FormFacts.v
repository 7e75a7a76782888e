(** The sextic tensor as the coefficients of a sextic form in the angular momentum. *)
From Coq Require Import Reals Lra Lia List ZArith Arith Bool.
From Verif Require Import Num Loops Index Modes Anharm VibRot Distort.
From Verif Require Import ListFacts ModesFacts ResFacts AnharmFacts EnergyFacts VibRotFacts
  DistortFacts SexticFacts.
Import ListNotations.
Open Scope R_scope.

(** ** polynomials in the three components of the angular momentum and Poisson brackets *)
(** monomials: coefficient and the powers of x, y and z *)
Definition poly := list (R * (nat * nat * nat)).
Definition ev (p : poly) (x y z : R) : R :=
  Rsum p (fun '(c, (i, j, k)) => c * x ^ i * y ^ j * z ^ k).
Definition dX (p : poly) : poly :=
  map (fun '(c, (i, j, k)) => (IZR (Z.of_nat i) * c, (pred i, j, k))) p.
Definition dY (p : poly) : poly :=
  map (fun '(c, (i, j, k)) => (IZR (Z.of_nat j) * c, (i, pred j, k))) p.
Definition dZ (p : poly) : poly :=
  map (fun '(c, (i, j, k)) => (IZR (Z.of_nat k) * c, (i, j, pred k))) p.
(** the bracket of the classical angular momentum: J . (grad f x grad g) *)
Definition bracket (f g : poly) (x y z : R) : R :=
  x * (ev (dY f) x y z * ev (dZ g) x y z - ev (dZ f) x y z * ev (dY g) x y z)
  + y * (ev (dZ f) x y z * ev (dX g) x y z - ev (dX f) x y z * ev (dZ g) x y z)
  + z * (ev (dX f) x y z * ev (dY g) x y z - ev (dY f) x y z * ev (dX g) x y z).
(** the part of a form of even degree that is even in every component *)
Definition even (f : R -> R -> R -> R) (x y z : R) : R :=
  (f x y z + f (- x) y z + f x (- y) z + f x y (- z)) / 4.

(** rigid rotor *)
Definition rigid (B : nat -> R) : poly :=
  [(B 0%nat, (2, 0, 0)); (B 1%nat, (0, 2, 0)); (B 2%nat, (0, 0, 2))]%nat.

Definition xyz (x y z : R) (a : nat) : R := match a with O => x | S O => y | _ => z end.
Definition sum3 (f : nat -> R) : R := Rsum (seq 0 3) f.

(** ** the forms *)
Section Forms.
  Variables (nvib : nat) (B w : nat -> R) (tau : nat -> nat -> nat -> nat -> R)
    (c : nat -> nat -> nat -> R) (zm f3 : nat -> nat -> nat -> R).

  (** the quartic form *)
  Definition quartic_form (x y z : R) : R :=
    / 4 * sum3 (fun a => sum3 (fun b => sum3 (fun d => sum3 (fun e =>
      tau a b d e * (xyz x y z a * xyz x y z b * xyz x y z d * xyz x y z e))))).
  (** its derivative by component [a] *)
  Definition tau_form (a : nat) (x y z : R) : R :=
    sum3 (fun b => sum3 (fun d => sum3 (fun e =>
      tau a b d e * (xyz x y z b * xyz x y z d * xyz x y z e)))).
  (** the equilibrium displacement of mode [v] caused by rotation *)
  Definition c_form (v : nat) (x y z : R) : R :=
    sum3 (fun a => sum3 (fun b => c v a b * (xyz x y z a * xyz x y z b))).
  Definition cor_form (v : nat) (x y z : R) : R :=
    Rsum (seq 0 nvib) (fun u =>
      p32 (w u) * (1 / w u ^ 2 + 2 / w v ^ 2) * c_form u x y z
      * sum3 (fun a => zm u v a * B a * xyz x y z a)) / sqrt (w v).
  Definition sextic_form (x y z : R) : R :=
    3 / 16 * sum3 (fun a => tau_form a x y z ^ 2 / B a)
    - 2 * Rsum (seq 0 nvib) (fun v => w v * cor_form v x y z ^ 2)
    + / 6 * Rsum (seq 0 nvib) (fun u => Rsum (seq 0 nvib) (fun v => Rsum (seq 0 nvib) (fun k =>
        f3 u v k * c_form u x y z * c_form v x y z * c_form k x y z))).
End Forms.

(** the even sextic form with the tensor elements as coefficients *)
Definition tensor_form (s : nat -> nat -> nat -> R) (x y z : R) : R :=
  s 0%nat 0%nat 0%nat * x ^ 6 + s 1%nat 1%nat 1%nat * y ^ 6 + s 2%nat 2%nat 2%nat * z ^ 6
  + 2 * (s 0%nat 0%nat 1%nat * x ^ 4 * y ^ 2 + s 1%nat 1%nat 0%nat * y ^ 4 * x ^ 2
         + s 0%nat 0%nat 2%nat * x ^ 4 * z ^ 2 + s 2%nat 2%nat 0%nat * z ^ 4 * x ^ 2
         + s 1%nat 1%nat 2%nat * y ^ 4 * z ^ 2 + s 2%nat 2%nat 1%nat * z ^ 4 * y ^ 2)
  + 2 * s 0%nat 1%nat 2%nat * x ^ 2 * y ^ 2 * z ^ 2.


Lemma sum3_eq f : sum3 f = f 0%nat + f 1%nat + f 2%nat.
Proof. unfold sum3. cbn. ring. Qed.

(** ** squares of cubic forms *)
(** [k a a b] is the coefficient of the square of component [a] times component [b] *)
Definition cubic (k : nat -> nat -> nat -> R) (x y z : R) : R :=
  k 0%nat 0%nat 0%nat * x ^ 3 + k 1%nat 1%nat 1%nat * y ^ 3 + k 2%nat 2%nat 2%nat * z ^ 3
  + k 0%nat 0%nat 1%nat * x ^ 2 * y + k 0%nat 0%nat 2%nat * x ^ 2 * z
  + k 1%nat 1%nat 0%nat * y ^ 2 * x + k 1%nat 1%nat 2%nat * y ^ 2 * z
  + k 2%nat 2%nat 0%nat * z ^ 2 * x + k 2%nat 2%nat 1%nat * z ^ 2 * y
  + k 0%nat 1%nat 2%nat * x * y * z.
Definition square (k : nat -> nat -> nat -> R) (a b d : nat) : R :=
  if (a =? b)%nat && (b =? d)%nat then k a a a ^ 2
  else if (a =? b)%nat then / 2 * (k a a d ^ 2 + 2 * k a a a * k d d a)
  else / 2 * (k 0%nat 1%nat 2%nat ^ 2
              + 2 * (k 1%nat 1%nat 0%nat * k 2%nat 2%nat 0%nat + k 0%nat 0%nat 1%nat * k 2%nat 2%nat 1%nat
                     + k 0%nat 0%nat 2%nat * k 1%nat 1%nat 2%nat)).

Lemma even_square k x y z :
  even (fun x y z => cubic k x y z ^ 2) x y z = tensor_form (square k) x y z.
Proof. unfold even, cubic, tensor_form, square. cbn [Nat.eqb andb]. field. Qed.

Lemma even_plus f g x y z :
  even (fun x y z => f x y z + g x y z) x y z = even f x y z + even g x y z.
Proof. unfold even. field. Qed.
Lemma even_minus f g x y z :
  even (fun x y z => f x y z - g x y z) x y z = even f x y z - even g x y z.
Proof. unfold even. field. Qed.
Lemma even_scal r f x y z : even (fun x y z => r * f x y z) x y z = r * even f x y z.
Proof. unfold even. field. Qed.
Lemma even_sum {A} (l : list A) f x y z :
  even (fun x y z => Rsum l (fun a => f a x y z)) x y z = Rsum l (fun a => even (f a) x y z).
Proof.
  induction l as [|a l IH]; [unfold even; cbn; field|].
  rewrite Rsum_cons, <- IH, <- even_plus. reflexivity.
Qed.
Lemma even_ext f g x y z : (forall x y z, f x y z = g x y z) -> even f x y z = even g x y z.
Proof. intros E. unfold even. now rewrite !E. Qed.

Lemma tensor_scal r s x y z : tensor_form (fun a b d => r * s a b d) x y z = r * tensor_form s x y z.
Proof. unfold tensor_form. ring. Qed.
Lemma tensor_plus s t x y z :
  tensor_form (fun a b d => s a b d + t a b d) x y z = tensor_form s x y z + tensor_form t x y z.
Proof. unfold tensor_form. ring. Qed.
Lemma tensor_minus s t x y z :
  tensor_form (fun a b d => s a b d - t a b d) x y z = tensor_form s x y z - tensor_form t x y z.
Proof. unfold tensor_form. ring. Qed.
Lemma tensor_sum {A} (l : list A) s x y z :
  tensor_form (fun a b d => Rsum l (fun e => s e a b d)) x y z = Rsum l (fun e => tensor_form (s e) x y z).
Proof.
  induction l as [|e l IH]; [unfold tensor_form; cbn; ring|].
  rewrite Rsum_cons, <- IH, <- tensor_plus. reflexivity.
Qed.
(** only ten elements matter *)
Lemma tensor_ext s t x y z :
  (forall a, (a < 3)%nat -> s a a a = t a a a) ->
  (forall a b, (a < 3)%nat -> (b < 3)%nat -> a <> b -> s a a b = t a a b) ->
  s 0%nat 1%nat 2%nat = t 0%nat 1%nat 2%nat ->
  tensor_form s x y z = tensor_form t x y z.
Proof.
  intros D P T. unfold tensor_form. rewrite !D, !P, T by lia. reflexivity.
Qed.

(** ** cubes of quadratic forms, weighted with a symmetric tensor *)
Section Cubes.
  Variables (n : nat) (f3 : nat -> nat -> nat -> R) (c : nat -> nat -> R).
  Hypothesis f3_sym : forall u v k, f3 u v k = f3 v u k /\ f3 u v k = f3 u k v.

  Definition cube (p q r : nat) : R :=
    Rsum (seq 0 n) (fun u => Rsum (seq 0 n) (fun v => Rsum (seq 0 n) (fun k =>
      f3 u v k * c u p * c v q * c k r))).
  Lemma cube_swap12 p q r : cube p q r = cube q p r.
  Proof.
    unfold cube. rewrite Rsum_swap. apply Rsum_ext. intros u _. apply Rsum_ext. intros v _.
    apply Rsum_ext. intros k _. rewrite (proj1 (f3_sym v u k)). ring.
  Qed.
  Lemma cube_swap23 p q r : cube p q r = cube p r q.
  Proof.
    unfold cube. apply Rsum_ext. intros u _. rewrite Rsum_swap. apply Rsum_ext. intros v _.
    apply Rsum_ext. intros k _. rewrite (proj2 (f3_sym u k v)). ring.
  Qed.

  Definition scube (p q r : nat) : R :=
    if (p <=? q)%nat then
      if (q <=? r)%nat then cube p q r
      else if (p <=? r)%nat then cube p r q else cube r p q
    else if (p <=? r)%nat then cube q p r
      else if (q <=? r)%nat then cube q r p else cube r q p.
  Lemma cube_sort p q r : cube p q r = scube p q r.
  Proof.
    unfold scube. destruct (p <=? q)%nat, (q <=? r)%nat, (p <=? r)%nat; try reflexivity.
    - apply cube_swap23.
    - now rewrite cube_swap23, cube_swap12.
    - apply cube_swap12.
    - now rewrite cube_swap12, cube_swap23.
    - apply cube_swap12.
    - now rewrite cube_swap12, cube_swap23, cube_swap12.
  Qed.

  Definition six (v : nat) (x y z : R) : R :=
    c v 0%nat * x ^ 2 + c v 1%nat * (2 * x * y) + c v 2%nat * y ^ 2
    + c v 3%nat * (2 * x * z) + c v 4%nat * (2 * y * z) + c v 5%nat * z ^ 2.
  Definition mon (x y z : R) (p : nat) : R :=
    match p with 0 => x ^ 2 | 1 => 2 * x * y | 2 => y ^ 2 | 3 => 2 * x * z | 4 => 2 * y * z | _ => z ^ 2 end.
  Lemma six_mon v x y z : six v x y z = Rsum (seq 0 6) (fun p => mon x y z p * c v p).
  Proof. unfold six. cbn. ring. Qed.

  Definition cubes (a b d : nat) : R :=
    if (a =? b)%nat && (b =? d)%nat then cube (acol a a) (acol a a) (acol a a)
    else if (a =? b)%nat then
      / 2 * (3 * cube (acol d d) (acol a a) (acol a a) + 12 * cube (acol a d) (acol a d) (acol a a))
    else / 2 * (6 * cube 0 2 5 + 12 * cube 0 4 4 + 12 * cube 2 3 3 + 12 * cube 5 1 1 + 48 * cube 4 3 1).

  (** the same sum with three arbitrary vectors, linear in each *)
  Definition cube' (a b d : nat -> R) : R :=
    Rsum (seq 0 n) (fun u => Rsum (seq 0 n) (fun v => Rsum (seq 0 n) (fun k =>
      f3 u v k * a u * b v * d k))).
  Lemma cube_lin1 (l : list nat) (m : nat -> R) (a : nat -> nat -> R) b d :
    cube' (fun u => Rsum l (fun p => m p * a u p)) b d = Rsum l (fun p => m p * cube' (fun u => a u p) b d).
  Proof.
    unfold cube'. induction l as [|p l IH].
    - apply Rsum_0. intros u _. apply Rsum_0. intros v _. apply Rsum_0. intros k _. cbn. ring.
    - rewrite Rsum_cons, <- IH, <- Rsum_scal, <- Rsum_plus. apply Rsum_ext. intros u _.
      rewrite <- Rsum_scal, <- Rsum_plus. apply Rsum_ext. intros v _.
      rewrite <- Rsum_scal, <- Rsum_plus. apply Rsum_ext. intros k _. rewrite Rsum_cons. ring.
  Qed.
  Lemma cube_lin2 (l : list nat) (m : nat -> R) a (b : nat -> nat -> R) d :
    cube' a (fun u => Rsum l (fun p => m p * b u p)) d = Rsum l (fun p => m p * cube' a (fun u => b u p) d).
  Proof.
    unfold cube'. induction l as [|p l IH].
    - apply Rsum_0. intros u _. apply Rsum_0. intros v _. apply Rsum_0. intros k _. cbn. ring.
    - rewrite Rsum_cons, <- IH, <- Rsum_scal, <- Rsum_plus. apply Rsum_ext. intros u _.
      rewrite <- Rsum_scal, <- Rsum_plus. apply Rsum_ext. intros v _.
      rewrite <- Rsum_scal, <- Rsum_plus. apply Rsum_ext. intros k _. rewrite Rsum_cons. ring.
  Qed.
  Lemma cube_lin3 (l : list nat) (m : nat -> R) a b (d : nat -> nat -> R) :
    cube' a b (fun u => Rsum l (fun p => m p * d u p)) = Rsum l (fun p => m p * cube' a b (fun u => d u p)).
  Proof.
    unfold cube'. induction l as [|p l IH].
    - apply Rsum_0. intros u _. apply Rsum_0. intros v _. apply Rsum_0. intros k _. cbn. ring.
    - rewrite Rsum_cons, <- IH, <- Rsum_scal, <- Rsum_plus. apply Rsum_ext. intros u _.
      rewrite <- Rsum_scal, <- Rsum_plus. apply Rsum_ext. intros v _.
      rewrite <- Rsum_scal, <- Rsum_plus. apply Rsum_ext. intros k _. rewrite Rsum_cons. ring.
  Qed.

  Lemma even_cubes x y z :
    even (fun x y z => Rsum (seq 0 n) (fun u => Rsum (seq 0 n) (fun v => Rsum (seq 0 n) (fun k =>
      f3 u v k * six u x y z * six v x y z * six k x y z)))) x y z
    = tensor_form cubes x y z.
  Proof.
    assert (L : forall x y z, Rsum (seq 0 n) (fun u => Rsum (seq 0 n) (fun v => Rsum (seq 0 n) (fun k =>
      f3 u v k * six u x y z * six v x y z * six k x y z)))
      = Rsum (seq 0 6) (fun p => mon x y z p * Rsum (seq 0 6) (fun q => mon x y z q *
          Rsum (seq 0 6) (fun r => mon x y z r * scube p q r)))).
    { clear x y z. intros x y z.
      transitivity (cube' (fun u => Rsum (seq 0 6) (fun p => mon x y z p * c u p))
        (fun u => Rsum (seq 0 6) (fun p => mon x y z p * c u p))
        (fun u => Rsum (seq 0 6) (fun p => mon x y z p * c u p))).
      { apply Rsum_ext. intros u _. apply Rsum_ext. intros v _. apply Rsum_ext. intros k _.
        now rewrite !six_mon. }
      rewrite cube_lin1. apply Rsum_ext. intros p _. f_equal.
      rewrite cube_lin2. apply Rsum_ext. intros q _. f_equal.
      rewrite cube_lin3. apply Rsum_ext. intros r _. f_equal.
      change (cube p q r = scube p q r). apply cube_sort. }
    rewrite (even_ext _ _ x y z L). clear L.
    unfold even, tensor_form, cubes. cbn [Nat.eqb andb acol].
    rewrite !(cube_sort _ _ _). unfold scube.
    cbn [seq Rsum fold_right mon Nat.leb].
    generalize cube. intros m. field.
  Qed.
End Cubes.

(** ** the tau terms *)
Section TauPart.
  Variables (tau : nat -> nat -> nat -> nat -> R) (B : nat -> R).
  Hypothesis tau_sym : forall a b d e, (a < 3)%nat -> (b < 3)%nat -> (d < 3)%nat -> (e < 3)%nat ->
    tau a b d e = tau b a d e /\ tau a b d e = tau a b e d /\ tau a b d e = tau d e a b.

  Definition rep (p : nat) : nat * nat :=
    match p with 0 => (0, 0) | 1 => (1, 0) | 2 => (1, 1) | 3 => (2, 0) | 4 => (2, 1) | _ => (2, 2) end%nat.
  Definition tpair (p q : nat) : R := tau (fst (rep p)) (snd (rep p)) (fst (rep q)) (snd (rep q)).
  Definition tcan (a b d e : nat) : R :=
    tpair (Nat.min (acol a b) (acol d e)) (Nat.max (acol a b) (acol d e)).
  Lemma tau_can a b d e : (a < 3)%nat -> (b < 3)%nat -> (d < 3)%nat -> (e < 3)%nat ->
    tau a b d e = tcan a b d e.
  Proof.
    intros Ha Hb Hd He.
    assert (R1 : forall a b, (a < 3)%nat -> (b < 3)%nat ->
      (fst (rep (acol a b)) < 3)%nat /\ (snd (rep (acol a b)) < 3)%nat /\
      (rep (acol a b) = (a, b) \/ rep (acol a b) = (b, a))).
    { clear. intros a b Ha Hb.
      destruct a as [|[|[|]]]; try lia; destruct b as [|[|[|]]]; try lia; cbn;
        (split; [lia|split; [lia|auto]]). }
    destruct (R1 a b Ha Hb) as (_ & _ & E1). destruct (R1 d e Hd He) as (_ & _ & E2).
    assert (T : tau a b d e = tpair (acol a b) (acol d e)).
    { unfold tpair. destruct E1 as [->| ->], E2 as [->| ->]; cbn [fst snd].
      - reflexivity.
      - apply tau_sym; assumption.
      - apply tau_sym; assumption.
      - rewrite (proj1 (tau_sym a b d e Ha Hb Hd He)). apply tau_sym; assumption. }
    rewrite T. unfold tcan. destruct (Nat.le_ge_cases (acol a b) (acol d e)) as [L|L].
    - now rewrite Nat.min_l, Nat.max_r.
    - rewrite Nat.min_r, Nat.max_l by assumption. unfold tpair.
      destruct (R1 a b Ha Hb) as (? & ? & _). destruct (R1 d e Hd He) as (? & ? & _).
      apply tau_sym; assumption.
  Qed.

  Definition ktau (e a b d : nat) : R :=
    if (a =? b)%nat && (b =? d)%nat then tau e a a a
    else if (a =? b)%nat then tau e d a a + 2 * tau e a d a
    else 2 * (tau e 0%nat 1%nat 2%nat + tau e 1%nat 2%nat 0%nat + tau e 2%nat 0%nat 1%nat).
  Lemma tau_form_cubic e x y z : (e < 3)%nat -> tau_form tau e x y z = cubic (ktau e) x y z.
  Proof.
    intros He. unfold tau_form. rewrite !sum3_eq. unfold cubic, ktau. cbn [Nat.eqb andb xyz].
    rewrite !tau_can by lia. unfold tcan.
    destruct e as [|[|[|]]]; try lia; cbn [acol Nat.min Nat.max]; ring.
  Qed.

  Definition shareA (a b d : nat) : R := 3 / 16 * sum3 (fun e => / B e * square (ktau e) a b d).
  Lemma even_tau x y z :
    even (fun x y z => 3 / 16 * sum3 (fun a => tau_form tau a x y z ^ 2 / B a)) x y z
    = tensor_form shareA x y z.
  Proof.
    rewrite even_scal. unfold shareA, sum3. rewrite tensor_scal. f_equal.
    rewrite even_sum, tensor_sum. apply Rsum_ext. intros e He. apply in_seq in He.
    rewrite tensor_scal, <- even_square, <- even_scal. apply even_ext. intros x' y' z'.
    rewrite tau_form_cubic by lia. unfold Rdiv. ring.
  Qed.

  (** *** the odd terms of the quartic form and the transformation that removes them *)
  (** coefficient of the components [p] and [q] times the square of [r] *)
  Definition oo (p q r : nat) : R := tau p q r r + 2 * tau p r r q.
  Definition odd_poly : poly :=
    [(tau 1 0 0 0, (3, 1, 0)); (tau 0 1 1 1, (1, 3, 0)); (oo 0 1 2, (1, 1, 2));
     (tau 2 1 1 1, (0, 3, 1)); (tau 1 2 2 2, (0, 1, 3)); (oo 1 2 0, (2, 1, 1));
     (tau 0 2 2 2, (1, 0, 3)); (tau 2 0 0 0, (3, 0, 1)); (oo 2 0 1, (1, 2, 1))]%nat.
  Lemma quartic_odd x y z :
    quartic_form tau x y z - even (quartic_form tau) x y z = ev odd_poly x y z.
  Proof.
    unfold even, quartic_form, odd_poly, ev, oo. rewrite !sum3_eq. cbn [xyz Rsum fold_right].
    rewrite !tau_can by lia. unfold tcan. cbn [acol Nat.min Nat.max].
    field.
  Qed.

  Definition alp (x y z : nat) : R := - tau y x x x / (2 * (B x - B y)).
  Definition bet (x y z : nat) : R := - tau x y y y / (2 * (B x - B y)).
  Definition gam (x y z : nat) : R :=
    (- oo x y z - 4 * bet x y z * (B z - B x) - 4 * alp x y z * (B y - B z)) / (6 * (B x - B y)).
  Definition gen_poly : poly :=
    [(alp 0 1 2, (2, 0, 1)); (bet 0 1 2, (0, 2, 1)); (gam 0 1 2, (0, 0, 3));
     (alp 1 2 0, (1, 2, 0)); (bet 1 2 0, (1, 0, 2)); (gam 1 2 0, (3, 0, 0));
     (alp 2 0 1, (0, 1, 2)); (bet 2 0 1, (2, 1, 0)); (gam 2 0 1, (0, 3, 0))]%nat.

  (** the resulting shares of the tensor *)
  Definition block (a b d : nat) (t1 t2 : R) : R :=
    3 * (t1 - t2) * ((B b - B d) * t1 + (B d - B a) * t2) / (4 * (B a - B b) ^ 2).
  Definition shareE (x b y : nat) : R :=
    let z := (3 - x - y)%nat in
    if (x =? b)%nat && (b =? y)%nat then
      / 4 * sum3 (fun e => if (e =? x)%nat then 0 else tau e x x x ^ 2 / (B x - B e))
    else if (x =? b)%nat then
      (4 * tau y y y x - 3 * tau y x x x) * tau y x x x / (8 * (B x - B y))
      + tau z x x x * ((B x - B z) * oo z x y + (B x - B y) * (tau z z z x - tau z x x x))
        / (4 * (B x - B z) ^ 2)
      + (tau z y x x + 2 * tau z x y x) *
        ((B y - B z) * (tau z y x x + 2 * tau z x y x) + 2 * (B x - B y) * (tau z y y y - tau z z z y))
        / (8 * (B y - B z) ^ 2)
    else block 1 2 0 (tau 2%nat 1%nat 1%nat 1%nat) (tau 2%nat 2%nat 2%nat 1%nat)
         + block 2 0 1 (tau 2%nat 2%nat 2%nat 0%nat) (tau 2%nat 0%nat 0%nat 0%nat)
         + block 0 1 2 (tau 1%nat 0%nat 0%nat 0%nat) (tau 1%nat 1%nat 1%nat 0%nat).

  (** two rotational constants differ, or the terms that would have to be divided by their
      difference are not there *)
  Definition family (x y : nat) : Prop :=
    B x <> B y \/
    (tau y x x x = 0 /\ tau x y y y = 0 /\ oo x y (3 - x - y) = 0).
  Hypothesis (F01 : family 0 1) (F12 : family 1 2) (F20 : family 2 0).

  Lemma family_eqs x y : family x y ->
    let z := (3 - x - y)%nat in
    tau y x x x = - 2 * (B x - B y) * alp x y z /\
    tau x y y y = - 2 * (B x - B y) * bet x y z /\
    oo x y z = - 6 * (B x - B y) * gam x y z - 4 * bet x y z * (B z - B x) - 4 * alp x y z * (B y - B z).
  Proof.
    intros [N|(E1 & E2 & E3)] z; unfold gam, alp, bet.
    - repeat split; field; repeat split; lra.
    - fold z in E3. rewrite E1, E2, E3. unfold Rdiv. repeat split; ring.
  Qed.

  Lemma gen_lemma x y z : bracket gen_poly (rigid B) x y z = - ev odd_poly x y z.
  Proof.
    destruct (family_eqs 0 1 F01) as (A1 & A2 & A3). destruct (family_eqs 1 2 F12) as (A4 & A5 & A6).
    destruct (family_eqs 2 0 F20) as (A7 & A8 & A9). cbn [Nat.sub] in *.
    unfold bracket, gen_poly, rigid, odd_poly.
    rewrite A1, A2, A3, A4, A5, A6, A7, A8, A9.
    cbn [ev dX dY dZ map Rsum fold_right Nat.pred Z.of_nat Pos.of_succ_nat Pos.succ].
    unfold ev. cbn [Rsum fold_right]. generalize alp bet gam. intros al be ga. ring.
  Qed.

  Lemma tau_last d e : (d < 3)%nat -> (e < 3)%nat -> tau d d d e = tau e d d d.
  Proof.
    intros Hd He. rewrite (proj2 (proj2 (tau_sym d d d e Hd Hd Hd He))). now apply tau_sym.
  Qed.
  Lemma oo_alt p q r : (p < 3)%nat -> (q < 3)%nat -> (r < 3)%nat ->
    tau p q r r + 2 * tau p r q r = oo p q r.
  Proof.
    intros Hp Hq Hr. unfold oo. rewrite (proj1 (proj2 (tau_sym p r q r Hp Hr Hq Hr))). reflexivity.
  Qed.
  Lemma oo_sym p q r : (p < 3)%nat -> (q < 3)%nat -> (r < 3)%nat -> oo p q r = oo q p r.
  Proof.
    intros Hp Hq Hr. unfold oo. rewrite (proj1 (tau_sym p q r r Hp Hq Hr Hr)).
    rewrite (proj2 (proj2 (tau_sym p r r q Hp Hr Hr Hq))).
    rewrite (proj1 (tau_sym r q p r Hr Hq Hp Hr)), (proj1 (proj2 (tau_sym q r p r Hq Hr Hp Hr))).
    reflexivity.
  Qed.

  Lemma even_extra x y z :
    even (fun x y z => / 2 * bracket gen_poly odd_poly x y z) x y z = tensor_form shareE x y z.
  Proof.
    destruct (family_eqs 0 1 F01) as (A1 & A2 & A3). destruct (family_eqs 1 2 F12) as (A4 & A5 & A6).
    destruct (family_eqs 2 0 F20) as (A7 & A8 & A9). cbn [Nat.sub] in *.
    set (a1 := alp 0 1 2) in *. set (b1 := bet 0 1 2) in *. set (g1 := gam 0 1 2) in *.
    set (a2 := alp 1 2 0) in *. set (b2 := bet 1 2 0) in *. set (g2 := gam 1 2 0) in *.
    set (a3 := alp 2 0 1) in *. set (b3 := bet 2 0 1) in *. set (g3 := gam 2 0 1) in *.
    assert (ZZ : forall x y z : nat, tau y x x x = 0 /\ tau x y y y = 0 /\ oo x y z = 0 ->
      alp x y z = 0 /\ bet x y z = 0 /\ gam x y z = 0).
    { intros u v k (E1 & E2 & E3). unfold gam, alp, bet. rewrite E1, E2, E3. unfold Rdiv.
      repeat split; ring. }
    assert (Z1 : B 0%nat <> B 1%nat \/ a1 = 0 /\ b1 = 0 /\ g1 = 0)
      by (destruct F01 as [N|E]; [now left|right; now apply ZZ]).
    assert (Z2 : B 1%nat <> B 2%nat \/ a2 = 0 /\ b2 = 0 /\ g2 = 0)
      by (destruct F12 as [N|E]; [now left|right; now apply ZZ]).
    assert (Z3 : B 2%nat <> B 0%nat \/ a3 = 0 /\ b3 = 0 /\ g3 = 0)
      by (destruct F20 as [N|E]; [now left|right; now apply ZZ]).
    unfold shareE, block, tensor_form. cbn [Nat.eqb andb Nat.sub]. rewrite !sum3_eq. cbn [Nat.eqb].
    rewrite !oo_alt, !tau_last by lia.
    rewrite (oo_sym 1 0 2), (oo_sym 2 1 0), (oo_sym 0 2 1) by lia.
    unfold gen_poly, odd_poly. fold a1 b1 g1 a2 b2 g2 a3 b3 g3.
    rewrite A1, A2, A3, A4, A5, A6, A7, A8, A9. clear A1 A2 A3 A4 A5 A6 A7 A8 A9 ZZ.
    clearbody a1 b1 g1 a2 b2 g2 a3 b3 g3.
    destruct Z1 as [N1|(-> & -> & ->)], Z2 as [N2|(-> & -> & ->)], Z3 as [N3|(-> & -> & ->)];
      (match goal with |- ?l = _ => set (lhs := l) end);
      repeat match goal with |- context [?a / ?d] =>
        replace (a / d) with 0 by (replace a with 0 by ring; unfold Rdiv; ring) end;
      unfold lhs; clear lhs; unfold bracket;
      cbn [ev dX dY dZ map Rsum fold_right Nat.pred Z.of_nat Pos.of_succ_nat Pos.succ];
      unfold ev; cbn [Rsum fold_right]; unfold even;
      field; repeat split; lra.
  Qed.
End TauPart.
