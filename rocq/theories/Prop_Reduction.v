(** Properties C81-C83: the Wilson A vectors, the sextic tensor and the reduced constants
    against classical rotational mechanics. *)
From Coq Require Import QArith Reals Lra Lia List ZArith Arith Bool.
From Verif Require Import Num Loops Index Modes Anharm AnharmFacts VibRot VibRotFacts Distort DistortFacts
  SexticFacts InertiaFacts FormFacts TensorFacts ReductionFacts.
Import ListNotations.
Open Scope R_scope.

(** C81: along a mode without angular momentum the inertia tensor of the displaced atoms is
    the one at equilibrium, plus the Wilson A vector times the normal coordinate, plus a
    quadratic term.  [acol a b] is the column of the pair of axes. *)
Theorem wilson_vectors_inertia : forall natom geom m lxm k a b q,
  (forall i, (i < natom)%nat -> 0 < m i) -> eckart natom geom m lxm k ->
  (a < 3)%nat -> (b < 3)%nat ->
  inertia natom m (along geom m lxm k q) a b =
  inertia natom m geom a b + q * wila natom geom m lxm k (acol a b) + q ^ 2 * quadratic natom lxm k a b.
Proof. exact inertia_lemma. Qed.
(** a stretch of two atoms of mass 4 on the diagonal of the xy plane *)
Example wilson_vectors_inertia_ex :
  let geom := fun i : nat => match i with O => (1, 1, 0) | _ => (- 1, - 1, 0) end in
  let lxm := fun r k : nat => match r with O | S O => 1 | 3%nat | 4%nat => - 1 | _ => 0 end in
  eckart 2 geom (fun _ => 4) lxm 0 /\
  wila 2 geom (fun _ => 4) lxm 0 0 = 8 /\ wila 2 geom (fun _ => 4) lxm 0 1 = - 8 /\
  wila 2 geom (fun _ => 4) lxm 0 5 = 16.
Proof.
  assert (S4 : sqrt 4 = 2) by (replace 4 with (2 * 2) by ring; apply sqrt_square; lra).
  split.
  - intros a b Ha Hb. destruct a as [|[|[|]]]; try lia; destruct b as [|[|[|]]]; try lia;
      cbn [Rsum fold_right seq Nat.mul Nat.add comp fst snd]; rewrite S4; ring.
  - unfold wila. rewrite !nsum_R, !acc_sub_R. unfold range, cx, cy, cz.
    cbn [Rsum fold_right seq Nat.sub Nat.add Nat.mul fst snd nsqrt nmul nadd nsub Rnum].
    rewrite !ResFacts.nz_R, S4. repeat split; ring.
Qed.
Print Assumptions wilson_vectors_inertia.

(** C82.  The quartic form of the rotational energy has even terms and odd terms (odd in two
    of the components).  [S] generates the contact transformation that removes the odd
    ones.  The tensor holds the coefficients of the even part of the sextic form together
    with what the transformation adds, whenever each two rotational constants differ by
    more than 0.005 or the odd terms of that pair of axes are zero (as for the equal
    constants of a symmetric top). *)
Theorem sextic_tensor_reduced_form : forall nvib nfreq (B I w : nat -> R) wl zm f3,
  nfreq <> 6%nat ->
  (forall u v k, f3 u v k = f3 v u k /\ f3 u v k = f3 u k v) ->
  let tau := tau_spec nvib w I wl in
  (forall a b, (a < 3)%nat -> (b < 3)%nat -> a <> b -> / 200 < Rabs (B a - B b) \/ odd_free tau a b) ->
  exists S O : poly,
    (forall x y z, quartic_form tau x y z - even (quartic_form tau) x y z = ev O x y z) /\
    (forall x y z, bracket S (rigid B) x y z = - ev O x y z) /\
    forall x y z,
      even (fun x y z => sextic_form nvib B w tau (c_spec I w wl) zm f3 x y z + / 2 * bracket S O x y z) x y z
      = tensor_form (phi6 nvib nfreq B I w wl zm f3) x y z.
Proof. exact sextic_tensor_lemma. Qed.
(** an asymmetric top with odd terms *)
Example sextic_tensor_reduced_form_ex :
  let B := fun i : nat => match i with O => 5 | S O => 3 | _ => 2 end in
  let tau := tau_spec 1 (fun _ => 10) (fun _ => 2) (fun _ c => match c with O => 2 | S O => 1 | _ => 0 end) in
  (forall a b, (a < 3)%nat -> (b < 3)%nat -> a <> b -> / 200 < Rabs (B a - B b) \/ odd_free tau a b) /\
  tau 1%nat 0%nat 0%nat 0%nat <> 0.
Proof.
  split.
  - intros a b Ha Hb N. left. destruct a as [|[|[|]]]; try lia; destruct b as [|[|[|]]]; try lia;
      try (exfalso; now apply N); unfold Rabs; destruct (Rcase_abs _); lra.
  - unfold tau_spec. cbn [acol Nat.max Nat.min Rsum fold_right seq Nat.mul Nat.add]. lra.
Qed.
(** a symmetric top *)
Example sextic_tensor_reduced_form_ex2 :
  let B := fun i : nat => match i with O => 5 | _ => 3 end in
  let tau := tau_spec 1 (fun _ => 10) (fun _ => 2) (fun _ c => match c with O => 2 | 2%nat | 5%nat => 1 | _ => 0 end) in
  (forall a b, (a < 3)%nat -> (b < 3)%nat -> a <> b -> / 200 < Rabs (B a - B b) \/ odd_free tau a b) /\
  B 1%nat = B 2%nat /\ tau 1%nat 1%nat 2%nat 2%nat <> 0.
Proof.
  split; [|split; [reflexivity|]].
  - intros a b Ha Hb N. right. unfold odd_free, tau_spec.
    destruct a as [|[|[|]]]; try lia; destruct b as [|[|[|]]]; try lia;
      try (exfalso; now apply N); cbn [acol Nat.max Nat.min Rsum fold_right seq Nat.mul Nat.add Nat.sub]; lra.
  - unfold tau_spec. cbn [acol Nat.max Nat.min Rsum fold_right seq Nat.mul Nat.add]. lra.
Qed.
Print Assumptions sextic_tensor_reduced_form.

(** C83.  Axes z = 0, x = 1, y = 2.  H2 + H4 + H6 is the rotational Hamiltonian that the
    code holds as its tensors.  Watson's A Hamiltonian with the code's constants follows
    from it by a canonical transformation generated by a cubic and a quintic form (S3 and
    S5), through sixth degree; {S3, H4} + {S3, {S3, H2}} / 2 is half of {S3, H4 + Q4}.
    The same holds for the S Hamiltonian except for an explicit remainder in the sextics:
    the code divides by Bz - (Bx + By) / 2 with ten times a distortion coefficient added. *)
Theorem watson_reductions_canonical : forall nvib nfreq (B I w : nat -> R) wl zm f3,
  let Bx := B 1%nat in let By := B 2%nat in let Bz := B 0%nat in
  Bx <> By -> By <> Bz -> 2 * Bz <> Bx + By ->
  let H2 := rigid3 Bx By Bz in
  let H4 x y z := even (quartic_form (tau_spec nvib w I wl)) z x y in
  let H6 x y z := tensor_form (phi6 nvib nfreq B I w wl zm f3) z x y in
  exists q s k400 k220 k040 k202 k022 k004,
    quartic_new AsymmTop nvib B I w wl = Some q /\
    sextic_new AsymmTop nvib nfreq B I w wl zm f3 = Some s /\
    (forall x y z, H4 x y z = cyl4 k400 k220 k040 k202 k022 k004 x y z) /\
    (exists S3 S5 P4 Q4 : poly, forall x y z,
       ev P4 x y z = H4 x y z /\ ev Q4 x y z = A4 q x y z /\
       bracket S3 H2 x y z = A4 q x y z - H4 x y z /\
       bracket S5 H2 x y z + / 2 * bracket S3 (P4 ++ Q4) x y z = A6 s x y z - H6 x y z) /\
    (exists S3 S5 P4 Q4 : poly, forall x y z,
       ev P4 x y z = H4 x y z /\ ev Q4 x y z = S4 q x y z /\
       bracket S3 H2 x y z = S4 q x y z - H4 x y z /\
       bracket S5 H2 x y z + / 2 * bracket S3 (P4 ++ Q4) x y z = S6 s x y z - H6 x y z
         - (/ (Bz - (Bx + By) / 2 + 10 * k004) - / (Bz - (Bx + By) / 2))
           * late ((2 * Bz - Bx - By) / (Bx - By)) k220 k040 k202 k022 k004 x y z).
Proof. exact canonical_lemma. Qed.
(** the reductions change something: the A and S constants of this top differ *)
Example watson_reductions_canonical_ex :
  let f := fun i : nat => match i with O => 5 | S O => 3 | _ => 2 end%Q in
  let wl := fun (_ c : nat) => inject_Z (Z.of_nat c + 1) in
  option_map (fun q => Qeq_bool (delj q) (dj q))
    (quartic_new (F := Q) AsymmTop 1 f (fun _ => 2%Q) (fun _ => 10%Q) wl) = Some false /\
  option_map (fun s => Qeq_bool (phij s) (hj s))
    (sextic_new (F := Q) AsymmTop 1 3 f (fun _ => 2%Q) (fun _ => 10%Q) wl
      (fun _ _ _ => 0%Q) (fun _ _ _ => 3%Q)) = Some false.
Proof. vm_compute. split; reflexivity. Qed.
Print Assumptions watson_reductions_canonical.
