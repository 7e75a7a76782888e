(** Classical mechanics of a rotating molecule that vibrates: the energy of the atoms, in powers of
    the angular momentum. *)
From Coq Require Import Reals Lra List ZArith NArith Arith Lia Bool FunctionalExtensionality.
From Verif Require Import Num Loops ListFacts Modes ModesFacts ResFacts AnharmFacts VibRot VibRotFacts TransformFacts RotFacts
  NormalFacts ModeFacts ZeroFacts InertiaFacts EckartFacts DistortFacts SexticFacts FormFacts RunSecond RunRot RotFiles TriangleWitness SumRule.
Import ListNotations.
Open Scope R_scope.

(** ** the specification side: atoms, their velocities and their energy *)

(** component [x] of the position of atom [i], displaced along the modes by the coordinates [q]
    in units where mode [k] has the energy [w k / 2 * (q k ^ 2 + p k ^ 2)] *)
Definition placed (n : nat) (geom : nat -> R * R * R) (lx : nat -> nat -> R) (w : nat -> R) (lam : R) (q : nat -> R) (i x : nat) : R :=
  comp (geom i) x + Sum n (fun k => lx (3 * i + x)%nat k * (q k / (lam * sqrt (w k)))).
(** the atoms [i] have the velocities [v i]: no linear momentum, angular momentum [J], and
    momentum [p] along the modes *)
Definition motion (N n : nat) (m : nat -> R) (geom : nat -> R * R * R) (lx : nat -> nat -> R) (w : nat -> R) (lam : R)
  (J q p : nat -> R) (v : nat -> nat -> R) : Prop :=
  (forall x, (x < 3)%nat -> Sum N (fun i => m i * v i x) = 0) /\
  (forall x, (x < 3)%nat -> Sum N (fun i => m i * cross (placed n geom lx w lam q i) (v i) x) = J x) /\
  (forall k, (k < n)%nat -> Sum N (fun i => m i * Sum 3 (fun x => lx (3 * i + x)%nat k * v i x)) = lam * sqrt (w k) * p k).
(** kinetic energy in wavenumbers (velocities in units of hbar / (amu Angstrom)) and potential *)
Definition energy (N : nat) (m : nat -> R) (K : R) (V : (nat -> R) -> R) (q : nat -> R) (v : nat -> nat -> R) : R :=
  K * Sum N (fun i => m i * Sum 3 (fun x => v i x ^ 2)) + V q.
(** the potential agrees with its quadratic and cubic part up to terms of order four *)
Definition cubic_near (n : nat) (w : nat -> R) (f3 : nat -> nat -> nat -> R) (V : (nat -> R) -> R) : Prop :=
  forall q, exists C d, 0 < d /\ forall t, Rabs t < d ->
    Rabs (V (fun k => t * q k) - (t ^ 2 * (/ 2 * Sum n (fun k => w k * q k ^ 2))
      + t ^ 3 * (/ 6 * Sum n (fun i => Sum n (fun j => Sum n (fun k => f3 i j k * q i * q j * q k)))))) <= C * t ^ 4.

(** the tensor of the quartic constants and the displacements by rotation *)
Definition tau_cl (n : nat) (K : R) (w I : nat -> R) (a : nat -> nat -> nat -> R) (i j k l : nat) : R :=
  - ((2 * K) ^ 3 / 2) * Sum n (fun v => a v i j * a v k l / (w v ^ 2 * I i * I j * I k * I l)).
Definition shift_cl (lam : R) (w I : nat -> R) (a : nat -> nat -> nat -> R) (v x y : nat) : R :=
  a v x y / (2 * I x * I y * p32 (lam ^ 2 * w v)).

(** The atoms move with angular momentum [e J], displacements [e^2 q] and momenta [e^3 p] along the
    modes.  Such motions exist for small [e].  Up to order four their energy is that of a rigid
    body plus a quartic form of [J], plus the energy of displacing the modes from [c]: the quartic
    form is the least energy at given [J].  When the modes are displaced by [c] the energy of order
    six is the sextic form, plus the momenta times the rates at which [c] changes in free rotation
    (Euler's equations), plus the energy of momenta that differ from [2 cor_form]: the sextic
    form is the least value of the energy minus momenta times rates. *)
Definition rotor_energy (N n : nat) (m : nat -> R) (geom : nat -> R * R * R) (I : nat -> R) (lx : nat -> nat -> R)
  (w : nat -> R) (f3 : nat -> nat -> nat -> R) (K lam : R) (tau : nat -> nat -> nat -> nat -> R) (c : nat -> nat -> nat -> R) : Prop :=
  forall V, cubic_near n w f3 V ->
  forall x y z q p,
  let J := xyz x y z in
  let B x := K / I x in
  let zeta := zeta_of N (fun b k => sqrt (m (b / 3)%nat) * lx b k) in
  let moving e := motion N n m geom lx w lam (fun x => e * J x) (fun k => e ^ 2 * q k) (fun k => e ^ 3 * p k) in
  let E e := energy N m K V (fun k => e ^ 2 * q k) in
  (exists d, 0 < d /\ forall e, Rabs e < d -> exists v, moving e v) /\
  (exists C d, 0 < d /\ forall e v, Rabs e < d -> moving e v ->
     Rabs (E e v - (e ^ 2 * Sum 3 (fun x => B x * J x ^ 2)
       + e ^ 4 * (quartic_form tau x y z + / 2 * Sum n (fun k => w k * (q k - c_form c k x y z) ^ 2)))) <= C * e ^ 6) /\
  ((forall k, (k < n)%nat -> q k = c_form c k x y z) ->
   forall rate,
   let turn := cross J (fun x => 2 * B x * J x) in
   (forall k, (k < n)%nat -> derivable_pt_lim (fun t => c_form c k (x + t * turn 0%nat) (y + t * turn 1%nat) (z + t * turn 2%nat)) 0 (rate k)) ->
   exists C d, 0 < d /\ forall e v, Rabs e < d -> moving e v ->
     Rabs (E e v - (e ^ 2 * Sum 3 (fun x => B x * J x ^ 2) + e ^ 4 * quartic_form tau x y z
       + e ^ 6 * (sextic_form n B w tau c zeta f3 x y z + Sum n (fun k => p k * rate k)
           + / 2 * Sum n (fun k => w k * (p k - 2 * cor_form n B w c zeta k x y z) ^ 2)))) <= C * e ^ 8).

(** ** the expansion in three dimensions *)
Lemma square_bound M l1 l3 l5 : exists C, forall e r, Rabs e <= 1 -> Rabs r <= M ->
  Rabs ((e * l1 + e ^ 3 * l3 + e ^ 5 * l5 + e ^ 7 * r) ^ 2 - (e ^ 2 * l1 ^ 2 + e ^ 4 * (2 * l1 * l3) + e ^ 6 * (l3 ^ 2 + 2 * l1 * l5)))
  <= C * e ^ 8.
Proof.
  exists (2 * Rabs l1 * M + 2 * Rabs (l3 * l5) + l5 ^ 2 + 2 * Rabs l3 * M + 2 * Rabs l5 * M + M ^ 2). intros e r He Hr.
  set (D := 2 * l1 * r + 2 * (l3 * l5) + e ^ 2 * (l5 ^ 2 + 2 * l3 * r) + e ^ 4 * (2 * l5 * r) + e ^ 6 * r ^ 2).
  replace (_ - _) with (D * e ^ 8) by (unfold D; ring).
  assert (P8 : 0 <= e ^ 8) by (replace (e ^ 8) with ((e ^ 4) ^ 2) by ring; apply pow2_ge_0).
  rewrite Rabs_mult, (Rabs_pos_eq (e ^ 8) P8). apply Rmult_le_compat_r; [exact P8|].
  assert (E2 : 0 <= e ^ 2 <= 1).
  { rewrite <- (pow2_abs e). pose proof (Rabs_pos e). nra. }
  assert (E4 : 0 <= e ^ 4 <= 1) by (replace (e ^ 4) with (e ^ 2 * e ^ 2) by ring; nra).
  assert (E6 : 0 <= e ^ 6 <= 1) by (replace (e ^ 6) with (e ^ 4 * e ^ 2) by ring; nra).
  assert (M0 : 0 <= M) by (pose proof (Rabs_pos r); lra).
  assert (T : forall l, Rabs (2 * l * r) <= 2 * Rabs l * M).
  { intros l. rewrite !Rabs_mult, (Rabs_pos_eq 2) by lra. pose proof (Rabs_pos l). pose proof (Rabs_pos r). nra. }
  assert (R2 : 0 <= r ^ 2 <= M ^ 2).
  { rewrite <- (pow2_abs r). pose proof (Rabs_pos r). split; nra. }
  assert (U : forall c y Y, 0 <= c <= 1 -> Rabs y <= Y -> Rabs (c * y) <= Y).
  { intros c y Y Hc Hy. rewrite Rabs_mult, (Rabs_pos_eq c) by lra. pose proof (Rabs_pos y). nra. }
  pose proof (T l1) as T1. pose proof (U (e ^ 2) _ _ E2 (T l3)) as T3. pose proof (U (e ^ 4) _ _ E4 (T l5)) as T5.
  assert (T2 : Rabs (e ^ 2 * l5 ^ 2) <= l5 ^ 2) by (apply U; [exact E2|]; rewrite Rabs_pos_eq; [lra|apply pow2_ge_0]).
  assert (T6 : Rabs (e ^ 6 * r ^ 2) <= M ^ 2) by (apply U; [exact E6|]; rewrite Rabs_pos_eq; lra).
  assert (T4 : Rabs (2 * (l3 * l5)) <= 2 * Rabs (l3 * l5)) by (rewrite Rabs_mult, (Rabs_pos_eq 2); lra).
  unfold D.
  replace (2 * l1 * r + 2 * (l3 * l5) + e ^ 2 * (l5 ^ 2 + 2 * l3 * r) + e ^ 4 * (2 * l5 * r) + e ^ 6 * r ^ 2)
    with (2 * l1 * r + 2 * (l3 * l5) + e ^ 2 * l5 ^ 2 + e ^ 2 * (2 * l3 * r) + e ^ 4 * (2 * l5 * r) + e ^ 6 * r ^ 2) by ring.
  repeat (eapply Rle_trans; [apply Rabs_triang|]; apply Rplus_le_compat; [|assumption]). exact T1.
Qed.

Lemma triple_bound (A : nat -> nat -> R) M d :
  exists C, forall f, (forall e, (e < 3)%nat -> Rabs (f e) <= M) -> Rabs (Sum 3 (fun e => A d e * f e)) <= C.
Proof.
  exists ((Rabs (A d 0%nat) + Rabs (A d 1%nat) + Rabs (A d 2%nat)) * M). intros f Hf. rewrite sum_3.
  eapply Rle_trans; [apply Rabs_triang|]. eapply Rle_trans; [apply Rplus_le_compat_r, Rabs_triang|].
  rewrite !Rabs_mult. pose proof (Hf 0%nat ltac:(lia)). pose proof (Hf 1%nat ltac:(lia)). pose proof (Hf 2%nat ltac:(lia)).
  pose proof (Rabs_pos (A d 0%nat)). pose proof (Rabs_pos (A d 1%nat)). pose proof (Rabs_pos (A d 2%nat)). nra.
Qed.
Lemma bound3 (P : nat -> R -> Prop) : (forall d C C', P d C -> C <= C' -> P d C') ->
  (forall d, (d < 3)%nat -> exists C, P d C) -> exists C, forall d, (d < 3)%nat -> P d C.
Proof.
  intros Up H. destruct (H 0%nat ltac:(lia)) as [C0 H0]. destruct (H 1%nat ltac:(lia)) as [C1 H1]. destruct (H 2%nat ltac:(lia)) as [C2 H2].
  exists (Rmax C0 (Rmax C1 C2)).
  pose proof (Rmax_l C0 (Rmax C1 C2)). pose proof (Rmax_r C0 (Rmax C1 C2)). pose proof (Rmax_l C1 C2). pose proof (Rmax_r C1 C2).
  intros d Hd. destruct d as [|[|[|d]]]; [| | |lia]; eapply Up; eauto; lra.
Qed.

Section Expand.
  Variables (A : nat -> nat -> R) (J pi : nat -> R).
  Let ap (f : nat -> R) (d : nat) : R := Sum 3 (fun e => A d e * f e).

  (** the angular momentum [L] without the contribution of the displacements *)
  Lemma inner_bound : exists C d, 0 < d /\ d <= 1 /\ forall e L, Rabs e < d ->
    (forall x, (x < 3)%nat -> e * J x - e ^ 5 * pi x = L x + e ^ 2 * ap L x) ->
    exists l, (forall x, (x < 3)%nat -> L x = e * l x) /\ forall x, (x < 3)%nat -> Rabs (l x) <= C.
  Proof.
    set (al := Sum 3 (fun x => Sum 3 (fun y => Rabs (A x y)))).
    assert (Pal : 0 <= al) by (unfold al; apply Rsum_nonneg; intros; apply Rsum_nonneg; intros; apply Rabs_pos).
    set (c := Sum 3 (fun x => Rabs (J x) + Rabs (pi x))).
    exists (2 * c), (/ (2 * (al + 1))).
    assert (P : 0 < / (2 * (al + 1))) by (apply Rinv_0_lt_compat; lra).
    assert (P1 : / (2 * (al + 1)) * (2 * (al + 1)) = 1) by (field; lra).
    split; [exact P|]. split; [nra|]. intros e L He HL.
    assert (E1 : Rabs e <= 1) by nra. pose proof (Rabs_pos e) as E0.
    set (s := Rabs (L 0%nat) + Rabs (L 1%nat) + Rabs (L 2%nat)).
    assert (Ps : 0 <= s) by (unfold s; pose proof (Rabs_pos (L 0%nat)); pose proof (Rabs_pos (L 1%nat)); pose proof (Rabs_pos (L 2%nat)); lra).
    assert (Pap : forall x, Rabs (ap L x) <= Sum 3 (fun y => Rabs (A x y)) * s).
    { intros x. unfold ap. rewrite !sum_3. eapply Rle_trans; [apply Rabs_triang|]. eapply Rle_trans; [apply Rplus_le_compat_r, Rabs_triang|].
      rewrite !Rabs_mult. unfold s.
      pose proof (Rabs_pos (L 0%nat)); pose proof (Rabs_pos (L 1%nat)); pose proof (Rabs_pos (L 2%nat)).
      pose proof (Rabs_pos (A x 0%nat)); pose proof (Rabs_pos (A x 1%nat)); pose proof (Rabs_pos (A x 2%nat)). nra. }
    assert (E5 : Rabs (e ^ 5) <= Rabs e).
    { replace (e ^ 5) with (e * e ^ 2 * e ^ 2) by ring. rewrite !Rabs_mult. rewrite <- !RPow_abs.
      set (t := Rabs e) in *. assert (T2 : 0 <= t ^ 2 <= 1) by (split; nra).
      assert (T4 : 0 <= t ^ 2 * t ^ 2 <= 1) by (split; nra). rewrite Rmult_assoc. set (u := t ^ 2 * t ^ 2) in *. nra. }
    assert (B : forall x, (x < 3)%nat -> Rabs (L x) <= Rabs e * (Rabs (J x) + Rabs (pi x)) + Rabs e ^ 2 * (Sum 3 (fun y => Rabs (A x y)) * s)).
    { intros x Hx. replace (L x) with (e * J x + - (e ^ 5 * pi x) + - (e ^ 2 * ap L x)) by (pose proof (HL x Hx); lra).
      eapply Rle_trans; [apply Rabs_triang|]. eapply Rle_trans; [apply Rplus_le_compat_r, Rabs_triang|].
      rewrite !Rabs_Ropp, !Rabs_mult, <- RPow_abs. pose proof (Rabs_pos (pi x)). pose proof (Pap x).
      assert (Q1 : Rabs (e ^ 5) * Rabs (pi x) <= Rabs e * Rabs (pi x)) by nra.
      rewrite <- RPow_abs in Q1.
      assert (Q2 : Rabs e ^ 2 * Rabs (ap L x) <= Rabs e ^ 2 * (Sum 3 (fun y => Rabs (A x y)) * s)) by (apply Rmult_le_compat_l; [nra|apply Pap]).
      rewrite <- ?RPow_abs. nra. }
    assert (S1 : s <= Rabs e * c + Rabs e ^ 2 * (al * s)).
    { unfold s at 1. pose proof (B 0%nat ltac:(lia)). pose proof (B 1%nat ltac:(lia)). pose proof (B 2%nat ltac:(lia)).
      unfold c, al. rewrite !(sum_3 (fun x => _)). rewrite !(sum_3 (fun x => _)) in *. nra. }
    assert (S2 : Rabs e ^ 2 * al <= / 2).
    { assert (Rabs e ^ 2 <= Rabs e) by nra. assert (Rabs e * al <= / 2) by nra. nra. }
    assert (S3 : s <= 2 * c * Rabs e) by nra.
    assert (F : forall x, (x < 3)%nat -> Rabs (L x) <= 2 * c * Rabs e).
    { intros x Hx. apply Rle_trans with s; [|exact S3]. unfold s.
      pose proof (Rabs_pos (L 0%nat)); pose proof (Rabs_pos (L 1%nat)); pose proof (Rabs_pos (L 2%nat)).
      destruct x as [|[|[|x]]]; [| | |lia]; lra. }
    assert (Pc : 0 <= c).
    { unfold c. apply Rsum_nonneg. intros x _. pose proof (Rabs_pos (J x)). pose proof (Rabs_pos (pi x)). lra. }
    destruct (Req_dec e 0) as [Z|NZ].
    - exists (fun _ => 0). split; [|intros; rewrite Rabs_R0; lra]. intros x Hx. specialize (F x Hx). rewrite Z, Rabs_R0, Rmult_0_r in F.
      pose proof (Rabs_pos (L x)). rewrite Rmult_0_r. destruct (Req_dec (L x) 0) as [|Ne]; [assumption|].
      apply Rabs_pos_lt in Ne. lra.
    - exists (fun x => L x / e). split; [intros; field; exact NZ|]. intros x Hx. unfold Rdiv. rewrite Rabs_mult, Rabs_inv.
      pose proof (Rabs_pos_lt e NZ) as Pe. apply (Rmult_le_reg_r (Rabs e)); [exact Pe|].
      rewrite Rmult_assoc, Rinv_l, Rmult_1_r by lra. now apply F.
  Qed.

  Lemma inner_expand : exists C d, 0 < d /\ d <= 1 /\ forall e L, Rabs e < d ->
    (forall x, (x < 3)%nat -> e * J x - e ^ 5 * pi x = L x + e ^ 2 * ap L x) ->
    forall x, (x < 3)%nat ->
      Rabs (L x ^ 2 - (e ^ 2 * J x ^ 2 + e ^ 4 * (2 * J x * - ap J x) + e ^ 6 * (ap J x ^ 2 + 2 * J x * (ap (ap J) x - pi x)))) <= C * e ^ 8.
  Proof.
    destruct inner_bound as (C1 & d & Pd & Pd1 & HB).
    destruct (bound3 (fun x C => forall e f, Rabs e <= 1 -> (forall y, (y < 3)%nat -> Rabs (f y) <= C1) ->
      Rabs (ap pi x - e ^ 2 * ap (ap pi) x - ap (ap (ap f)) x) <= C)) as [M HM].
    { intros x C C' H Le e f He Hf. eapply Rle_trans; [now apply H|exact Le]. }
    { intros x _.
      destruct (bound3 (fun y C => forall f, (forall z, (z < 3)%nat -> Rabs (f z) <= C1) -> Rabs (ap f y) <= C)) as [M1 H1].
      { intros y C C' H Le f Hf. eapply Rle_trans; [now apply H|exact Le]. }
      { intros y _. apply triple_bound. }
      destruct (bound3 (fun y C => forall f, (forall z, (z < 3)%nat -> Rabs (f z) <= M1) -> Rabs (ap f y) <= C)) as [M2 H2].
      { intros y C C' H Le f Hf. eapply Rle_trans; [now apply H|exact Le]. }
      { intros y _. apply triple_bound. }
      destruct (triple_bound A M2 x) as [M3 H3].
      exists (Rabs (ap pi x) + Rabs (ap (ap pi) x) + M3). intros e f He Hf.
      assert (T3 : Rabs (ap (ap (ap f)) x) <= M3).
      { apply H3. intros y Hy. apply H2; [exact Hy|]. intros z Hz. apply H1; assumption. }
      replace (ap pi x - e ^ 2 * ap (ap pi) x - ap (ap (ap f)) x) with (ap pi x + - (e ^ 2 * ap (ap pi) x) + - ap (ap (ap f)) x) by ring.
      eapply Rle_trans; [apply Rabs_triang|]. rewrite Rabs_Ropp. apply Rplus_le_compat; [|exact T3].
      eapply Rle_trans; [apply Rabs_triang|]. rewrite Rabs_Ropp, Rabs_mult, <- RPow_abs. pose proof (Rabs_pos e).
      pose proof (Rabs_pos (ap (ap pi) x)). assert (Rabs e ^ 2 <= 1) by nra. nra. }
    destruct (bound3 (fun x C => forall e r, Rabs e <= 1 -> Rabs r <= M ->
      Rabs ((e * J x + e ^ 3 * - ap J x + e ^ 5 * (ap (ap J) x - pi x) + e ^ 7 * r) ^ 2
        - (e ^ 2 * J x ^ 2 + e ^ 4 * (2 * J x * - ap J x) + e ^ 6 * ((- ap J x) ^ 2 + 2 * J x * (ap (ap J) x - pi x)))) <= C * e ^ 8)) as [C HC].
    { intros x C C' H Le e r He Hr. eapply Rle_trans; [now apply H|].
      apply Rmult_le_compat_r; [replace (e ^ 8) with ((e ^ 4) ^ 2) by ring; apply pow2_ge_0|exact Le]. }
    { intros x _. apply square_bound. }
    exists C, d. split; [exact Pd|]. split; [exact Pd1|]. intros e L He HL x Hx.
    destruct (HB e L He HL) as (l & E & Hl).
    assert (He1 : Rabs e <= 1) by lra.
    specialize (HC x Hx e (ap pi x - e ^ 2 * ap (ap pi) x - ap (ap (ap l)) x) He1 (HM x Hx e l He1 Hl)).
    replace ((- ap J x) ^ 2) with (ap J x ^ 2) in HC by ring.
    assert (R : L x = e * J x + e ^ 3 * - ap J x + e ^ 5 * (ap (ap J) x - pi x) + e ^ 7 * (ap pi x - e ^ 2 * ap (ap pi) x - ap (ap (ap l)) x)).
    { assert (S0 : forall x, (x < 3)%nat -> L x = e * J x - e ^ 5 * pi x - e ^ 2 * ap L x) by (intros y Hy; rewrite HL by exact Hy; ring).
      assert (A1 : forall x, ap L x = e * ap l x).
      { intros y. unfold ap. rewrite <- Rsum_scal. apply sum_g. intros z Hz. rewrite E by exact Hz. ring. }
      assert (AL : forall a b c f g h y, Sum 3 (fun z => A y z * (a * f z - b * g z - c * h z)) = a * ap f y - b * ap g y - c * ap h y)
        by (intros; unfold ap; rewrite !sum_3; ring).
      assert (AS : forall a f y, Sum 3 (fun z => A y z * (a * f z)) = a * ap f y) by (intros; unfold ap; rewrite !sum_3; ring).
      assert (A2 : forall x, ap L x = e * ap J x - e ^ 5 * ap pi x - e ^ 2 * ap (ap L) x).
      { intros y. rewrite <- AL. apply sum_g. intros z Hz. now rewrite S0. }
      assert (A3 : forall x, ap (ap L) x = e * ap (ap J) x - e ^ 5 * ap (ap pi) x - e ^ 2 * ap (ap (ap L)) x).
      { intros y. rewrite <- AL. apply sum_g. intros z Hz. now rewrite A2. }
      assert (A5 : forall x, ap (ap L) x = e * ap (ap l) x).
      { intros y. rewrite <- AS. apply sum_g. intros z Hz. now rewrite A1. }
      assert (A4 : ap (ap (ap L)) x = e * ap (ap (ap l)) x).
      { rewrite <- AS. apply sum_g. intros z Hz. now rewrite A5. }
      rewrite S0 by exact Hx. rewrite A2, A3, A4. ring. }
    rewrite R. exact HC.
  Qed.
End Expand.

(** ** the molecule *)
Section Mech.
  Variables (N n : nat) (m : nat -> R) (geom : nat -> R * R * R) (I : nat -> R) (lx : nat -> nat -> R).
  Hypothesis Hn : (3 * N = n + 6)%nat.
  Hypothesis Hm : forall q, (q < N)%nat -> 0 < m q.
  Hypothesis HI : forall x, (x < 3)%nat -> 0 < I x.
  Hypothesis HF : free_modes N n m geom I lx.
  Variable a : nat -> nat -> nat -> R.
  Hypothesis Ha : inertia_slope N n m geom lx a.
  Local Notation zeta := (zeta_of N (fun b k => sqrt (m (b / 3)%nat) * lx b k)).
  Variables (w : nat -> R) (lam : R).

  Definition flat (v : nat -> nat -> R) (b : nat) : R := v (b / 3)%nat (b mod 3)%nat.
  Lemma flat_block v q x : (x < 3)%nat -> flat v (3 * q + x) = v q x.
  Proof. intros Hx. unfold flat. now rewrite div_block, mod_block by exact Hx. Qed.

  (** angular momentum of the velocities at the undisplaced positions *)
  Definition still (v : nat -> nat -> R) (d : nat) : R := ip N m (flat v) (turnv geom d).
  Lemma still_eq v d : (d < 3)%nat -> still v d = Sum N (fun i => m i * cross (comp (geom i)) (v i) d).
  Proof.
    intros Hd. unfold still. rewrite ip_blocks. apply sum_g. intros i _. f_equal. rewrite sum_3, !flat_block, !turn_block, !sum_3 by lia.
    destruct d as [|[|[|d]]]; [| | |lia]; cbn [cross about]; ring.
  Qed.

  Lemma mode_momentum v k : ip N m (flat v) (fun b => lx b k) = Sum N (fun i => m i * Sum 3 (fun x => lx (3 * i + x)%nat k * v i x)).
  Proof. rewrite ip_blocks. apply sum_g. intros i _. f_equal. apply sum_g. intros x Hx. rewrite flat_block by exact Hx. ring. Qed.
  Lemma no_shift v : (forall x, (x < 3)%nat -> Sum N (fun i => m i * v i x) = 0) ->
    forall d, (d < 3)%nat -> ip N m (flat v) (fun b => kron (b mod 3) d) = 0.
  Proof.
    intros H d Hd. rewrite ip_shift by exact Hd. rewrite <- (H d Hd). apply sum_g. intros i _. now rewrite flat_block.
  Qed.

  Lemma kinetic v : (forall x, (x < 3)%nat -> Sum N (fun i => m i * v i x) = 0) ->
    Sum N (fun i => m i * Sum 3 (fun x => v i x ^ 2))
    = Sum n (fun k => ip N m (flat v) (fun b => lx b k) ^ 2) + Sum 3 (fun d => still v d ^ 2 / I d).
  Proof.
    intros H.
    pose proof (complete_modes N n m geom I lx Hn Hm HI HF (flat v) (flat v) (no_shift v H)) as E.
    rewrite (sum_g n _ (fun k => ip N m (flat v) (fun b => lx b k) * ip N m (flat v) (fun b => lx b k))) by (intros; ring).
    rewrite E. unfold still.
    rewrite (sum_g 3 (fun d => ip N m (flat v) (turnv geom d) ^ 2 / I d) (fun d => ip N m (flat v) (turnv geom d) * ip N m (flat v) (turnv geom d) / I d))
      by (intros; unfold Rdiv; ring).
    rewrite ip_blocks. ring_simplify. apply sum_g. intros i _. f_equal. apply sum_g. intros x Hx. rewrite flat_block by exact Hx. ring.
  Qed.

  (** the rotation that the displacement of a mode adds *)
  Lemma mode_spin v k d : (k < n)%nat -> (d < 3)%nat -> (forall x, (x < 3)%nat -> Sum N (fun i => m i * v i x) = 0) ->
    Sum N (fun i => m i * cross (fun x => lx (3 * i + x)%nat k) (v i) d)
    = Sum n (fun l => ip N m (flat v) (fun b => lx b l) * zeta k l d) + / 2 * Sum 3 (fun e => a k d e * still v e / I e).
  Proof.
    intros Hk Hd H. set (u := fun x => kron x d).
    assert (E : Sum N (fun i => m i * cross (fun x => lx (3 * i + x)%nat k) (v i) d) = - ip N m (flat v) (hv lx u k)).
    { rewrite ip_blocks. transitivity (-1 * Sum N (fun q => m q * Sum 3 (fun x => flat v (3 * q + x) * hv lx u k (3 * q + x)))); [|ring].
      rewrite <- Rsum_scal. apply sum_g. intros i _. rewrite sum_3, !flat_block, !hv_block by lia. unfold u, kron.
      destruct d as [|[|[|d]]]; [| | |lia]; cbn [cross Nat.eqb]; ring. }
    rewrite E.
    pose proof (complete_modes N n m geom I lx Hn Hm HI HF (flat v) (hv lx u k)
      (fun d Hd => hv_shift N n m geom I lx Hn Hm HI HF u k d Hk Hd)) as C.
    assert (C1 : Sum n (fun l => ip N m (flat v) (fun b => lx b l) * ip N m (hv lx u k) (fun b => lx b l))
      = - Sum n (fun l => ip N m (flat v) (fun b => lx b l) * zeta k l d)).
    { transitivity (-1 * Sum n (fun l => ip N m (flat v) (fun b => lx b l) * zeta k l d)); [|ring]. rewrite <- Rsum_scal.
      apply sum_g. intros l Hl. rewrite <- (zeta_form N n m I lx Hn Hm HI u l k Hl).
      assert (Z : Sum 3 (fun x => zeta l k x * u x) = zeta l k d).
      { rewrite sum_3. unfold u, kron. destruct d as [|[|[|d]]]; [| | |lia]; cbn [Nat.eqb]; ring. }
      rewrite Z. assert (Z2 : zeta l k d = - zeta k l d).
      { transitivity (-1 * zeta k l d); [|ring]. unfold zeta_of. rewrite <- Rsum_scal. apply sum_g. intros q _.
        destruct d as [|[|[|d]]]; ring. }
      rewrite Z2. ring. }
    rewrite C1 in C.
    assert (C2 : Sum 3 (fun e => ip N m (flat v) (turnv geom e) * ip N m (hv lx u k) (turnv geom e) / I e)
      = - (/ 2 * Sum 3 (fun e => a k d e * still v e / I e))).
    { transitivity (- / 2 * Sum 3 (fun e => a k d e * still v e / I e)); [|ring]. rewrite <- Rsum_scal. apply sum_g. intros e He.
      rewrite (hv_turn N n m geom I lx Hn Hm HI HF a Ha u k e Hk He).
      assert (Z : Sum 3 (fun c => a k e c * u c) = a k d e).
      { rewrite (slope_sym N n m geom I lx Hn Hm HI a Ha k d e Hk Hd He). rewrite sum_3. unfold u, kron.
        destruct d as [|[|[|d]]]; [| | |lia]; cbn [Nat.eqb]; ring. }
      rewrite Z. unfold still, Rdiv. ring. }
    rewrite C2 in C. lra.
  Qed.

  (** the displacement changes the inertia tensor by [X] *)
  Definition Xq (q : nat -> R) (x y : nat) : R := Sum n (fun k => a k x y * (q k / (lam * sqrt (w k)))).
  Definition piqp (q p : nat -> R) (x : nat) : R :=
    Sum n (fun k => Sum n (fun l => zeta k l x * (q k / (lam * sqrt (w k))) * (lam * sqrt (w l) * p l))).
  Lemma momentum J q p v : motion N n m geom lx w lam J q p v -> forall d, (d < 3)%nat ->
    J d - piqp q p d = still v d + / 2 * Sum 3 (fun e => Xq q d e * still v e / I e).
  Proof.
    intros (H1 & H2 & H3) d Hd. rewrite <- (H2 d Hd).
    assert (E : Sum N (fun i => m i * cross (placed n geom lx w lam q i) (v i) d)
      = still v d + Sum n (fun k => (q k / (lam * sqrt (w k))) * Sum N (fun i => m i * cross (fun x => lx (3 * i + x)%nat k) (v i) d))).
    { rewrite still_eq by exact Hd.
      rewrite (sum_g n (fun k => (q k / (lam * sqrt (w k))) * Sum N _)
        (fun k => Sum N (fun i => (q k / (lam * sqrt (w k))) * (m i * cross (fun x => lx (3 * i + x)%nat k) (v i) d))))
        by (intros; now rewrite Rsum_scal).
      rewrite Rsum_swap, <- Rsum_plus. apply sum_g. intros i _. unfold placed.
      assert (L : Sum n (fun k => q k / (lam * sqrt (w k)) * (m i * cross (fun x => lx (3 * i + x)%nat k) (v i) d))
        = m i * cross (fun x => Sum n (fun k => lx (3 * i + x)%nat k * (q k / (lam * sqrt (w k))))) (v i) d).
      { destruct d as [|[|[|d]]]; [| | |lia]; cbn [cross]; rewrite <- !Rsum_scal_r, <- Rsum_minus, <- Rsum_scal; apply sum_g; intros k _; ring. }
      rewrite L. destruct d as [|[|[|d]]]; [| | |lia]; cbn [cross]; ring. }
    rewrite E. unfold piqp.
    rewrite (sum_g n _ (fun k => Sum n (fun l => zeta k l d * (q k / (lam * sqrt (w k))) * (lam * sqrt (w l) * p l))
      + / 2 * Sum 3 (fun e => a k d e * (q k / (lam * sqrt (w k))) * still v e / I e))).
    - rewrite Rsum_plus, Rsum_scal.
      assert (S : Sum n (fun k => Sum 3 (fun e => a k d e * (q k / (lam * sqrt (w k))) * still v e / I e)) = Sum 3 (fun e => Xq q d e * still v e / I e)).
      { rewrite Rsum_swap. apply sum_g. intros e _. unfold Xq, Rdiv. rewrite <- !Rsum_scal_r. apply sum_g. intros; ring. }
      rewrite S. ring.
    - intros k Hk. rewrite (mode_spin v k d Hk Hd H1). rewrite Rmult_plus_distr_l. f_equal.
      + rewrite <- Rsum_scal. apply sum_g. intros l Hl. rewrite mode_momentum, H3 by exact Hl. ring.
      + rewrite !sum_3. unfold Rdiv. ring.
  Qed.
  (** *** the energy in powers of the angular momentum *)
  Variables (K : R) (f3 : nat -> nat -> nat -> R) (V : (nat -> R) -> R).
  Hypothesis Hw : forall k, (k < n)%nat -> 0 < w k.
  Hypothesis Hl : 0 < lam.
  Hypothesis HK : 2 * K * lam ^ 2 = 1.
  Hypothesis HV : cubic_near n w f3 V.
  Local Notation B := (fun x => K / I x).

  Lemma Xq_scal t q x y : Xq (fun k => t * q k) x y = t * Xq q x y.
  Proof. unfold Xq. rewrite <- Rsum_scal. apply sum_g. intros k Hk. unfold Rdiv. ring. Qed.
  Lemma piqp_scal t s q p x : piqp (fun k => t * q k) (fun k => s * p k) x = t * s * piqp q p x.
  Proof.
    unfold piqp. rewrite <- Rsum_scal. apply sum_g. intros k Hk. rewrite <- Rsum_scal. apply sum_g. intros l Hl'. unfold Rdiv. ring.
  Qed.
  Lemma Xq_sym q x y : (x < 3)%nat -> (y < 3)%nat -> Xq q x y = Xq q y x.
  Proof.
    intros Hx Hy. unfold Xq. apply sum_g. intros k Hk. f_equal. exact (slope_sym N n m geom I lx Hn Hm HI a Ha k x y Hk Hx Hy).
  Qed.

  Definition E4 (J q : nat -> R) : R :=
    - K * Sum 3 (fun x => Sum 3 (fun y => Xq q x y * J x * J y / (I x * I y))) + / 2 * Sum n (fun k => w k * q k ^ 2).
  Definition E6 (J q p : nat -> R) : R :=
    3 / 4 * K * Sum 3 (fun x => Sum 3 (fun y => Xq q x y * J y / I y) ^ 2 / I x)
    - 2 * K * Sum 3 (fun x => J x * piqp q p x / I x) + / 2 * Sum n (fun k => w k * p k ^ 2)
    + / 6 * Sum n (fun i => Sum n (fun j => Sum n (fun k => f3 i j k * q i * q j * q k))).

  Lemma energy_expand J q p : exists C d, 0 < d /\ d <= 1 /\ 0 <= C /\ forall e v, Rabs e < d ->
    motion N n m geom lx w lam (fun x => e * J x) (fun k => e ^ 2 * q k) (fun k => e ^ 3 * p k) v ->
    Rabs (energy N m K V (fun k => e ^ 2 * q k) v - (e ^ 2 * Sum 3 (fun x => B x * J x ^ 2) + e ^ 4 * E4 J q + e ^ 6 * E6 J q p)) <= C * e ^ 8.
  Proof.
    pose proof (HI 0%nat ltac:(lia)) as I0. pose proof (HI 1%nat ltac:(lia)) as I1. pose proof (HI 2%nat ltac:(lia)) as I2.
    assert (PK : 0 < K) by (assert (0 < lam ^ 2) by nra; nra).
    destruct (inner_expand (fun x y => / 2 * Xq q x y / I y) J (piqp q p)) as (C1 & d1 & P1 & P2 & HC).
    destruct (HV q) as (C2 & d2 & P3 & HC2).
    set (C := K * Sum 3 (fun x => C1 / I x) + Rabs C2).
    exists (Rabs C), (Rmin d1 d2).
    split; [now apply Rmin_glb_lt|]. split; [eapply Rle_trans; [apply Rmin_l|exact P2]|]. split; [apply Rabs_pos|]. intros e v He Mo.
    assert (He1 : Rabs e < d1) by (eapply Rlt_le_trans; [exact He|apply Rmin_l]).
    assert (He2 : Rabs (e ^ 2) < d2).
    { rewrite <- RPow_abs. assert (Rabs e < d2) by (eapply Rlt_le_trans; [exact He|apply Rmin_r]). pose proof (Rabs_pos e). nra. }
    assert (P8 : 0 <= e ^ 8) by (replace (e ^ 8) with ((e ^ 4) ^ 2) by ring; apply pow2_ge_0).
    pose proof (HC e (still v) He1) as HL. specialize (HC2 (e ^ 2) He2).
    assert (HM : forall x, (x < 3)%nat -> e * J x - e ^ 5 * piqp q p x
      = still v x + e ^ 2 * Sum 3 (fun y => / 2 * Xq q x y / I y * still v y)).
    { intros x Hx. pose proof (momentum _ _ _ v Mo x Hx) as E. cbv beta in E. rewrite piqp_scal in E.
      rewrite (sum_g 3 _ (fun y => e ^ 2 * (Xq q x y * still v y / I y))) in E by (intros; rewrite Xq_scal; unfold Rdiv; ring).
      rewrite Rsum_scal in E. rewrite (sum_g 3 (fun y => / 2 * Xq q x y / I y * still v y) (fun y => / 2 * (Xq q x y * still v y / I y)))
        by (intros; unfold Rdiv; ring). rewrite Rsum_scal. replace (e ^ 5) with (e ^ 2 * e ^ 3) by ring. lra. }
    specialize (HL HM). clear HC HM He1 He2.
    destruct Mo as (M1 & M2 & M3). unfold energy. rewrite (kinetic v M1).
    rewrite (sum_g n _ (fun k => e ^ 6 * (lam ^ 2 * (w k * p k ^ 2)))).
    2: { intros k Hk. rewrite mode_momentum, M3 by exact Hk. pose proof (sqrt_sqrt (w k) ltac:(apply Rlt_le; auto)) as SS.
      set (s := sqrt (w k)) in *. rewrite <- SS. ring. }
    rewrite Rsum_scal, Rsum_scal. unfold E4, E6.
    set (W := Sum n (fun k => w k * p k ^ 2)) in *. set (Q := Sum n (fun k => w k * q k ^ 2)) in *.
    set (F := Sum n (fun i => Sum n _)) in *. set (v0 := V _) in *.
    pose proof (HL 0%nat ltac:(lia)) as H0. pose proof (HL 1%nat ltac:(lia)) as H1. pose proof (HL 2%nat ltac:(lia)) as H2. clear HL.
    rewrite !sum_3 in *. rewrite (Xq_sym q 1 0), (Xq_sym q 2 0), (Xq_sym q 2 1) in * by lia.
    set (L0 := still v 0) in *. set (L1 := still v 1) in *. set (L2 := still v 2) in *.
    set (p0 := piqp q p 0) in *. set (p1 := piqp q p 1) in *. set (p2 := piqp q p 2) in *.
    set (X00 := Xq q 0 0) in *. set (X01 := Xq q 0 1) in *. set (X02 := Xq q 0 2) in *.
    set (X11 := Xq q 1 1) in *. set (X12 := Xq q 1 2) in *. set (X22 := Xq q 2 2) in *.
    match type of H0 with Rabs (_ - ?r) <= _ => set (r0 := r) in * end.
    match type of H1 with Rabs (_ - ?r) <= _ => set (r1 := r) in * end.
    match type of H2 with Rabs (_ - ?r) <= _ => set (r2 := r) in * end.
    match type of HC2 with Rabs (_ - ?r) <= _ => set (rv := r) in * end.
    match goal with |- Rabs (?x) <= _ => replace x with (K / I 0%nat * (L0 ^ 2 - r0) + K / I 1%nat * (L1 ^ 2 - r1) + K / I 2%nat * (L2 ^ 2 - r2) + (v0 - rv)) end.
    - eapply Rle_trans; [apply Rabs_triang|]. eapply Rle_trans; [apply Rplus_le_compat_r, Rabs_triang|].
      eapply Rle_trans; [apply Rplus_le_compat_r, Rplus_le_compat_r, Rabs_triang|].
      rewrite !Rabs_mult.
      assert (Q3 : forall x, 0 < x -> 0 <= K / x /\ Rabs (K / x) = K / x).
      { intros x Hx. assert (0 <= K / x) by (apply Rlt_le, Rdiv_lt_0_compat; assumption). split; [assumption|now apply Rabs_pos_eq]. }
      destruct (Q3 _ I0) as [B0 ->]. destruct (Q3 _ I1) as [B1 ->]. destruct (Q3 _ I2) as [B2 ->].
      apply Rle_trans with (C * e ^ 8); [|apply Rmult_le_compat_r; [exact P8|apply Rle_abs]].
      unfold C. rewrite sum_3. replace ((e ^ 2) ^ 4) with (e ^ 8) in HC2 by ring.
      assert (C2 * e ^ 8 <= Rabs C2 * e ^ 8) by (apply Rmult_le_compat_r; [exact P8|apply Rle_abs]).
      apply (Rmult_le_compat_l _ _ _ B0) in H0. apply (Rmult_le_compat_l _ _ _ B1) in H1. apply (Rmult_le_compat_l _ _ _ B2) in H2.
      unfold Rdiv in *. lra.
    - unfold r0, r1, r2, rv. replace (lam ^ 2) with (/ (2 * K)) by (apply (Rmult_eq_reg_l (2 * K)); [rewrite HK; field; lra|lra]).
      field. lra.
  Qed.

  (** *** the quartic and sextic forms *)
  Section Shape.
  Variables (x y z : R).
  Let J := xyz x y z.
  Let u (d : nat) : R := J d / I d.
  Let asum (v : nat) : R := Sum 3 (fun b => Sum 3 (fun c => a v b c * (u b * u c))).
  Let au (v d : nat) : R := Sum 3 (fun c => a v d c * u c).
  Local Notation tau := (tau_cl n K w I a).
  Local Notation c := (shift_cl lam w I a).
  Let cv (v : nat) : R := c_form c v x y z.

  Let posK : 0 < K.
  Proof. assert (0 < lam ^ 2) by nra. nra. Qed.
  Let I3 : I 0%nat <> 0 /\ I 1%nat <> 0 /\ I 2%nat <> 0.
  Proof. pose proof (HI 0%nat ltac:(lia)). pose proof (HI 1%nat ltac:(lia)). pose proof (HI 2%nat ltac:(lia)). lra. Qed.

  Lemma p32_lam v : (v < n)%nat -> p32 (lam ^ 2 * w v) = lam ^ 3 * (w v * sqrt (w v)).
  Proof.
    intros Hv. pose proof (Hw v Hv). unfold p32. rewrite sqrt_mult, sqrt_pow2 by nra. ring.
  Qed.
  Lemma cv_eq v : (v < n)%nat -> cv v = asum v / (2 * lam ^ 3 * (w v * sqrt (w v))).
  Proof.
    intros Hv. destruct I3 as (N0 & N1 & N2). unfold cv, c_form, shift_cl. rewrite !p32_lam by exact Hv. unfold asum, u, J. rewrite ?FormFacts.sum3_eq, ?sum_3.
    assert (P1 : w v <> 0) by (pose proof (Hw v Hv); lra). assert (P2 : sqrt (w v) <> 0) by (pose proof (sqrt_lt_R0 _ (Hw v Hv)); lra).
    cbn [xyz]. field. repeat split; try assumption. lra.
  Qed.
  Lemma w_cv v : (v < n)%nat -> w v * cv v = K * asum v / (lam * sqrt (w v)).
  Proof.
    intros Hv. rewrite cv_eq by exact Hv.
    assert (P1 : w v <> 0) by (pose proof (Hw v Hv); lra). assert (P2 : sqrt (w v) <> 0) by (pose proof (sqrt_lt_R0 _ (Hw v Hv)); lra).
    replace K with (/ (2 * lam ^ 2)) by (rewrite <- (Rmult_1_r (/ _)), <- HK; field; lra).
    field. repeat split; try assumption; lra.
  Qed.
  Lemma w_cv2 v : (v < n)%nat -> w v * cv v ^ 2 = 2 * K ^ 3 * (asum v ^ 2 / w v ^ 2).
  Proof.
    intros Hv. replace (w v * cv v ^ 2) with (w v * cv v * cv v) by ring. rewrite w_cv, cv_eq by exact Hv.
    assert (P1 : w v <> 0) by (pose proof (Hw v Hv); lra). assert (P2 : sqrt (w v) <> 0) by (pose proof (sqrt_lt_R0 _ (Hw v Hv)); lra).
    pose proof (sqrt_sqrt (w v) ltac:(apply Rlt_le; auto)) as SS.
    replace (K * asum v / (lam * sqrt (w v)) * (asum v / (2 * lam ^ 3 * (w v * sqrt (w v)))))
      with (K * asum v ^ 2 / (2 * lam ^ 4 * (w v * (sqrt (w v) * sqrt (w v))))) by (field; repeat split; try assumption; lra).
    rewrite SS. replace K with (/ (2 * lam ^ 2)) by (rewrite <- (Rmult_1_r (/ _)), <- HK; field; lra).
    field. repeat split; try assumption; lra.
  Qed.

  Lemma quartic_cv : quartic_form tau x y z = - / 2 * Sum n (fun v => w v * cv v ^ 2).
  Proof.
    rewrite (sum_g n _ (fun v => 2 * K ^ 3 * (asum v ^ 2 / w v ^ 2))) by (intros; now apply w_cv2). rewrite Rsum_scal.
    assert (E : quartic_form tau x y z = / 4 * Sum 3 (fun b => Sum 3 (fun d => Sum 3 (fun e => Sum 3 (fun f =>
      Sum n (fun v => - ((2 * K) ^ 3 / 2) * (/ w v ^ 2 * (a v b d * (u b * u d)) * (a v e f * (u e * u f))))))))).
    { unfold quartic_form. f_equal. apply sum_g. intros b _. apply sum_g. intros d _. apply sum_g. intros e _. apply sum_g. intros f _.
      unfold tau_cl. rewrite Rsum_scal, Rmult_assoc. f_equal. rewrite <- Rsum_scal_r. apply sum_g. intros v _. fold J. unfold u, Rdiv.
      rewrite !Rinv_mult. ring. }
    rewrite E.
    assert (E' : Sum 3 (fun b => Sum 3 (fun d => Sum 3 (fun e => Sum 3 (fun f =>
      Sum n (fun v => - ((2 * K) ^ 3 / 2) * (/ w v ^ 2 * (a v b d * (u b * u d)) * (a v e f * (u e * u f))))))))
      = Sum n (fun v => - ((2 * K) ^ 3 / 2) * (/ w v ^ 2 * asum v * asum v))).
    { assert (F1 : forall b d e, Sum 3 (fun f => Sum n (fun v => - ((2 * K) ^ 3 / 2) * (/ w v ^ 2 * (a v b d * (u b * u d)) * (a v e f * (u e * u f)))))
        = Sum n (fun v => - ((2 * K) ^ 3 / 2) * (/ w v ^ 2 * (a v b d * (u b * u d)) * Sum 3 (fun f => a v e f * (u e * u f))))).
      { intros. rewrite Rsum_swap. apply sum_g. intros v _. now rewrite Rsum_scal, Rsum_scal. }
      assert (F2 : forall b d, Sum 3 (fun e => Sum n (fun v => - ((2 * K) ^ 3 / 2) * (/ w v ^ 2 * (a v b d * (u b * u d)) * Sum 3 (fun f => a v e f * (u e * u f)))))
        = Sum n (fun v => - ((2 * K) ^ 3 / 2) * (/ w v ^ 2 * asum v * (a v b d * (u b * u d))))).
      { intros. rewrite Rsum_swap. apply sum_g. intros v _. rewrite Rsum_scal, Rsum_scal. unfold asum. ring. }
      assert (F3 : forall b, Sum 3 (fun d => Sum n (fun v => - ((2 * K) ^ 3 / 2) * (/ w v ^ 2 * asum v * (a v b d * (u b * u d)))))
        = Sum n (fun v => - ((2 * K) ^ 3 / 2) * (/ w v ^ 2 * asum v * Sum 3 (fun d => a v b d * (u b * u d))))).
      { intros. rewrite Rsum_swap. apply sum_g. intros v _. now rewrite Rsum_scal, Rsum_scal. }
      rewrite (sum_g 3 _ (fun b => Sum n (fun v => - ((2 * K) ^ 3 / 2) * (/ w v ^ 2 * asum v * Sum 3 (fun d => a v b d * (u b * u d)))))).
      - rewrite Rsum_swap. apply sum_g. intros v _. now rewrite Rsum_scal, Rsum_scal.
      - intros b _. rewrite <- F3. apply sum_g. intros d _. rewrite <- F2. apply sum_g. intros e _. now rewrite F1. }
    rewrite E', Rsum_scal. unfold Rdiv. rewrite (sum_g n (fun v => asum v ^ 2 * / w v ^ 2) (fun v => / w v ^ 2 * asum v * asum v)) by (intros; ring). field.
  Qed.
  Lemma E4_forms q : E4 J q = quartic_form tau x y z + / 2 * Sum n (fun v => w v * (q v - cv v) ^ 2).
  Proof.
    rewrite quartic_cv. unfold E4.
    assert (E : K * Sum 3 (fun x => Sum 3 (fun y => Xq q x y * J x * J y / (I x * I y))) = Sum n (fun k => w k * cv k * q k)).
    { rewrite (sum_g n _ (fun k => K * asum k / (lam * sqrt (w k)) * q k)) by (intros; now rewrite w_cv).
      rewrite ?sum_3. unfold Xq, Rdiv. rewrite <- !Rsum_scal_r, <- !Rsum_plus, <- !Rsum_scal. apply sum_g. intros k Hk.
      unfold asum, u. rewrite ?sum_3. unfold Rdiv. rewrite !Rinv_mult. ring. }
    replace (- K * Sum 3 (fun x => Sum 3 (fun y => Xq q x y * J x * J y / (I x * I y)))) with (-1 * Sum n (fun k => w k * cv k * q k)) by (rewrite <- E; ring).
    rewrite <- !Rsum_scal, <- !Rsum_plus. apply sum_g. intros k _. field.
  Qed.

  Lemma tau_form_eq d : (d < 3)%nat -> tau_form tau d x y z = - (2 * K) ^ 3 / 2 * Sum n (fun v => au v d / I d * (asum v / w v ^ 2)).
  Proof.
    intros Hd.
    assert (E : tau_form tau d x y z = Sum 3 (fun b => Sum 3 (fun e => Sum 3 (fun f =>
      Sum n (fun v => - ((2 * K) ^ 3 / 2) * (/ w v ^ 2 * (a v d b * u b * / I d) * (a v e f * (u e * u f)))))))).
    { unfold tau_form. apply sum_g. intros b _. apply sum_g. intros e _. apply sum_g. intros f _.
      unfold tau_cl. rewrite Rsum_scal, Rmult_assoc. f_equal. rewrite <- Rsum_scal_r. apply sum_g. intros v _. fold J. unfold u, Rdiv.
      rewrite !Rinv_mult. ring. }
    rewrite E.
    assert (F1 : forall b e, Sum 3 (fun f => Sum n (fun v => - ((2 * K) ^ 3 / 2) * (/ w v ^ 2 * (a v d b * u b * / I d) * (a v e f * (u e * u f)))))
      = Sum n (fun v => - ((2 * K) ^ 3 / 2) * (/ w v ^ 2 * (a v d b * u b * / I d) * Sum 3 (fun f => a v e f * (u e * u f))))).
    { intros. rewrite Rsum_swap. apply sum_g. intros v _. now rewrite Rsum_scal, Rsum_scal. }
    assert (F2 : forall b, Sum 3 (fun e => Sum n (fun v => - ((2 * K) ^ 3 / 2) * (/ w v ^ 2 * (a v d b * u b * / I d) * Sum 3 (fun f => a v e f * (u e * u f)))))
      = Sum n (fun v => - ((2 * K) ^ 3 / 2) * (/ w v ^ 2 * asum v * / I d * (a v d b * u b)))).
    { intros. rewrite Rsum_swap. apply sum_g. intros v _. rewrite Rsum_scal, Rsum_scal. unfold asum. ring. }
    rewrite (sum_g 3 _ (fun b => Sum n (fun v => - ((2 * K) ^ 3 / 2) * (/ w v ^ 2 * asum v * / I d * (a v d b * u b))))).
    - rewrite Rsum_swap. rewrite <- Rsum_scal. apply sum_g. intros v _. rewrite Rsum_scal, Rsum_scal. unfold au, Rdiv. ring.
    - intros b _. rewrite <- F2. apply sum_g. intros e _. now rewrite F1.
  Qed.
  Lemma Xq_cv q d : (d < 3)%nat -> (forall v, (v < n)%nat -> q v = cv v) ->
    Sum 3 (fun e => Xq q d e * J e / I e) = - I d * tau_form tau d x y z / (2 * K).
  Proof.
    intros Hd Hq. rewrite tau_form_eq by exact Hd.
    assert (E : Sum 3 (fun e => Xq q d e * J e / I e) = 2 * K ^ 2 * Sum n (fun v => au v d * (asum v / w v ^ 2))).
    { rewrite sum_3. unfold Xq, Rdiv. rewrite <- !Rsum_scal_r, <- !Rsum_plus, <- !Rsum_scal. apply sum_g. intros v Hv. rewrite Hq by exact Hv.
      assert (D : cv v * / (lam * sqrt (w v)) = 2 * K ^ 2 * (asum v / w v ^ 2)).
      { rewrite cv_eq by exact Hv.
        assert (P1 : w v <> 0) by (pose proof (Hw v Hv); lra). assert (P2 : sqrt (w v) <> 0) by (pose proof (sqrt_lt_R0 _ (Hw v Hv)); lra).
        pose proof (sqrt_sqrt (w v) ltac:(apply Rlt_le; auto)) as SS.
        replace (asum v / (2 * lam ^ 3 * (w v * sqrt (w v))) * / (lam * sqrt (w v)))
          with (asum v / (2 * lam ^ 4 * (w v * (sqrt (w v) * sqrt (w v))))) by (field; repeat split; try assumption; lra).
        rewrite SS. replace K with (/ (2 * lam ^ 2)) by (rewrite <- (Rmult_1_r (/ _)), <- HK; field; lra).
        field. repeat split; try assumption; lra. }
      rewrite D. unfold au, u. rewrite sum_3. unfold Rdiv. ring. }
    rewrite E. unfold Rdiv. rewrite (sum_g n (fun v => au v d * / I d * (asum v * / w v ^ 2)) (fun v => / I d * (au v d * (asum v * / w v ^ 2)))) by (intros; ring).
    rewrite Rsum_scal. pose proof (HI d Hd). field. lra.
  Qed.

  (** the Coriolis force on mode [l] *)
  Let gam (l : nat) : R := 2 * K * sqrt (w l) * Sum n (fun k => cv k / sqrt (w k) * Sum 3 (fun x => zeta k l x * u x)).
  Lemma coriolis_cv q p : (forall v, (v < n)%nat -> q v = cv v) ->
    2 * K * Sum 3 (fun x => J x * piqp q p x / I x) = Sum n (fun l => p l * gam l).
  Proof.
    intros Hq. unfold gam.
    rewrite (sum_g n (fun l => p l * _) (fun l => Sum n (fun k => 2 * K * sqrt (w l) * p l * (cv k / sqrt (w k) * Sum 3 (fun x => zeta k l x * u x)))))
      by (intros; rewrite Rsum_scal; ring).
    rewrite Rsum_swap.
    assert (E : forall d, J d * piqp q p d / I d = Sum n (fun k => Sum n (fun l => u d * (zeta k l d * (cv k / sqrt (w k)) * (sqrt (w l) * p l))))).
    { intros d. unfold piqp. unfold Rdiv at 1. rewrite (Rmult_comm (J d)), Rmult_assoc. fold (Rdiv (J d) (I d)). fold (u d).
      rewrite <- Rsum_scal_r. apply sum_g. intros k Hk. rewrite <- Rsum_scal_r. apply sum_g. intros l Hl'. rewrite Hq by exact Hk.
      pose proof (sqrt_lt_R0 _ (Hw k Hk)). field. lra. }
    rewrite sum_3, !E, <- !Rsum_plus, <- Rsum_scal. apply sum_g. intros k Hk. rewrite <- !Rsum_plus, <- Rsum_scal. apply sum_g. intros l Hl'.
    rewrite sum_3. ring.
  Qed.

  (** free rotation: Euler's equations *)
  Let Jd (d : nat) : R := cross J (fun d => 2 * B d * J d) d.
  Variable rate : nat -> R.
  Hypothesis Hr : forall v, (v < n)%nat ->
    derivable_pt_lim (fun t => c_form c v (x + t * Jd 0%nat) (y + t * Jd 1%nat) (z + t * Jd 2%nat)) 0 (rate v).
  Lemma rate_eq v : (v < n)%nat -> rate v = 2 * K / (lam ^ 3 * (w v * sqrt (w v))) * Sum 3 (fun d => au v d * cross (fun x => I x * u x) u d / I d).
  Proof.
    intros Hv. set (qd := fun f g : nat -> R => FormFacts.sum3 (fun b => FormFacts.sum3 (fun e => c v b e * (f b * g e)))).
    assert (C : forall b e, (b < 3)%nat -> (e < 3)%nat -> c v b e = c v e b).
    { intros b e Hb He. unfold shift_cl. rewrite (slope_sym N n m geom I lx Hn Hm HI a Ha v b e Hv Hb He). f_equal. f_equal. ring. }
    assert (E : rate v = 2 * qd J Jd).
    { eapply uniqueness_limite; [exact (Hr v Hv)|].
      assert (Q : (fun t => c_form c v (x + t * Jd 0%nat) (y + t * Jd 1%nat) (z + t * Jd 2%nat))
        = (fun t => qd J J + t * (2 * qd J Jd) + t ^ 2 * qd Jd Jd)).
      { extensionality t. unfold c_form, qd, J. rewrite ?FormFacts.sum3_eq. cbn [xyz]. fold J.
        rewrite (C 1%nat 0%nat), (C 2%nat 0%nat), (C 2%nat 1%nat) by lia. ring. }
      rewrite Q. apply parabola_slope. }
    rewrite E. unfold qd, shift_cl. rewrite !p32_lam by exact Hv.
    assert (P1 : w v <> 0) by (pose proof (Hw v Hv); lra). assert (P2 : sqrt (w v) <> 0) by (pose proof (sqrt_lt_R0 _ (Hw v Hv)); lra).
    destruct I3 as (N0 & N1 & N2).
    assert (D : forall d, (d < 3)%nat -> Jd d = 2 * K * cross (fun x => I x * u x) u d).
    { intros d Hd. unfold Jd, u. destruct d as [|[|[|d]]]; [| | |lia]; cbn [cross]; field; repeat split; assumption. }
    rewrite ?FormFacts.sum3_eq, !D by lia. unfold au. rewrite ?sum_3.
    assert (Sy : forall b e, (b < 3)%nat -> (e < 3)%nat -> a v b e = a v e b)
      by (intros; exact (slope_sym N n m geom I lx Hn Hm HI a Ha v _ _ Hv H H0)).
    rewrite (Sy 1%nat 0%nat), (Sy 2%nat 0%nat), (Sy 2%nat 1%nat) by lia.
    set (c0 := cross _ u 0). set (c1 := cross _ u 1). set (c2 := cross _ u 2). unfold u. clearbody c0 c1 c2.
    field. repeat split; try assumption. lra.
  Qed.
  Lemma rate_cv v : (v < n)%nat -> rate v = 4 * K / (w v * sqrt (w v)) * Sum n (fun k => w k * sqrt (w k) * cv k * Sum 3 (fun x => zeta k v x * u x)).
  Proof.
    intros Hv. rewrite rate_eq by exact Hv. unfold au.
    rewrite <- (sum_rule N n m geom I lx Hn Hm HI HF a Ha u v Hv).
    assert (P1 : w v <> 0) by (pose proof (Hw v Hv); lra). assert (P2 : sqrt (w v) <> 0) by (pose proof (sqrt_lt_R0 _ (Hw v Hv)); lra).
    rewrite <- !Rsum_scal. apply sum_g. intros k Hk. rewrite cv_eq by exact Hk. fold (asum k).
    assert (w k <> 0) by (pose proof (Hw k Hk); lra). assert (sqrt (w k) <> 0) by (pose proof (sqrt_lt_R0 _ (Hw k Hk)); lra).
    field. repeat split; try assumption; lra.
  Qed.
  Lemma cor_eq v : (v < n)%nat -> w v * (2 * cor_form n B w c zeta v x y z) = gam v + rate v.
  Proof.
    intros Hv. rewrite rate_cv by exact Hv. unfold cor_form, gam.
    pose proof (Hw v Hv) as Pv. pose proof (sqrt_lt_R0 _ Pv) as Ps. pose proof (sqrt_sqrt (w v) ltac:(lra)) as SS.
    rewrite <- !Rsum_scal, <- Rsum_plus.
    unfold Rdiv at 1. rewrite <- Rsum_scal_r, <- !Rsum_scal. apply sum_g. intros k Hk.
    pose proof (Hw k Hk) as Pk. pose proof (sqrt_lt_R0 _ Pk) as Pt. pose proof (sqrt_sqrt (w k) ltac:(lra)) as TT.
    fold (cv k). unfold p32.
    assert (Z : FormFacts.sum3 (fun b => zeta k v b * (K / I b) * xyz x y z b) = K * Sum 3 (fun x => zeta k v x * u x)).
    { rewrite ?FormFacts.sum3_eq, ?sum_3. unfold u, J. cbn [xyz]. unfold Rdiv. ring. }
    rewrite Z. set (zz := Sum 3 _).
    set (s := sqrt (w v)) in *. set (t := sqrt (w k)) in *. rewrite <- SS, <- TT. field. lra.
  Qed.

  Lemma E6_forms q p : (forall v, (v < n)%nat -> q v = cv v) ->
    E6 J q p = sextic_form n B w tau c zeta f3 x y z + Sum n (fun v => p v * rate v)
      + / 2 * Sum n (fun v => w v * (p v - 2 * cor_form n B w c zeta v x y z) ^ 2).
  Proof.
    intros Hq. unfold E6, sextic_form. rewrite (coriolis_cv q p Hq).
    rewrite (sum_g 3 (fun d => Sum 3 (fun e => Xq q d e * J e / I e) ^ 2 / I d) (fun d => (- I d * tau_form tau d x y z / (2 * K)) ^ 2 / I d))
      by (intros d Hd; now rewrite (Xq_cv q d Hd Hq)).
    rewrite (sum_g n (fun i => Sum n (fun j => Sum n (fun k => f3 i j k * q i * q j * q k)))
      (fun i => Sum n (fun j => Sum n (fun k => f3 i j k * c_form c i x y z * c_form c j x y z * c_form c k x y z)))).
    2: { intros i Hi. apply sum_g. intros j Hj. apply sum_g. intros k Hk. now rewrite !Hq. }
    set (F := Sum n (fun i => Sum n _)).
    assert (A1 : 3 / 4 * K * Sum 3 (fun d => (- I d * tau_form tau d x y z / (2 * K)) ^ 2 / I d) = 3 / 16 * FormFacts.sum3 (fun d => tau_form tau d x y z ^ 2 / (K / I d))).
    { rewrite ?FormFacts.sum3_eq, ?sum_3. destruct I3 as (N0 & N1 & N2). field. repeat split; try assumption; lra. }
    rewrite A1.
    assert (A2 : Sum n (fun v => p v * rate v) + / 2 * Sum n (fun v => w v * (p v - 2 * cor_form n B w c zeta v x y z) ^ 2)
      = - Sum n (fun v => p v * gam v) + / 2 * Sum n (fun k => w k * p k ^ 2) + 2 * Sum n (fun v => w v * cor_form n B w c zeta v x y z ^ 2)).
    { replace (- Sum n (fun v => p v * gam v)) with (-1 * Sum n (fun v => p v * gam v)) by ring.
      rewrite <- !Rsum_scal, <- !Rsum_plus. apply sum_g. intros v Hv.
      replace (gam v) with (w v * (2 * cor_form n B w c zeta v x y z) - rate v) by (rewrite cor_eq by exact Hv; ring). field. }
    lra.
  Qed.
  End Shape.

  (** *** there is such a motion *)
  Lemma comb P W : let v := fun i x => Sum n (fun k => P k * lx (3 * i + x)%nat k) + Sum 3 (fun d => W d * turnv geom d (3 * i + x)) in
    forall g, ip N m (flat v) g = Sum n (fun k => P k * ip N m (fun b => lx b k) g) + Sum 3 (fun d => W d * ip N m (turnv geom d) g).
  Proof.
    intros v g. rewrite ip_blocks.
    rewrite (sum_g n (fun k => P k * _) (fun k => Sum N (fun i => P k * (m i * Sum 3 (fun x => lx (3 * i + x)%nat k * g (3 * i + x)%nat)))))
      by (intros; now rewrite ip_blocks, Rsum_scal).
    rewrite (sum_g 3 (fun d => W d * _) (fun d => Sum N (fun i => W d * (m i * Sum 3 (fun x => turnv geom d (3 * i + x) * g (3 * i + x)%nat)))))
      by (intros; now rewrite ip_blocks, Rsum_scal).
    rewrite (Rsum_swap _ (seq 0 n)), (Rsum_swap _ (seq 0 3)), <- Rsum_plus. apply sum_g. intros i _.
    rewrite (sum_g n (fun k => P k * (m i * _)) (fun k => m i * Sum 3 (fun x => P k * lx (3 * i + x)%nat k * g (3 * i + x)%nat)))
      by (intros; rewrite !sum_3; ring).
    rewrite (sum_g 3 (fun d => W d * (m i * _)) (fun d => m i * Sum 3 (fun x => W d * turnv geom d (3 * i + x) * g (3 * i + x)%nat)))
      by (intros; rewrite !sum_3; ring).
    rewrite !Rsum_scal, (Rsum_swap _ (seq 0 n)), (Rsum_swap _ (seq 0 3) (seq 0 3)), <- Rmult_plus_distr_l, <- Rsum_plus. f_equal. apply sum_g. intros x Hx.
    rewrite flat_block by exact Hx. unfold v. rewrite !Rsum_scal_r. ring.
  Qed.

  Definition det3 (T : nat -> nat -> R) : R :=
    T 0%nat 0%nat * (T 1%nat 1%nat * T 2%nat 2%nat - T 1%nat 2%nat * T 2%nat 1%nat)
    - T 0%nat 1%nat * (T 1%nat 0%nat * T 2%nat 2%nat - T 1%nat 2%nat * T 2%nat 0%nat)
    + T 0%nat 2%nat * (T 1%nat 0%nat * T 2%nat 1%nat - T 1%nat 1%nat * T 2%nat 0%nat).
  Lemma cramer T Y : det3 T <> 0 -> exists W, forall d, (d < 3)%nat -> Sum 3 (fun e => T d e * W e) = Y d.
  Proof.
    intros D. set (rp := fun c => fun i j : nat => if (j =? c)%nat then Y i else T i j).
    exists (fun c => det3 (rp c) / det3 T). intros d Hd. rewrite sum_3. unfold rp, det3 in *. cbn [Nat.eqb].
    destruct d as [|[|[|d]]]; [| | |lia]; field; exact D.
  Qed.
  Lemma det_near X : exists d, 0 < d /\ forall e, Rabs e < d -> det3 (fun i j => kron i j * I i + e ^ 2 * X i j) <> 0.
  Proof.
    pose proof (HI 0%nat ltac:(lia)) as I0. pose proof (HI 1%nat ltac:(lia)) as I1. pose proof (HI 2%nat ltac:(lia)) as I2.
    set (D1 := I 1%nat * I 2%nat * X 0%nat 0%nat + I 0%nat * I 2%nat * X 1%nat 1%nat + I 0%nat * I 1%nat * X 2%nat 2%nat).
    set (D2 := I 0%nat * (X 1%nat 1%nat * X 2%nat 2%nat - X 1%nat 2%nat * X 2%nat 1%nat)
      + I 1%nat * (X 0%nat 0%nat * X 2%nat 2%nat - X 0%nat 2%nat * X 2%nat 0%nat)
      + I 2%nat * (X 0%nat 0%nat * X 1%nat 1%nat - X 0%nat 1%nat * X 1%nat 0%nat)).
    set (D3 := det3 X). set (S := Rabs D1 + Rabs D2 + Rabs D3 + 1). set (P := I 0%nat * I 1%nat * I 2%nat).
    assert (PP : 0 < P) by (unfold P; repeat apply Rmult_lt_0_compat; assumption).
    pose proof (Rabs_pos D1) as A1. pose proof (Rabs_pos D2) as A2. pose proof (Rabs_pos D3) as A3.
    exists (Rmin 1 (P / S)). assert (PS : 0 < P / S) by (apply Rdiv_lt_0_compat; unfold S; lra).
    split; [apply Rmin_glb_lt; lra|]. intros e He Z.
    assert (H1 : Rabs e < 1) by (eapply Rlt_le_trans; [exact He|apply Rmin_l]).
    assert (H2 : Rabs e * S < P).
    { apply (Rmult_lt_reg_r (/ S)); [apply Rinv_0_lt_compat; unfold S; lra|]. rewrite Rmult_assoc, Rinv_r, Rmult_1_r by (unfold S; lra).
      eapply Rlt_le_trans; [exact He|apply Rmin_r]. }
    assert (E : det3 (fun i j => kron i j * I i + e ^ 2 * X i j) = P + (e ^ 2 * D1 + e ^ 4 * D2 + e ^ 6 * D3)).
    { unfold D3, det3, D1, D2, P, kron. cbn [Nat.eqb]. ring. }
    rewrite E in Z. pose proof (Rabs_pos e) as E0.
    assert (T : Rabs (e ^ 2 * D1 + e ^ 4 * D2 + e ^ 6 * D3) <= Rabs e * (Rabs D1 + Rabs D2 + Rabs D3)).
    { eapply Rle_trans; [apply Rabs_triang|]. eapply Rle_trans; [apply Rplus_le_compat_r, Rabs_triang|].
      rewrite !Rabs_mult, <- !RPow_abs. set (t := Rabs e) in *.
      assert (T2 : t ^ 2 <= t) by nra. assert (T4 : t ^ 4 <= t) by (replace (t ^ 4) with (t ^ 2 * t ^ 2) by ring; nra).
      assert (T6 : t ^ 6 <= t). { replace (t ^ 6) with (t ^ 4 * t ^ 2) by ring. assert (0 <= t ^ 4) by (replace (t ^ 4) with ((t ^ 2) ^ 2) by ring; apply pow2_ge_0). nra. }
      pose proof (Rmult_le_compat_r _ _ _ A1 T2). pose proof (Rmult_le_compat_r _ _ _ A2 T4). pose proof (Rmult_le_compat_r _ _ _ A3 T6). lra. }
    replace (e ^ 2 * D1 + e ^ 4 * D2 + e ^ 6 * D3) with (- P) in T by lra. rewrite Rabs_Ropp, Rabs_pos_eq in T by lra.
    unfold S in H2. nra.
  Qed.

  Lemma motion_exists J q p : exists d, 0 < d /\ forall e, Rabs e < d ->
    exists v, motion N n m geom lx w lam (fun x => e * J x) (fun k => e ^ 2 * q k) (fun k => e ^ 3 * p k) v.
  Proof.
    destruct (det_near (fun x y => / 2 * Xq q x y)) as (d & Pd & D). exists d. split; [exact Pd|]. intros e He.
    destruct (cramer _ (fun x => e * J x - e ^ 5 * piqp q p x) (D e He)) as (W & HW). clear D.
    set (P := fun k => lam * sqrt (w k) * (e ^ 3 * p k)).
    set (v := fun i x => Sum n (fun k => P k * lx (3 * i + x)%nat k) + Sum 3 (fun d => W d * turnv geom d (3 * i + x))).
    pose proof (comb P W : forall g, ip N m (flat v) g = _) as Cv.
    assert (V1 : forall x, (x < 3)%nat -> Sum N (fun i => m i * v i x) = 0).
    { intros x Hx. transitivity (ip N m (flat v) (fun b => kron (b mod 3) x)).
      - rewrite ip_shift by exact Hx. apply sum_g. intros i _. now rewrite flat_block.
      - rewrite Cv. rewrite (sum_g n _ (fun _ => 0)).
        2: { intros k Hk. rewrite (mode_shift N n m geom I lx HF k x Hk Hx). ring. }
        rewrite (sum_g 3 _ (fun _ => 0)).
        2: { intros b Hb. rewrite ip_com, (shift_turn N n m geom I lx Hn Hm HI HF x b Hx Hb). ring. }
        rewrite !Rsum_0 by reflexivity. ring. }
    assert (V2 : forall k, (k < n)%nat -> ip N m (flat v) (fun b => lx b k) = P k).
    { intros k Hk. rewrite Cv. rewrite (sum_g 3 _ (fun _ => 0)).
      2: { intros b Hb. rewrite ip_com, (mode_turn N n m geom I lx Hn Hm HI HF k b Hk Hb). ring. }
      rewrite (Rsum_0 _ (seq 0 3)) by reflexivity. rewrite (sum_g n _ (fun j => delta k j * P j)).
      - rewrite sum_delta by exact Hk. ring.
      - intros j Hj. destruct HF as (_ & _ & O & _). unfold ip. rewrite (O j k Hj Hk). unfold delta. rewrite (Nat.eqb_sym k j).
        destruct (j =? k)%nat; ring. }
    assert (V3 : forall x, (x < 3)%nat -> still v x = I x * W x).
    { intros x Hx. unfold still. rewrite Cv. rewrite (sum_g n _ (fun _ => 0)).
      2: { intros k Hk. rewrite (mode_turn N n m geom I lx Hn Hm HI HF k x Hk Hx). ring. }
      rewrite (Rsum_0 _ (seq 0 n)) by reflexivity. rewrite (sum_g 3 _ (fun b => delta x b * (W b * I b))).
      - rewrite sum_delta by exact Hx. ring.
      - intros b Hb. rewrite (turn_turn N n m geom I lx Hm HF b x Hb Hx). unfold delta, kron. rewrite (Nat.eqb_sym x b).
        destruct (b =? x)%nat; ring. }
    assert (V4 : forall k, (k < n)%nat -> Sum N (fun i => m i * Sum 3 (fun x => lx (3 * i + x)%nat k * v i x)) = lam * sqrt (w k) * (e ^ 3 * p k))
      by (intros k Hk; rewrite <- mode_momentum; now apply V2).
    exists v. split; [exact V1|]. split; [|exact V4]. intros x Hx.
    pose proof (momentum (fun x => Sum N (fun i => m i * cross (placed n geom lx w lam (fun k => e ^ 2 * q k) i) (v i) x)) _ _ v
      (conj V1 (conj (fun x _ => eq_refl) V4)) x Hx) as E. cbv beta in E.
    rewrite piqp_scal, V3 in E by exact Hx.
    rewrite (sum_g 3 _ (fun y => e ^ 2 * (Xq q x y * W y))) in E
      by (intros y Hy; rewrite Xq_scal, V3 by exact Hy; pose proof (HI y Hy); field; lra).
    specialize (HW x Hx). cbv beta in HW.
    rewrite (sum_g 3 _ (fun y => delta x y * (I x * W y) + / 2 * (e ^ 2 * (Xq q x y * W y)))) in HW
      by (intros y Hy; unfold delta, kron; ring).
    rewrite Rsum_plus, sum_delta, Rsum_scal in HW by exact Hx. replace (e ^ 5) with (e ^ 2 * e ^ 3) in HW by ring. lra.
  Qed.
End Mech.

Lemma rotating_lemma (N n : nat) (m : nat -> R) (geom : nat -> R * R * R) (I : nat -> R) (lx : nat -> nat -> R)
  (a : nat -> nat -> nat -> R) (w : nat -> R) (f3 : nat -> nat -> nat -> R) (K lam : R) :
  (3 * N = n + 6)%nat -> (forall q, (q < N)%nat -> 0 < m q) -> (forall x, (x < 3)%nat -> 0 < I x) ->
  free_modes N n m geom I lx -> inertia_slope N n m geom lx a -> (forall k, (k < n)%nat -> 0 < w k) ->
  0 < lam -> 2 * K * lam ^ 2 = 1 ->
  rotor_energy N n m geom I lx w f3 K lam (tau_cl n K w I a) (shift_cl lam w I a).
Proof.
  intros Hn Hm HI HF Ha Hw Hl HK V HV x y z q p J B zeta moving E.
  set (tau := tau_cl n K w I a). set (c := shift_cl lam w I a).
  destruct (energy_expand N n m geom I lx Hn Hm HI HF a Ha w lam K f3 V Hw Hl HK HV J q p) as (C & d & P1 & P2 & P3 & H).
  split; [|split].
  - eapply motion_exists; eassumption.
  - exists (C + Rabs (E6 N n m I lx a w lam K f3 J q p)), d. split; [exact P1|]. intros e v He Mo.
    specialize (H e v He Mo).
    rewrite (E4_forms N n m I Hn Hm HI a w lam K Hw Hl HK x y z q : E4 n I a w lam K J q = _) in H.
    fold tau c in H. set (T := quartic_form tau x y z + _) in *. set (S := Sum 3 _) in *. set (F := E6 _ _ _ _ _ _ _ _ _ _ _ _ _) in *.
    fold (E e v) in H. replace (E e v - (e ^ 2 * S + e ^ 4 * T)) with (E e v - (e ^ 2 * S + e ^ 4 * T + e ^ 6 * F) + e ^ 6 * F) by ring.
    eapply Rle_trans; [apply Rabs_triang|]. rewrite Rabs_mult.
    assert (E2 : 0 <= e ^ 2 <= 1).
    { rewrite <- (pow2_abs e). pose proof (Rabs_pos e). nra. }
    assert (Z6 : 0 <= e ^ 6) by (replace (e ^ 6) with ((e ^ 3) ^ 2) by ring; apply pow2_ge_0).
    rewrite (Rabs_pos_eq (e ^ 6) Z6). replace (e ^ 8) with (e ^ 6 * e ^ 2) in H by ring.
    assert (C * (e ^ 6 * e ^ 2) <= C * e ^ 6) by (apply Rmult_le_compat_l; nra). lra.
  - intros Hq rate turn Hr. exists C, d. split; [exact P1|]. intros e v He Mo. specialize (H e v He Mo).
    rewrite (E6_forms N n m geom I lx Hn Hm HI HF a Ha w lam K f3 Hw Hl HK x y z rate Hr q p Hq : E6 N n m I lx a w lam K f3 J q p = _) in H.
    rewrite (E4_forms N n m I Hn Hm HI a w lam K Hw Hl HK x y z q : E4 n I a w lam K J q = _) in H.
    rewrite (sum_g n (fun v => w v * (q v - c_form (shift_cl lam w I a) v x y z) ^ 2) (fun _ => 0)) in H
      by (intros k Hk; rewrite Hq by exact Hk; unfold c; ring).
    rewrite (Rsum_0 (fun _ => 0) (seq 0 n)), Rmult_0_r, Rplus_0_r in H by reflexivity. exact H.
Qed.
