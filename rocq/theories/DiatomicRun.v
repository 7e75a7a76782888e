(** Diatomic molecules: the whole run. *)
From Coq Require Import Reals Lra List ZArith Arith Lia Bool Permutation Sorted.
From Verif Require Import Num Loops ListFacts Index LoadFacts Modes ModesFacts ResFacts ResWitness
  StatesFacts IndexFacts Anharm AnharmFacts EnergyFacts VibRot Distort Transform TransformFacts
  RotFacts NormalFacts HarmFacts ModeFacts DistortFacts GeomFacts ZeroFacts SymAnharm InertiaFacts
  Polyads Report OutputFacts VibRotFacts SymRotFacts Geom AlignFacts AlignExact IrrepFacts Finish FinishFacts
  SexticFacts SameRun RunFacts RunSecond ThreeRun DunhamFacts.
Import ListNotations.
Open Scope nat_scope.
Local Open Scope R_scope.

(** ** specification *)

(** the growth of the bond when the two atoms, at [x 0] and [x 1] of a line, move along it by [u] *)
Definition growth (x u : nat -> R) : R := (x 1%nat - x 0%nat) / Rabs (x 1%nat - x 0%nat) * (u 1%nat - u 0%nat).
(** two atoms on the x axis whose energy depends on the length of the bond alone, with derivatives
    0, [k2], [k3] and [k4]: what that says of the energy when the atoms stay on the line, and of
    the second derivatives across the line *)
Definition bond_field (x : nat -> R) (g2 : nat -> nat -> R) (g3 : nat -> nat -> nat -> R)
  (g4 : nat -> nat -> nat -> nat -> R) (k2 k3 k4 : R) : Prop :=
  (forall a b, (a < 6)%nat -> (b < 6)%nat -> (a mod 3 <> 0 \/ b mod 3 <> 0)%nat -> g2 a b = 0) /\
  (forall u, Sum 2 (fun i => Sum 2 (fun j => g2 (3 * i)%nat (3 * j)%nat * u i * u j)) = k2 * growth x u ^ 2) /\
  (forall u, Sum 2 (fun i => Sum 2 (fun j => Sum 2 (fun k =>
     g3 (3 * i)%nat (3 * j)%nat (3 * k)%nat * u i * u j * u k))) = k3 * growth x u ^ 3) /\
  (forall u, Sum 2 (fun i => Sum 2 (fun j => Sum 2 (fun k => Sum 2 (fun l =>
     g4 (3 * i)%nat (3 * j)%nat (3 * k)%nat (3 * l)%nat * u i * u j * u k * u l)))) = k4 * growth x u ^ 4).
(** the reduced mass *)
Definition reduced (m : nat -> R) : R := m 0%nat * m 1%nat / (m 0%nat + m 1%nat).

(** ** the mode *)
Lemma sum6 F : Sum 6 F = F 0%nat + F 1%nat + F 2%nat + F 3%nat + F 4%nat + F 5%nat.
Proof. unfold Rsum. cbn [fold_right seq]. ring. Qed.
Lemma sum2 F : Sum 2 F = F 0%nat + F 1%nat.
Proof. unfold Rsum. cbn [fold_right seq]. ring. Qed.

Definition dir (x : nat -> R) : R := (x 1%nat - x 0%nat) / Rabs (x 1%nat - x 0%nat).
Lemma dir_abs x : x 0%nat <> x 1%nat -> (dir x = 1 \/ dir x = -1) /\ x 1%nat - x 0%nat = dir x * Rabs (x 1%nat - x 0%nat).
Proof.
  intros N. unfold dir. assert (P : x 1%nat - x 0%nat <> 0) by lra. split.
  - unfold Rabs. destruct (Rcase_abs _); [right|left]; field; lra.
  - field. now apply Rabs_no_R0.
Qed.

Section Mode.
  Variables (x m : nat -> R) (g2 A : nat -> nat -> R) (k2 : R) (h : list R) (V : nat -> nat -> R).
  Hypothesis Nx : x 0%nat <> x 1%nat.
  Hypothesis M0 : 0 < m 0%nat.
  Hypothesis M1 : 0 < m 1%nat.
  Hypothesis K : 0 < k2.
  Hypothesis Z : forall a b, (a < 6)%nat -> (b < 6)%nat -> (a mod 3 <> 0 \/ b mod 3 <> 0)%nat -> g2 a b = 0.
  Hypothesis Q : forall u, Sum 2 (fun i => Sum 2 (fun j => g2 (3 * i)%nat (3 * j)%nat * u i * u j)) = k2 * growth x u ^ 2.
  Hypothesis S2 : g2 0%nat 3%nat = g2 3%nat 0%nat.
  Hypothesis HA : forall a b, (a < 6)%nat -> (b < 6)%nat -> A a b = weighted m g2 a b.
  Hypothesis ES : eigen_system 6 A h V.
  Hypothesis So : StronglySorted Rge h.
  Let s := sqrt (m 0%nat).
  Let t := sqrt (m 1%nat).
  Let kk := FACT2 * k2.
  Let la := kk / reduced m.

  Lemma F2_pos : 0 < FACT2.
  Proof. unfold FACT2, HE, A0. cbn [ndiv nmul nlit Rnum]. lra. Qed.
  Lemma st : 0 < s /\ 0 < t /\ s * s = m 0%nat /\ t * t = m 1%nat.
  Proof. unfold s, t. repeat split; try (now apply sqrt_lt_R0); apply sqrt_sqrt; lra. Qed.
  Lemma la_val : la = kk * (/ (s * s) + / (t * t)).
  Proof. destruct st as (Ps & Pt & -> & ->). unfold la, reduced. field. lra. Qed.
  Lemma la_pos : 0 < la.
  Proof.
    rewrite la_val. destruct st as (Ps & Pt & _). apply Rmult_lt_0_compat.
    - apply Rmult_lt_0_compat; [apply F2_pos|exact K].
    - apply Rplus_lt_0_compat; apply Rinv_0_lt_compat; nra.
  Qed.
  Lemma elements : g2 0%nat 0%nat = k2 /\ g2 0%nat 3%nat = - k2 /\ g2 3%nat 0%nat = - k2 /\ g2 3%nat 3%nat = k2.
  Proof.
    destruct (dir_abs x Nx) as [D _].
    pose proof (Q (fun i => if Nat.eqb i 0 then 1 else 0)) as Q0.
    pose proof (Q (fun i => if Nat.eqb i 0 then 0 else 1)) as Q1.
    pose proof (Q (fun _ => 1)) as Q2.
    unfold growth in Q0, Q1, Q2. fold (dir x) in Q0, Q1, Q2. rewrite !sum2 in Q0, Q1, Q2.
    cbn [Nat.eqb Nat.mul Nat.add] in Q0, Q1, Q2.
    assert (dir x * dir x = 1) as E by (destruct D as [-> | ->]; ring).
    replace (k2 * (dir x * (0 - 1)) ^ 2) with (k2 * (dir x * dir x)) in Q0 by ring.
    replace (k2 * (dir x * (1 - 0)) ^ 2) with (k2 * (dir x * dir x)) in Q1 by ring.
    rewrite E in Q0, Q1. repeat split; lra.
  Qed.
  (** the matrix on a vector *)
  Lemma row v a : (a < 6)%nat -> Sum 6 (fun b => A a b * v b) =
    match a with
    | 0%nat => kk / s * (v 0%nat / s - v 3%nat / t)
    | 3%nat => - (kk / t * (v 0%nat / s - v 3%nat / t))
    | _ => 0
    end.
  Proof.
    intros Ha. rewrite sum6. rewrite !HA by lia. unfold weighted. unfold Nat.div. cbn [Nat.divmod fst Nat.sub].
    destruct elements as (E0 & E1 & E2 & E3). destruct st as (Ps & Pt & _).
    rewrite (Z a 1%nat), (Z a 2%nat), (Z a 4%nat), (Z a 5%nat) by (lia || (right; discriminate)).
    destruct (Nat.eq_dec (a mod 3) 0) as [Ea|Ea].
    - assert (a = 0%nat \/ a = 3%nat) as [-> | ->].
      { do 6 (destruct a as [|a]; [cbn in Ea; try discriminate; auto|]). lia. }
      + rewrite E0, E1. cbn [Nat.divmod fst Nat.sub]. fold s t. unfold kk. field. lra.
      + rewrite E2, E3. cbn [Nat.divmod fst Nat.sub]. fold s t. unfold kk. field. lra.
    - rewrite (Z a 0%nat), (Z a 3%nat) by (lia || (left; exact Ea)).
      do 6 (destruct a as [|a]; [try (exfalso; apply Ea; reflexivity); unfold Rdiv; ring|]). lia.
  Qed.

  Lemma top_value : exists h', h = la :: h' /\
    V 1%nat 0%nat = 0 /\ V 2%nat 0%nat = 0 /\ V 4%nat 0%nat = 0 /\ V 5%nat 0%nat = 0 /\
    s * V 0%nat 0%nat + t * V 3%nat 0%nat = 0 /\ V 0%nat 0%nat ^ 2 + V 3%nat 0%nat ^ 2 = 1.
  Proof.
    destruct ES as (L & [O1 O2] & E). pose proof la_pos as Pl. destruct st as (Ps & Pt & _).
    destruct h as [|h0 h'] eqn:Eh; [discriminate|]. exists h'.
    assert (PK : 0 < kk) by (apply Rmult_lt_0_compat; [apply F2_pos|exact K]).
    (* the stretch is an eigenvector *)
    set (y := fun a : nat => match a with 0%nat => - / s | 3%nat => / t | _ => 0 end).
    assert (Y : forall a, (a < 6)%nat -> Sum 6 (fun b => A a b * y b) = la * y a).
    { intros a Ha. rewrite row by exact Ha. rewrite la_val.
      do 6 (destruct a as [|a]; [cbn [y]; unfold y; try (field; lra); ring|]). lia. }
    assert (SA : forall a b, (a < 6)%nat -> (b < 6)%nat -> A a b = A b a).
    { intros a b Ha Hb. rewrite !HA by assumption. unfold weighted.
      assert (g2 a b = g2 b a) as ->.
      { destruct (Nat.eq_dec (a mod 3) 0) as [Ea|Ea]; [|rewrite !Z; auto].
        destruct (Nat.eq_dec (b mod 3) 0) as [Eb|Eb]; [|rewrite !Z; auto].
        assert (a = 0%nat \/ a = 3%nat) as [-> | ->].
        { do 6 (destruct a as [|a]; [cbn in Ea; try discriminate; auto|]). lia. }
        all: assert (b = 0%nat \/ b = 3%nat) as [-> | ->] by (do 6 (destruct b as [|b]; [cbn in Eb; try discriminate; auto|]); lia).
        all: (reflexivity || exact S2 || (symmetry; exact S2)). }
      f_equal. apply Rmult_comm. }
    assert (Ov : forall i v, (i < 6)%nat -> nth_error (h0 :: h') i = Some v ->
      (v - la) * Sum 6 (fun a => V a i * y a) = 0).
    { intros i v Hi Hv. rewrite Rmult_minus_distr_r. apply Rminus_diag_eq.
      rewrite <- !Rsum_scal.
      transitivity (Sum 6 (fun a => Sum 6 (fun b => A a b * V b i) * y a)).
      { apply sum_g. intros a Ha. rewrite (E a i v Ha Hv). ring. }
      transitivity (Sum 6 (fun a => V a i * Sum 6 (fun b => A a b * y b))).
      - rewrite !sum6. rewrite (SA 1%nat 0%nat), (SA 2%nat 0%nat), (SA 3%nat 0%nat), (SA 4%nat 0%nat), (SA 5%nat 0%nat), (SA 2%nat 1%nat), (SA 3%nat 1%nat), (SA 4%nat 1%nat), (SA 5%nat 1%nat),
          (SA 3%nat 2%nat), (SA 4%nat 2%nat), (SA 5%nat 2%nat), (SA 4%nat 3%nat), (SA 5%nat 3%nat), (SA 5%nat 4%nat) by lia. ring.
      - apply sum_g. intros a Ha. rewrite (Y a Ha). ring. }
    assert (G : la <= h0).
    { destruct (Rle_or_lt la h0) as [|Lt]; [assumption|exfalso].
      assert (Y0 : forall i, (i < 6)%nat -> Sum 6 (fun a => V a i * y a) = 0).
      { intros i Hi. destruct (nth_error (h0 :: h') i) as [v|] eqn:Ev.
        - assert (v <= h0).
          { destruct i as [|i]; [injection Ev as <-; lra|]. inversion So as [|? ? _ Fo]; subst.
            apply Rge_le. rewrite Forall_forall in Fo. apply Fo. cbn [nth_error] in Ev. eapply nth_error_In, Ev. }
          pose proof (Ov i v Hi Ev) as P. apply Rmult_integral in P as [P|P]; [lra|exact P].
        - apply nth_error_None in Ev. rewrite L in Ev. lia. }
      assert (y 3%nat = 0).
      { transitivity (Sum 6 (fun i => V 3%nat i * Sum 6 (fun a => V a i * y a))).
        - transitivity (Sum 6 (fun a => Sum 6 (fun k => V 3%nat k * V a k) * y a)).
          + transitivity (Sum 6 (fun a => delta 3 a * y a)); [rewrite sum6; unfold delta; cbn [Nat.eqb]; ring|].
            apply sum_g. intros a Ha. now rewrite O1 by lia.
          + rewrite !sum6. ring.
        - rewrite (sum_g 6 _ (fun _ => 0)); [rewrite sum6; ring|]. intros i Hi. rewrite Y0 by exact Hi. ring. }
      cbn in H. assert (0 < / t) by now apply Rinv_0_lt_compat. lra. }
    assert (R : forall a, (a < 6)%nat -> Sum 6 (fun b => A a b * V b 0%nat) = h0 * V a 0%nat) by (intros a Ha; now apply E).
    assert (V0 : forall a, (a < 6)%nat -> a <> 0%nat -> a <> 3%nat -> V a 0%nat = 0).
    { intros a Ha N0 N3. pose proof (R a Ha) as Ra. rewrite (row (fun b => V b 0%nat)) in Ra by exact Ha.
      assert (h0 * V a 0%nat = 0) as P.
      { rewrite <- Ra. do 6 (destruct a as [|a]; [try contradiction; reflexivity|]). lia. }
      apply Rmult_integral in P as [P|P]; [lra|exact P]. }
    assert (Nm : V 0%nat 0%nat ^ 2 + V 3%nat 0%nat ^ 2 = 1).
    { pose proof (O2 0%nat 0%nat ltac:(lia) ltac:(lia)) as P. unfold delta in P. cbn [Nat.eqb] in P.
      rewrite sum6, (V0 1%nat), (V0 2%nat), (V0 4%nat), (V0 5%nat) in P by lia. lra. }
    pose proof (R 0%nat ltac:(lia)) as R0. rewrite (row (fun b => V b 0%nat)) in R0 by lia. cbv beta iota in R0.
    pose proof (R 3%nat ltac:(lia)) as R3. rewrite (row (fun b => V b 0%nat)) in R3 by lia. cbv beta iota in R3.
    set (p := V 0%nat 0%nat / s - V 3%nat 0%nat / t) in *.
    assert (T : s * V 0%nat 0%nat + t * V 3%nat 0%nat = 0).
    { apply Rmult_eq_reg_l with h0; [|lra].
      transitivity (s * (h0 * V 0%nat 0%nat) + t * (h0 * V 3%nat 0%nat)); [ring|].
      rewrite <- R0, <- R3. field. lra. }
    assert (Np : p <> 0).
    { intros P. rewrite P in R0, R3. rewrite Rmult_0_r in R0, R3.
      assert (V 0%nat 0%nat = 0) by (symmetry in R0; apply Rmult_integral in R0 as [?|?]; lra).
      assert (V 3%nat 0%nat = 0) by (apply Rmult_eq_reg_l with h0; lra). rewrite H, H0 in Nm. lra. }
    assert (h0 = la) as ->.
    { apply Rmult_eq_reg_r with p; [|exact Np]. rewrite la_val. unfold p at 1.
      transitivity (h0 * V 0%nat 0%nat / s - h0 * V 3%nat 0%nat / t); [field; lra|]. rewrite <- R0, <- R3. field. lra. }
    split; [reflexivity|]. repeat split; auto with arith; apply V0; lia.
  Qed.
End Mode.

(** ** the anharmonic constants of the mode *)
Section Tensors.
  Variables (U : nat -> nat -> R).
  Hypothesis U1 : U 1%nat 0%nat = 0.
  Hypothesis U2 : U 2%nat 0%nat = 0.
  Hypothesis U4 : U 4%nat 0%nat = 0.
  Hypothesis U5 : U 5%nat 0%nat = 0.
  Let u (i : nat) := U (3 * i)%nat 0%nat.
  Lemma line1 g : con1 6 U g 0 = Sum 2 (fun i => u i * g (3 * i)%nat).
  Proof. unfold con1. rewrite sum6, sum2, U1, U2, U4, U5. unfold u. cbn [Nat.mul Nat.add]. ring. Qed.
  Lemma line3 g : con3 6 U g 0 0 0 =
    Sum 2 (fun i => Sum 2 (fun j => Sum 2 (fun k => g (3 * i)%nat (3 * j)%nat (3 * k)%nat * u i * u j * u k))).
  Proof. unfold con3, con2. rewrite line1, !sum2, !line1, !sum2, !line1, !sum2. ring. Qed.
  Lemma line4 g : con4 6 U g 0 0 0 0 =
    Sum 2 (fun i => Sum 2 (fun j => Sum 2 (fun k => Sum 2 (fun l =>
      g (3 * i)%nat (3 * j)%nat (3 * k)%nat (3 * l)%nat * u i * u j * u k * u l)))).
  Proof. unfold con4. rewrite line1, !sum2, !line3, !sum2. ring. Qed.
End Tensors.

Section Stretch.
  Variables (x m : nat -> R) (V : nat -> nat -> R).
  Hypothesis Nx : x 0%nat <> x 1%nat.
  Hypothesis M0 : 0 < m 0%nat.
  Hypothesis M1 : 0 < m 1%nat.
  Hypothesis Cm : m 0%nat * x 0%nat + m 1%nat * x 1%nat = 0.
  Hypothesis V1 : V 1%nat 0%nat = 0.
  Hypothesis V2 : V 2%nat 0%nat = 0.
  Hypothesis V4 : V 4%nat 0%nat = 0.
  Hypothesis V5 : V 5%nat 0%nat = 0.
  Hypothesis T : sqrt (m 0%nat) * V 0%nat 0%nat + sqrt (m 1%nat) * V 3%nat 0%nat = 0.
  Hypothesis Nm : V 0%nat 0%nat ^ 2 + V 3%nat 0%nat ^ 2 = 1.
  Let s := sqrt (m 0%nat).
  Let t := sqrt (m 1%nat).
  Let r := Rabs (x 1%nat - x 0%nat).
  Let mu := reduced m.
  Let d := dir x * (V 3%nat 0%nat / t - V 0%nat 0%nat / s).

  Lemma mu_val : mu = s * s * (t * t) / (s * s + t * t).
  Proof. destruct (st m M0 M1) as (_ & _ & E0 & E1). unfold s, t, mu, reduced. now rewrite E0, E1. Qed.
  Lemma mu_pos : 0 < mu.
  Proof. unfold mu, reduced. apply Rdiv_lt_0_compat; [now apply Rmult_lt_0_compat|lra]. Qed.
  Lemma d_sq : d * d = / mu.
  Proof.
    destruct (st m M0 M1) as (Ps & Pt & _ & _). fold s t in Ps, Pt. rewrite mu_val. unfold d.
    destruct (dir_abs x Nx) as [D _].
    transitivity ((V 3%nat 0%nat / t - V 0%nat 0%nat / s) ^ 2); [destruct D as [-> | ->]; ring|].
    assert (B : V 3%nat 0%nat = - (s * V 0%nat 0%nat) / t).
    { apply Rmult_eq_reg_l with t; [|lra]. transitivity (- (s * V 0%nat 0%nat)); [fold s t in T; lra|field; lra]. }
    rewrite B in Nm |- *. set (v := V 0%nat 0%nat) in *.
    assert (N' : v ^ 2 * (s * s + t * t) = t * t).
    { transitivity (t * t * (v ^ 2 + (- (s * v) / t) ^ 2)); [field; lra|rewrite Nm; ring]. }
    transitivity (v ^ 2 * (s * s + t * t) * (s * s + t * t) / (s * s * (t * t) * (t * t))); [field; lra|].
    rewrite N'. field. split; [nra|]. split; lra.
  Qed.
  Lemma d_sign : exists sg, (sg = 1 \/ sg = -1) /\ d = sg / sqrt mu.
  Proof.
    pose proof mu_pos as P. assert (Q : 0 < sqrt mu) by now apply sqrt_lt_R0.
    assert (E : (d * sqrt mu - 1) * (d * sqrt mu + 1) = 0).
    { transitivity (d * d * (sqrt mu * sqrt mu) - 1); [ring|]. rewrite d_sq, sqrt_sqrt by lra. field. lra. }
    apply Rmult_integral in E as [E|E]; [exists 1|exists (-1)]; (split; [auto|]);
      apply Rmult_eq_reg_r with (sqrt mu); try lra; [transitivity 1|transitivity (-1)]; (lra || (field; lra)).
  Qed.
  Lemma arm : s * x 0%nat * V 0%nat 0%nat + t * x 1%nat * V 3%nat 0%nat = mu * r * d.
  Proof.
    destruct (st m M0 M1) as (Ps & Pt & _ & _). fold s t in Ps, Pt.
    destruct (dir_abs x Nx) as [D E].
    transitivity (mu * (x 1%nat - x 0%nat) * (V 3%nat 0%nat / t - V 0%nat 0%nat / s)).
    - assert (B : V 3%nat 0%nat = - (s * V 0%nat 0%nat) / t).
      { apply Rmult_eq_reg_l with t; [|lra]. transitivity (- (s * V 0%nat 0%nat)); [fold s t in T; lra|field; lra]. }
      rewrite B, mu_val. field. repeat split; try lra. nra.
    - rewrite E. unfold d. fold r. ring.
  Qed.
  Lemma moment_reduced : moment m x = mu * r ^ 2.
  Proof.
    destruct (dir_abs x Nx) as [D E].
    assert (R2 : r ^ 2 = (x 1%nat - x 0%nat) ^ 2) by (rewrite E; fold r; destruct D as [-> | ->]; ring).
    rewrite R2. unfold moment, mu, reduced.
    assert (X1 : x 1%nat = - (m 0%nat * x 0%nat) / m 1%nat).
    { apply Rmult_eq_reg_l with (m 1%nat); [|lra]. transitivity (- (m 0%nat * x 0%nat)); [lra|field; lra]. }
    rewrite X1. field. split; lra.
  Qed.

  Lemma wila_line geom c : (forall q, (q < 2)%nat -> geom q = (x q, 0, 0)) ->
    wila 2 geom m V 0 c = match c with 0%nat | 1%nat | 3%nat | 4%nat => 0
                          | _ => 2 * (s * x 0%nat * V 0%nat 0%nat + t * x 1%nat * V 3%nat 0%nat) end.
  Proof.
    intros Hg. unfold s, t.
    destruct c as [|[|[|[|[|]]]]]; unfold wila; cbv zeta;
      rewrite ?nsum_R, ?acc_sub_R; unfold range, cx, cy, cz;
      cbn [Rsum fold_right seq Nat.sub Nat.add Nat.mul nsqrt nmul nadd nsub Rnum];
      rewrite ?(Hg 0%nat), ?(Hg 1%nat) by lia; cbn [fst snd]; rewrite ?nz_R, ?V1, ?V2, ?V4, ?V5; ring.
  Qed.

  Lemma line_two geom (I B : nat -> R) sg : (forall q, (q < 2)%nat -> geom q = (x q, 0, 0)) ->
    / 100 < mu * r ^ 2 -> (sg = 1 \/ sg = -1) -> d = sg / sqrt mu ->
    (forall a, (a < 3)%nat -> I a = inertia 2 m geom a a) -> (forall a, (a < 3)%nat -> B a = rot_const (I a)) ->
    two_atoms (mu * r ^ 2) sg (wila 2 geom m V) (zmat 2 V) I B.
  Proof.
    intros Hg HJ Hs Hd HI HB.
    assert (HIa : forall a, (a < 3)%nat -> I a = match a with O => 0 | _ => mu * r ^ 2 end).
    { intros a Ha. rewrite HI by exact Ha. rewrite <- moment_reduced, <- moment_inertia. unfold inertia.
      apply Rsum_ext. intros q Hq%in_seq. rewrite Hg by lia. reflexivity. }
    assert (R : forall a, (a < 3)%nat -> I a = mu * r ^ 2 -> B a = ROTCONST / (mu * r ^ 2)).
    { intros a Ha E. rewrite HB, E by exact Ha. unfold rot_const, ngtb. cbn [nltb nlit Rnum ndiv].
      replace (Rltb _ _) with true; [reflexivity|]. symmetry. apply Rltb_true. lra. }
    assert (SJ : sqrt (mu * r ^ 2) = sqrt mu * r).
    { rewrite sqrt_mult_alt by (pose proof mu_pos; lra). rewrite sqrt_pow2 by apply Rabs_pos. reflexivity. }
    assert (A : 2 * (s * x 0%nat * V 0%nat 0%nat + t * x 1%nat * V 3%nat 0%nat) = sg * (2 * sqrt (mu * r ^ 2))).
    { rewrite arm, SJ, Hd. pose proof mu_pos as P. assert (Q : 0 < sqrt mu) by now apply sqrt_lt_R0.
      rewrite <- (sqrt_sqrt mu) at 1 by lra. field. lra. }
    constructor; try assumption.
    - intros c. rewrite (wila_line geom c Hg), A. reflexivity.
    - intros a Ha. destruct a as [|[|[|]]]; try lia; unfold zmat; rewrite nsum_R; unfold range, cx, cy, cz;
        cbn [Rsum fold_right seq Nat.sub Nat.add Nat.mul fst snd nsqrt nmul nadd nsub Rnum]; ring.
    - now rewrite HIa by lia.
    - now rewrite HIa by lia.
    - now rewrite HIa by lia.
    - apply R; [lia|]. now rewrite HIa by lia.
    - apply R; [lia|]. now rewrite HIa by lia.
  Qed.
End Stretch.

(** ** units *)
Definition k_a1 : R := FACT3 / (sqrt (2 * ROTCONST) * WAVE ^ 2).
Definition k_a2 : R := FACT4 / (2 * ROTCONST * WAVE ^ 2).

Lemma dunham_intro w B phi3 phi4 a1 a2 : 0 < w -> 0 < B ->
  phi3 = 3 * w * sqrt (2 * B / w) * a1 -> phi4 = 24 * B * a2 -> dunham w B phi3 phi4 a1 a2.
Proof.
  intros W P -> -> q. cbv zeta. assert (S2 : sqrt (2 * B / w) * sqrt (2 * B / w) = 2 * B / w).
  { apply sqrt_sqrt. apply Rlt_le, Rdiv_lt_0_compat; lra. }
  set (s := sqrt (2 * B / w)) in *.
  transitivity (w ^ 2 / (4 * B) * (s * s) * q ^ 2 * (1 + a1 * s * q + a2 * (s * s) * q ^ 2)); [|ring].
  rewrite S2. field. lra.
Qed.
Lemma WAVE_pos : 0 < WAVE.
Proof. unfold WAVE, SQRT_AVN, PI64, CL. cbn [ndiv nmul nlit Rnum]. rewrite !nz_R. lra. Qed.
Lemma FACT3_pos : 0 < FACT3.
Proof. unfold FACT3, SQLAM3, PH, CL. cbn [ndiv nmul nlit Rnum]. rewrite !nz_R. lra. Qed.
Lemma FACT4_pos : 0 < FACT4.
Proof. unfold FACT4, ALAM, PH, CL, AVN, PI64. cbn [ndiv nmul nlit Rnum]. rewrite !nz_R. lra. Qed.
Lemma WAVE2 : WAVE ^ 2 = (10000 * (2453985533779692 / 1000000000000000) / (2 * (314159265358979323846264338327950288 / 100000000000000000000000000000000000) * (299792458 / 100000000))) ^ 2.
Proof. unfold WAVE, SQRT_AVN, PI64, CL. cbn [ndiv nmul nlit Rnum]. rewrite !nz_R. reflexivity. Qed.
Lemma k_a2_bounds : 1 - / 1000000000000000 < k_a2 < 1 + / 1000000000000000.
Proof.
  unfold k_a2. pose proof ROT_pos as P. pose proof WAVE_pos as Q. apply div_bounds.
  - apply Rmult_lt_0_compat; [lra|now apply pow_lt].
  - rewrite ROT_val, WAVE2. unfold FACT4, ALAM, PH, CL, AVN, PI64. cbn [ndiv nmul nlit Rnum]. rewrite !nz_R. lra.
Qed.
Lemma k_a1_bounds : 1 - / 1000000000000000 < k_a1 < 1 + / 1000000000000000.
Proof.
  unfold k_a1. pose proof ROT_pos as P. pose proof WAVE_pos as Q. pose proof FACT3_pos as Q3.
  assert (W2 : 0 < WAVE ^ 2) by now apply pow_lt.
  set (z := FACT3 / WAVE ^ 2). assert (Pz : 0 < z) by now apply Rdiv_lt_0_compat.
  assert (S : 0 < sqrt (2 * ROTCONST)) by (apply sqrt_lt_R0; lra).
  replace (FACT3 / (sqrt (2 * ROTCONST) * WAVE ^ 2)) with (z / sqrt (2 * ROTCONST)) by (unfold z; field; lra).
  assert (Z : z = 1000000 / (1722212503791076 / 10000000000000000 * (1722212503791076 / 10000000000000000) * (1722212503791076 / 10000000000000000) * (6626176 / 1000000) * (299792458 / 100000000)) / WAVE ^ 2).
  { unfold z, FACT3, SQLAM3, PH, CL. cbn [ndiv nmul nlit Rnum]. rewrite !nz_R. reflexivity. }
  rewrite WAVE2 in Z.
  assert (A : z / (1 + / 1000000000000000) < sqrt (2 * ROTCONST)).
  { apply Rsqr_incrst_0; [|rewrite Z; lra|lra]. rewrite Rsqr_sqrt by lra. unfold Rsqr. rewrite Z, ROT_val. lra. }
  assert (B : sqrt (2 * ROTCONST) < z / (1 - / 1000000000000000)).
  { apply Rsqr_incrst_0; [|lra|rewrite Z; lra]. rewrite Rsqr_sqrt by lra. unfold Rsqr. rewrite Z, ROT_val. lra. }
  apply div_bounds; [exact S|]. clear Z. set (y := sqrt (2 * ROTCONST)) in *. clearbody y z. split.
  - apply Rmult_lt_reg_r with (/ (1 - / 1000000000000000)); [apply Rinv_0_lt_compat; lra|].
    replace ((1 - / 1000000000000000) * y * / (1 - / 1000000000000000)) with y by (field; lra). exact B.
  - apply Rmult_lt_reg_r with (/ (1 + / 1000000000000000)); [apply Rinv_0_lt_compat; lra|].
    replace ((1 + / 1000000000000000) * y * / (1 + / 1000000000000000)) with y by (field; lra). exact A.
Qed.

Lemma bond_dunham mu r k2 k3 k4 sg dd p3 p4 :
  let b := ROTCONST / (mu * r ^ 2) in
  let f := WAVE * sqrt (FACT2 * k2 / mu) in
  let a1 := k3 * (r / A0) / (3 * k2) * k_a1 in
  let a2 := k4 * (r / A0) ^ 2 / (12 * k2) * k_a2 in
  0 < mu -> 0 < r -> 0 < k2 -> (sg = 1 \/ sg = -1) -> dd = sg / sqrt mu ->
  p3 = FACT3 * FUNIT3 / sqrt (f * f * f) * (k3 * dd ^ 3) ->
  p4 = FACT4 * FUNIT4 / sqrt (f * f * f * f) * (k4 * dd ^ 4) ->
  dunham f b (sg * p3) p4 a1 a2.
Proof.
    intros b f a1 a2 Pm Pr K Hsg Hd X3 X4. set (la := FACT2 * k2 / mu) in *.
    assert (PL : 0 < la) by (apply Rdiv_lt_0_compat; [apply Rmult_lt_0_compat; [apply F2_pos|exact K]|exact Pm]).
    assert (Pf : 0 < f) by (apply Rmult_lt_0_compat; [apply WAVE_pos|now apply sqrt_lt_R0]).
    assert (Pb : 0 < b) by (apply Rdiv_lt_0_compat; [apply ROT_pos|apply Rmult_lt_0_compat; [exact Pm|now apply pow_lt]]).
    assert (Pmr : 0 < mu * r ^ 2) by (apply Rmult_lt_0_compat; [exact Pm|now apply pow_lt]).
    pose proof ROT_pos as PR. pose proof WAVE_pos as PW.
      assert (PA : 0 < A0) by (unfold A0; cbn [nlit Rnum]; lra).
      assert (F2 : FACT2 = HE / (A0 * A0)) by reflexivity.
      assert (F3 : FUNIT3 = HE / (A0 * A0 * A0)) by reflexivity.
      assert (F4 : FUNIT4 = HE / (A0 * A0 * A0 * A0)) by reflexivity.
      assert (PH' : 0 < HE) by (unfold HE; cbn [nlit Rnum]; lra).
      assert (Ff : f * f = WAVE ^ 2 * (HE * k2 / (A0 * A0 * mu))).
      { unfold f. transitivity (WAVE ^ 2 * (sqrt la * sqrt la)); [unfold la; ring|]. rewrite sqrt_sqrt by lra. unfold la. rewrite F2.
        field. lra. }
      assert (W2 : 0 < WAVE ^ 2) by now apply pow_lt.
      apply dunham_intro; [exact Pf|exact Pb| |].
      - rewrite X3, Hd, F3. unfold a1, k_a1.
        assert (Sf : sqrt (f * f * f) = f * sqrt f).
        { rewrite sqrt_mult_alt by nra. rewrite sqrt_square by lra. reflexivity. }
        assert (Sb : sqrt (2 * b / f) = sqrt (2 * ROTCONST) / (sqrt mu * r * sqrt f)).
        { replace (2 * b / f) with (2 * ROTCONST / (mu * r ^ 2 * f)) by (unfold b; field; repeat split; lra).
          rewrite sqrt_div_alt by (apply Rmult_lt_0_compat; [nra|exact Pf]). rewrite (sqrt_mult_alt (mu * r ^ 2)) by nra.
          rewrite (sqrt_mult_alt mu) by lra. rewrite sqrt_pow2 by lra. reflexivity. }
        rewrite Sf, Sb.
        assert (Sm : 0 < sqrt mu) by now apply sqrt_lt_R0. assert (Em' : mu = sqrt mu * sqrt mu) by (symmetry; apply sqrt_sqrt; lra).
        assert (Sq : 0 < sqrt f) by now apply sqrt_lt_R0.
        assert (SR : 0 < sqrt (2 * ROTCONST)) by (apply sqrt_lt_R0; lra).
        rewrite Em' in Ff. set (u := sqrt mu) in *. set (v := sqrt f) in *. set (y := sqrt (2 * ROTCONST)) in *.
        transitivity (FACT3 * HE * k3 / (A0 * A0 * A0 * (f * f) * v * (u * u * u)) * f); [destruct Hsg as [-> | ->]; field; repeat split; lra|].
        rewrite Ff. clearbody f v u y. field. repeat split; lra.
      - rewrite X4, Hd, F4. unfold a2, k_a2.
        assert (Sf : sqrt (f * f * f * f) = f * f).
        { replace (f * f * f * f) with (f * f * (f * f)) by ring. apply sqrt_square. nra. }
        rewrite Sf. assert (Sm : 0 < sqrt mu) by now apply sqrt_lt_R0. assert (Em' : mu = sqrt mu * sqrt mu) by (symmetry; apply sqrt_sqrt; lra).
        transitivity (FACT4 * HE * k4 / (A0 * A0 * A0 * A0 * (f * f) * (mu * mu))).
        { set (u := sqrt mu) in *. rewrite Em'. clearbody f u. destruct Hsg as [-> | ->]; field; repeat split; lra. }
        rewrite Ff. unfold b. clearbody f. field. repeat split; lra.
Qed.

(** the constants that the run takes from the third and fourth derivatives *)
Lemma force_run N n axes f3x f4x lx w : (0 < n)%nat -> tsym3 (3 * N) f3x -> tsym4 (3 * N) f4x ->
  exists f3l f4l, force3 (3 * N) (rot3rd N (3 * N) axes f3x) lx n w = Some f3l /\
    force4 (3 * N) (rot4th N (3 * N) axes f4x) lx n w = Some f4l /\
    (forall i j k, (i < n)%nat -> (j < n)%nat -> (k < n)%nat ->
       nth (find3 i j k) f3l 0 = cubic_spec (3 * N) (con3 (3 * N) (every_atom axes) f3x) lx w i j k) /\
    (forall i j k l, (i < n)%nat -> (j < n)%nat -> (k < n)%nat -> (l < n)%nat ->
       nth (find4 i j k l) f4l 0 = quartic_spec (3 * N) (con4 (3 * N) (every_atom axes) f4x) lx w i j k l).
Proof.
  intros Hn S3 S4.
  destruct (force3_lemma (3 * N) (rot3rd N (3 * N) axes f3x) lx n w Hn (proj1 (proj2 (rot_sym_lemma N axes)) f3x S3))
    as (f3l & E3 & _ & G3).
  destruct (force4_lemma (3 * N) (rot4th N (3 * N) axes f4x) lx n w Hn (proj2 (proj2 (rot_sym_lemma N axes)) f4x S4))
    as (f4l & E4 & _ & G4).
  exists f3l, f4l. split; [exact E3|]. split; [exact E4|]. split.
  - intros i j k Hi Hj Hk. pose proof (G3 i j k Hi Hj Hk) as G3'. unfold f3qcm_get in G3'. rewrite (nth_error_nth _ _ 0 G3').
    unfold cubic_spec. f_equal. apply con3_g. intros. now apply rot3rd_lemma.
  - intros i j k l Hi Hj Hk Hl. pose proof (G4 i j k l Hi Hj Hk Hl) as G4'. unfold f4qcm_get in G4'. rewrite (nth_error_nth _ _ 0 G4').
    unfold quartic_spec. f_equal. apply con4_g. intros. now apply rot4th_lemma.
Qed.

Lemma obind_some {X Y} (x : X) (k : X -> option Y) : obind (Some x) k = k x.
Proof. reflexivity. Qed.

(** ** the run *)
Section RunDiatomic.
  Context {I : Type}.
  Variables (eig2 : R -> R -> R -> R * R * (R * R))
    (eig : (nat -> nat -> R) -> list R * (nat -> nat -> R))
    (label : (nat -> R * R * R) -> (nat -> nat -> R) -> nat -> R -> option I) (A : I).

  Lemma finish_diatomic (m : molecule R) freq f3l f4l (irreps : list I) V lx o J sg a1 a2 :
    let w := fun i => nth i freq 0 in
    let f3 := fun i j k => nth (find3 i j k) f3l 0 in
    let f4 := fun i j k l => nth (find4 i j k l) f4l 0 in
    let f := nth 0 freq 0 in
    let b := m_rotcon m 1%nat in
    let Y20 := 3 / 2 * b * (a2 - 5 / 4 * a1 ^ 2) in
    let E := dlevel (m_rotcon m) w a1 a2 in
    let al := 6 * b ^ 2 / f * (1 + a1 * k_al) in
    m_rotor m = Diatomic -> m_natom m = 2%nat -> m_nvib m = 1%nat -> length freq = 6%nat ->
    finish eig2 false m freq f3l f4l irreps V lx = Some o -> rs_modes (out_resonances o) = [I1 0%nat] ->
    two_atoms J sg (wila 2 (m_geom m) (m_w m) V) (zmat 2 V) (m_primat m) (m_rotcon m) -> 0 < w 0%nat ->
    dunham f b (sg * f3 0%nat 0%nat 0%nat) (f4 0%nat 0%nat 0%nat 0%nat) a1 a2 ->
    out_lists o = mk_lists [f] [f + 2 * Y20] [E 1 - E 0] irreps /\
    out_zpt o = E 0 /\
    rs_modes (out_resonances o) = [I1 0%nat] /\ rs_coriolis (out_resonances o) = [] /\
    rs_fermi1 (out_resonances o) = [] /\ rs_fermi2 (out_resonances o) = [] /\
    de (out_quartic o) = 4 * b ^ 3 / f ^ 2 * k_de /\
    he (out_sextic o) = 16 * b ^ 5 / f ^ 4 * (3 * k_de ^ 2 + a1 * k_he) /\
    linear_rows (out_rots o) (out_rot_equil o) = [(I1st [0%nat], b + al / 2); (I1st [1%nat], b + al * (3 / 2))].
  Proof.
    intros w f3 f4 f b Y20 E al Hr HN Hn Lf Eo Em TA W D.
    assert (Wf : (fun i => nth i freq (nz 0)) = w) by (unfold w; rewrite nz_R; reflexivity).
    assert (Et : exists t, restst_tables 1 1 [I1 0%nat] = Some t) by (eexists; vm_compute; reflexivity).
    destruct Et as [t Et].
    pose proof (finish_inv eig2 m freq f3l f4l irreps V lx o Eo) as Iv. cbv zeta in Iv.
    rewrite Wf, Hr, HN, Hn, Em, nz_R in Iv. fold f3 f4 in Iv.
    assert (Ers : restst_new Diatomic 1 (zmat 2 V) f3 w = Some (mk_restst [] [] [] [] t [I1 0%nat])).
    { unfold restst_new. cbn [deg_modes obind]. change (deg_modes Diatomic 1 w) with (Some [I1 0%nat]). cbn [obind].
      change (ioff (1 + 1)) with 1%nat. cbn [coriolis fermi1 fermi2 darling obind]. rewrite Et. reflexivity. }
    destruct Iv as (sym & xc & g & e0 & lev & eng & rows & Iq & Irs & Is & Ix & Ip & _ & Ie & Il & Ia & Io & Isx & Iz & Ire & _).
    pose proof (some_eq3 _ _ (eq_trans (eq_sym Ers) Irs)) as Hrs. rewrite <- Hrs in *. cbn [rs_modes rs_fermi1 rs_fermi2 rs_coriolis rs_tables] in *.
    apply some_eq3 in Is. subst sym. cbv iota in Ix. cbn [orb is_diatomic is_spherical_top] in Ia, Io.
    apply some_eq3 in Ix. rewrite !pair_equal_spec in Ix. destruct Ix as [[Ixc Ig] Ie0]. subst xc g e0.
    destruct (de_dunham _ _ _ _ _ _ w TA W) as (q & Hq1 & Hq2 & BX & BY & BZ).
    destruct (he_dunham _ _ _ _ _ _ w f3 f4 a1 a2 TA W D) as (sx & Hs1 & Hs2).
    destruct (levels_dunham _ _ _ _ _ _ w f3 f4 a1 a2 TA W D t Et) as (T1 & T2 & T3).
    destruct (rows_dunham _ _ _ _ _ _ w f3 f4 a1 a2 TA W D t Et) as (rows' & out & R1 & R2 & R3).
    pose proof (funds_dunham _ _ _ _ _ _ w f3 f4 a1 a2 TA W D) as Fu.
    pose proof (some_eq3 _ _ (eq_trans (eq_sym Hq1) Iq)) as Eq. subst q.
    rewrite Lf in Isx. pose proof (some_eq3 _ _ (eq_trans (eq_sym Hs1) Isx)) as Esx. subst sx.
    pose proof (some_eq3 _ _ (eq_trans (eq_sym T2) Ip)) as Elv. subst lev.
    pose proof (some_eq3 _ _ (eq_trans (eq_sym (T3 eig2 _)) Ie)) as Een. subst eng.
    pose proof (some_eq3 _ _ (eq_trans (eq_sym R1) Ia)) as Ero. subst rows'.
    rewrite BX, BY, BZ in Io. pose proof (some_eq3 _ _ (eq_trans (eq_sym R2) Io)) as Eou. subst out.
    assert (L1 : out_lists o = mk_lists [f] [f + 2 * Y20] [E 1 - E 0] irreps).
    { unfold finish_lists in Il. cbv zeta in Il. rewrite Wf in Il. cbn [obind] in Il.
      assert (Ehs : reported_harms 1 freq = Some [f]).
      { unfold f. destruct freq as [|z fr]; [discriminate|]. reflexivity. }
      rewrite Ehs in Il. cbn [obind] in Il. rewrite Fu in Il. fold E in Il.
      change (corrs [I1 0%nat] [E 0; E 1; E 2]) with (Some [E 1 - E 0]) in Il. cbn [obind] in Il.
      exact (eq_sym (some_eq3 _ _ Il)). }
    assert (L2 : out_zpt o = E 0) by exact (eq_sym (some_eq3 _ _ Iz)).
    split; [exact L1|]. split; [exact L2|].
    do 4 (split; [reflexivity|]). split; [exact Hq2|]. split; [exact Hs2|]. rewrite Ire. exact R3.
  Qed.

  Lemma finish_diatomic_named (m : molecule R) freq f3l f4l (irreps : list I) V lx o J sg a1 a2 f b :
    let Y20 := 3 / 2 * b * (a2 - 5 / 4 * a1 ^ 2) in
    let Y00 := b / 8 * (3 * a2 - 7 / 4 * a1 ^ 2) in
    let E v := f * (v + / 2) + Y20 * (v + / 2) ^ 2 + Y00 in
    let al := 6 * b ^ 2 / f * (1 + a1 * k_al) in
    m_rotor m = Diatomic -> m_natom m = 2%nat -> m_nvib m = 1%nat -> length freq = 6%nat ->
    finish eig2 false m freq f3l f4l irreps V lx = Some o -> rs_modes (out_resonances o) = [I1 0%nat] ->
    two_atoms J sg (wila 2 (m_geom m) (m_w m) V) (zmat 2 V) (m_primat m) (m_rotcon m) ->
    nth 0 freq 0 = f -> m_rotcon m 1%nat = b -> 0 < f ->
    dunham f b (sg * nth (find3 0 0 0) f3l 0) (nth (find4 0 0 0 0) f4l 0) a1 a2 ->
    out_lists o = mk_lists [f] [f + 2 * Y20] [E 1 - E 0] irreps /\
    out_zpt o = E 0 /\
    rs_modes (out_resonances o) = [I1 0%nat] /\ rs_coriolis (out_resonances o) = [] /\
    rs_fermi1 (out_resonances o) = [] /\ rs_fermi2 (out_resonances o) = [] /\
    de (out_quartic o) = 4 * b ^ 3 / f ^ 2 * k_de /\
    he (out_sextic o) = 16 * b ^ 5 / f ^ 4 * (3 * k_de ^ 2 + a1 * k_he) /\
    linear_rows (out_rots o) (out_rot_equil o) = [(I1st [0%nat], b + al / 2); (I1st [1%nat], b + al * (3 / 2))].
  Proof.
    intros Y20 Y00 E al Hr HN Hn Lf Eo Em TA Ef Eb Pf D. subst f b.
    exact (finish_diatomic m freq f3l f4l irreps V lx o J sg a1 a2 Hr HN Hn Lf Eo Em TA Pf D).
  Qed.

  Lemma run_diatomic_lemma m axes iatom order buddy fc2 f3x f4x x k2 k3 k4 :
    let mu := reduced (m_w m) in
    let r := Rabs (x 1%nat - x 0%nat) in
    let g2 := con2 6 (every_atom axes) fc2 in
    let g3 := con3 6 (every_atom axes) f3x in
    let g4 := con4 6 (every_atom axes) f4x in
    let b := ROTCONST / (mu * r ^ 2) in
    let f := WAVE * sqrt (FACT2 * k2 / mu) in
    let a1 := k3 * (r / A0) / (3 * k2) * k_a1 in
    let a2 := k4 * (r / A0) ^ 2 / (12 * k2) * k_a2 in
    let Y20 := 3 / 2 * b * (a2 - 5 / 4 * a1 ^ 2) in
    let Y00 := b / 8 * (3 * a2 - 7 / 4 * a1 ^ 2) in
    let E v := f * (v + / 2) + Y20 * (v + / 2) ^ 2 + Y00 in
    let al := 6 * b ^ 2 / f * (1 + a1 * k_al) in
    m_rotor m = Diatomic -> m_natom m = 2%nat -> m_nvib m = 1%nat ->
    0 < m_w m 0%nat -> 0 < m_w m 1%nat ->
    (forall q, (q < 2)%nat -> m_geom m q = (x q, 0, 0)) -> x 0%nat <> x 1%nat ->
    m_w m 0%nat * x 0%nat + m_w m 1%nat * x 1%nat = 0 ->
    (forall a, (a < 3)%nat -> m_primat m a = inertia 2 (m_w m) (m_geom m) a a) ->
    (forall a, (a < 3)%nat -> m_rotcon m a = rot_const (m_primat m a)) ->
    / 100 < mu * r ^ 2 ->
    sym2 6 fc2 -> tsym3 6 f3x -> tsym4 6 f4x ->
    bond_field x g2 g3 g4 k2 k3 k4 -> 0 < k2 ->
    solves 6 eig (secular 2 axes fc2 (m_w m)) ->
    exists fuel0, forall fuel, (fuel0 <= fuel)%nat ->
    exists o irreps,
      run eig2 eig label A fuel buddy false m axes iatom order (Quartic fc2 f3x f4x) = Some (FullResult o) /\
      out_lists o = mk_lists [f] [f + 2 * Y20] [E 1 - E 0] irreps /\ length irreps = 1%nat /\
      out_zpt o = E 0 /\
      rs_modes (out_resonances o) = [I1 0%nat] /\ rs_coriolis (out_resonances o) = [] /\
      rs_fermi1 (out_resonances o) = [] /\ rs_fermi2 (out_resonances o) = [] /\
      de (out_quartic o) = 4 * b ^ 3 / f ^ 2 * k_de /\
      he (out_sextic o) = 16 * b ^ 5 / f ^ 4 * (3 * k_de ^ 2 + a1 * k_he) /\
      linear_rows (out_rots o) (out_rot_equil o) = [(I1st [0%nat], b + al / 2); (I1st [1%nat], b + al * (3 / 2))].
  Proof.
    intros mu r g2 g3 g4 b f a1 a2 Y20 Y00 E al Hr HN Hn P0 P1 Hg Nx Cm HI HB HJ S2 S3 S4 (Z & Q2 & Q3 & Q4) K Sv.
    destruct labels_end_R as (f0 & Hf0). exists f0. intros fuel Hfu.
    assert (Hw : forall q, (q < 2)%nat -> 0 < m_w m q) by (intros [|[|q]] Hq; (assumption || lia)).
    destruct (harmonic_run 2 axes fc2 (m_w m) eig Sv) as (h & V & Eh & ES & So).
    assert (Sg : forall a c, (a < 6)%nat -> (c < 6)%nat -> g2 a c = g2 c a) by (intros a c Ha Hc; now apply con2_sym).
    destruct (top_value x (m_w m) g2 (secular 2 axes fc2 (m_w m)) k2 h V Nx P0 P1 K Z Q2 (Sg 0%nat 3%nat ltac:(lia) ltac:(lia)))
      as (h' & Hh & V1 & V2 & V4 & V5 & T & Nm); try assumption.
    { intros a c Ha Hc. now apply (secular_R 2). }
    fold mu in Hh. set (la := FACT2 * k2 / mu) in *.
    assert (PL : 0 < la) by (apply (la_pos (m_w m) k2); assumption).
    set (freq := map to_wavenumber h) in *.
    set (w := fun i => nth i freq 0).
    assert (W0 : w 0%nat = f).
    { unfold w, freq. rewrite Hh. cbn [map nth]. unfold to_wavenumber. cbn [nltb Rnum]. rewrite !nz_R.
      replace (Rltb la 0) with false; [reflexivity|]. symmetry. apply Rltb_false. lra. }
    pose proof WAVE_pos as PW. assert (Pf : 0 < f) by (apply Rmult_lt_0_compat; [exact PW|now apply sqrt_lt_R0]).
    assert (W : 0 < w 0%nat) by (rewrite W0; exact Pf).
    assert (Wf : (fun i => nth i freq (nz 0)) = w) by (unfold w; rewrite nz_R; reflexivity).
    assert (Lf : length freq = 6%nat) by (unfold freq; rewrite map_length; apply ES).
    set (lx := make_lx 6 (make_sqm (m_w m)) V).
    assert (ML : mass_weighted 2 (m_w m) V lx) by apply make_lx_weighted.
    destruct (d_sign x (m_w m) V Nx P0 P1 T Nm) as (sg & Hsg & Hd). fold mu in Hd.
    pose proof (line_two x (m_w m) V Nx P0 P1 Cm V1 V2 V4 V5 T (m_geom m) (m_primat m) (m_rotcon m) sg Hg HJ Hsg Hd HI HB) as TA.
    fold mu r in TA.
    destruct (run_prefix eig2 eig label A fuel buddy false m axes iatom order (Quartic fc2 f3x f4x)
      freq V V lx) as (irreps & Li & _ & Er).
    { rewrite Hr; discriminate. } { rewrite Hr; discriminate. } { now apply Hf0. } { rewrite HN. exact Eh. }
    { unfold aligned. rewrite Hr, HN. now split. }
    rewrite HN, Hn, Wf in Er.
    destruct (force_run 2 1 axes f3x f4x lx w ltac:(lia) S3 S4) as (f3l & f4l & E3 & E4 & G3 & G4).
    rewrite E3, obind_some in Er. cbv beta in Er. rewrite E4, obind_some in Er. cbv beta in Er.
    destruct (finish_total_lemma eig2 m freq f3l f4l irreps V lx [I1 0%nat]) as (o & Eo & Em & _).
    { rewrite Hr; discriminate. } { rewrite Hr; discriminate. } { rewrite Hr, Hn. reflexivity. } { rewrite Hn. constructor; constructor. }
    { apply comparable_R. } { rewrite Hn, Lf. lia. } { rewrite HN. lia. } { rewrite Hr. discriminate. }
    rewrite Eo, obind_some in Er. exists o, irreps. split; [exact Er|].
    rewrite HN, Hn in Li. cbn in Li.
    set (f3 := fun i j k => nth (find3 i j k) f3l 0). set (f4 := fun i j k l => nth (find4 i j k l) f4l 0).
    (* the anharmonic constants *)
    set (dd := dir x * (V 3%nat 0%nat / sqrt (m_w m 1%nat) - V 0%nat 0%nat / sqrt (m_w m 0%nat))) in *.
    assert (L : forall a, (a < 6)%nat -> lx a 0%nat = V a 0%nat / sqrt (m_w m (a / 3)%nat)) by (intros a Ha; apply ML; lia).
    assert (Lz : lx 1%nat 0%nat = 0 /\ lx 2%nat 0%nat = 0 /\ lx 4%nat 0%nat = 0 /\ lx 5%nat 0%nat = 0).
    { rewrite !L, V1, V2, V4, V5 by lia. unfold Rdiv. repeat split; ring. }
    destruct Lz as (L1 & L2 & L4 & L5).
    assert (Gr : growth x (fun i => lx (3 * i)%nat 0%nat) = dd).
    { unfold growth, dd, dir. rewrite !L by lia. reflexivity. }
    assert (X3 : f3 0%nat 0%nat 0%nat = FACT3 * FUNIT3 / sqrt (f * f * f) * (k3 * dd ^ 3)).
    { unfold f3. rewrite G3 by lia. unfold cubic_spec. rewrite W0. f_equal. rewrite <- Gr, <- Q3.
      exact (line3 lx L1 L2 L4 L5 g3). }
    assert (X4 : f4 0%nat 0%nat 0%nat 0%nat = FACT4 * FUNIT4 / sqrt (f * f * f * f) * (k4 * dd ^ 4)).
    { unfold f4. rewrite G4 by lia. unfold quartic_spec. rewrite W0. f_equal. rewrite <- Gr, <- Q4.
      exact (line4 lx L1 L2 L4 L5 g4). }
    assert (Pm : 0 < mu) by (apply mu_pos; assumption).
    assert (Pr : 0 < r) by (apply Rabs_pos_lt; lra).
    assert (Eb : m_rotcon m 1%nat = b) by (exact (ta_B1 _ _ _ _ _ _ TA)).
    assert (Pb : 0 < b) by (apply Rdiv_lt_0_compat; [apply ROT_pos|lra]).
    pose proof (bond_dunham mu r k2 k3 k4 sg dd _ _ Pm Pr K Hsg Hd X3 X4) as D. fold b f a1 a2 in D. clear X3 X4 Gr.
    pose proof (finish_diatomic_named m freq f3l f4l irreps V lx o (mu * r ^ 2) sg a1 a2 f b Hr HN Hn Lf Eo Em TA W0 Eb Pf D) as O.
    destruct O as (O1 & O2). split; [exact O1|]. split; [exact Li|]. exact O2.
  Qed.
End RunDiatomic.

Lemma run_diatomic_full :
  exists k1 k2 k3 k4 k5,
  1000236 / 1000000 < k1 < 1000237 / 1000000 /\ 1 - / 1000000000000000 < k2 < 1 /\
  10000159 / 10000000 < k3 < 1000016 / 1000000 /\
  1 - / 1000000000000000 < k4 < 1 + / 1000000000000000 /\
  1 - / 1000000000000000 < k5 < 1 + / 1000000000000000 /\
  forall (I : Type) eig2 eig (label : (nat -> R * R * R) -> (nat -> nat -> R) -> nat -> R -> option I) (A : I) (m : molecule R)
    axes iatom order buddy fc2 f3x f4x x p2 p3 p4,
  let mu := reduced (m_w m) in
  let r := Rabs (x 1%nat - x 0%nat) in
  let g2 := con2 6 (every_atom axes) fc2 in
  let g3 := con3 6 (every_atom axes) f3x in
  let g4 := con4 6 (every_atom axes) f4x in
  let b := ROTCONST / (mu * r ^ 2) in
  let f := WAVE * sqrt (FACT2 * p2 / mu) in
  let a1 := p3 * (r / A0) / (3 * p2) * k4 in
  let a2 := p4 * (r / A0) ^ 2 / (12 * p2) * k5 in
  let Y20 := 3 / 2 * b * (a2 - 5 / 4 * a1 ^ 2) in
  let Y00 := b / 8 * (3 * a2 - 7 / 4 * a1 ^ 2) in
  let E v := f * (v + / 2) + Y20 * (v + / 2) ^ 2 + Y00 in
  let al := 6 * b ^ 2 / f * (1 + a1 * k3) in
  m_rotor m = Diatomic -> m_natom m = 2%nat -> m_nvib m = 1%nat ->
  0 < m_w m 0%nat -> 0 < m_w m 1%nat ->
  (forall q, (q < 2)%nat -> m_geom m q = (x q, 0, 0)) -> x 0%nat <> x 1%nat ->
  m_w m 0%nat * x 0%nat + m_w m 1%nat * x 1%nat = 0 ->
  (forall a, (a < 3)%nat -> m_primat m a = inertia 2 (m_w m) (m_geom m) a a) ->
  (forall a, (a < 3)%nat -> m_rotcon m a = rot_const (m_primat m a)) ->
  / 100 < mu * r ^ 2 ->
  sym2 6 fc2 -> tsym3 6 f3x -> tsym4 6 f4x ->
  bond_field x g2 g3 g4 p2 p3 p4 -> 0 < p2 ->
  solves 6 eig (secular 2 axes fc2 (m_w m)) ->
  exists fuel0, forall fuel, (fuel0 <= fuel)%nat ->
  exists o irreps,
    run eig2 eig label A fuel buddy false m axes iatom order (Quartic fc2 f3x f4x) = Some (FullResult o) /\
    out_lists o = mk_lists [f] [f + 2 * Y20] [E 1 - E 0] irreps /\ length irreps = 1%nat /\
    out_zpt o = E 0 /\
    rs_modes (out_resonances o) = [I1 0%nat] /\ rs_coriolis (out_resonances o) = [] /\
    rs_fermi1 (out_resonances o) = [] /\ rs_fermi2 (out_resonances o) = [] /\
    de (out_quartic o) = 4 * b ^ 3 / f ^ 2 * k1 /\
    he (out_sextic o) = 16 * b ^ 5 / f ^ 4 * (3 * k1 ^ 2 + a1 * k2) /\
    linear_rows (out_rots o) (out_rot_equil o) = [(I1st [0%nat], b + al / 2); (I1st [1%nat], b + al * (3 / 2))].
Proof.
  exists k_de, k_he, k_al, k_a1, k_a2. split; [exact k_de_bounds|]. split; [exact k_he_bounds|]. split; [exact k_al_bounds|].
  split; [exact k_a1_bounds|]. split; [exact k_a2_bounds|]. intros. now apply run_diatomic_lemma.
Qed.
