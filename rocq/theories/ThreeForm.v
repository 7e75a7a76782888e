(** Molecules with a threefold axis and a mirror plane: what the symmetry says about the force
    constants, the Coriolis constants and the derivatives of the inertia in normal coordinates. *)
From Coq Require Import Reals Lra List Arith Lia Bool Permutation.
From Verif Require Import Num Loops ListFacts AnharmFacts Transform TransformFacts RotFacts HarmFacts ModeFacts DistortFacts GeomFacts ZeroFacts
  Modes ResFacts VibRot VibRotFacts SymFacts SymPerturb RunSecond SymExact SymVib SameRun Threefold.
Import ListNotations.
Open Scope nat_scope.
Local Open Scope R_scope.

(** the columns of [L] under the turn [P] and the mirror [M]: single modes do not change; of a pair
    the first partner is even under the mirror and the second one odd, and the turn by 120 degrees
    turns them into each other, with the sine [h] *)
Record behaves (n : nat) (P M : nat -> nat -> R) (h : R) (ns : list nat) (ts : list (nat * nat)) (L : nat -> nat -> R) : Prop := {
  bh_single : forall m, In m ns -> forall b, (b < n)%nat ->
    act n P (fun a => L a m) b = L b m /\ act n M (fun a => L a m) b = L b m;
  bh_pair : forall i j, In (i, j) ts -> forall b, (b < n)%nat ->
    act n P (fun a => L a i) b = - (1 / 2) * L b i + h * L b j /\
    act n P (fun a => L a j) b = - h * L b i + - (1 / 2) * L b j /\
    act n M (fun a => L a i) b = L b i /\ act n M (fun a => L a j) b = - L b j
}.

(** ** expansion of transformed force constants *)
Definition comb (n : nat) (U L : nat -> nat -> R) (a : nat) (c : R) (p : nat) (d : R) (q : nat) : Prop :=
  forall r, (r < n)%nat -> U r a = c * L r p + d * L r q.
Lemma con1_lin n U L g a c p d q : comb n U L a c p d q -> con1 n U g a = c * con1 n L g p + d * con1 n L g q.
Proof. intros E. unfold con1. rewrite <- !Rsum_scal, <- Rsum_plus. apply sum_g. intros r Hr. rewrite E by exact Hr. ring. Qed.
Lemma con1_plus n U g g' a c d : con1 n U (fun r => c * g r + d * g' r) a = c * con1 n U g a + d * con1 n U g' a.
Proof. unfold con1. rewrite <- !Rsum_scal, <- Rsum_plus. apply sum_g. intros r Hr. ring. Qed.
Lemma con2_lin n U L f a c p d q a' c' p' d' q' : comb n U L a c p d q -> comb n U L a' c' p' d' q' ->
  con2 n U f a a' = c * c' * con2 n L f p p' + c * d' * con2 n L f p q' + d * c' * con2 n L f q p' + d * d' * con2 n L f q q'.
Proof.
  intros E E'. unfold con2. rewrite (con1_lin n U L _ a c p d q E).
  rewrite !(con1_g n L (fun r => con1 n U (fun s => f r s) a') (fun r => c' * con1 n L (fun s => f r s) p' + d' * con1 n L (fun s => f r s) q'))
    by (intros; now apply con1_lin).
  rewrite !con1_plus. ring.
Qed.
Lemma con3_lin n U L f a c p d q a' c' p' d' q' a2 c2 p2 d2 q2 :
  comb n U L a c p d q -> comb n U L a' c' p' d' q' -> comb n U L a2 c2 p2 d2 q2 ->
  con3 n U f a a' a2 =
    c * (c' * c2 * con3 n L f p p' p2 + c' * d2 * con3 n L f p p' q2 + d' * c2 * con3 n L f p q' p2 + d' * d2 * con3 n L f p q' q2)
    + d * (c' * c2 * con3 n L f q p' p2 + c' * d2 * con3 n L f q p' q2 + d' * c2 * con3 n L f q q' p2 + d' * d2 * con3 n L f q q' q2).
Proof.
  intros E E' E2. unfold con3. rewrite (con1_lin n U L _ a c p d q E).
  rewrite !(con1_g n L (fun r => con2 n U (fun s t => f r s t) a' a2)
    (fun r => 1 * (c' * c2 * con2 n L (fun s t => f r s t) p' p2 + c' * d2 * con2 n L (fun s t => f r s t) p' q2)
      + 1 * (d' * c2 * con2 n L (fun s t => f r s t) q' p2 + d' * d2 * con2 n L (fun s t => f r s t) q' q2)))
    by (intros; rewrite (con2_lin n U L _ a' c' p' d' q' a2 c2 p2 d2 q2 E' E2); ring).
  rewrite !(con1_plus n L (fun r => _ * _ + _ * _)), !con1_plus. ring.
Qed.
Lemma con4_lin n U L f a c p d q a' c' p' d' q' a2 c2 p2 d2 q2 a3 c3 p3 d3 q3 :
  comb n U L a c p d q -> comb n U L a' c' p' d' q' -> comb n U L a2 c2 p2 d2 q2 -> comb n U L a3 c3 p3 d3 q3 ->
  con4 n U f a a' a2 a3 =
    c * (c' * (c2 * c3 * con4 n L f p p' p2 p3 + c2 * d3 * con4 n L f p p' p2 q3 + d2 * c3 * con4 n L f p p' q2 p3 + d2 * d3 * con4 n L f p p' q2 q3)
       + d' * (c2 * c3 * con4 n L f p q' p2 p3 + c2 * d3 * con4 n L f p q' p2 q3 + d2 * c3 * con4 n L f p q' q2 p3 + d2 * d3 * con4 n L f p q' q2 q3))
    + d * (c' * (c2 * c3 * con4 n L f q p' p2 p3 + c2 * d3 * con4 n L f q p' p2 q3 + d2 * c3 * con4 n L f q p' q2 p3 + d2 * d3 * con4 n L f q p' q2 q3)
       + d' * (c2 * c3 * con4 n L f q q' p2 p3 + c2 * d3 * con4 n L f q q' p2 q3 + d2 * c3 * con4 n L f q q' q2 p3 + d2 * d3 * con4 n L f q q' q2 q3)).
Proof.
  intros E E' E2 E3. unfold con4. rewrite (con1_lin n U L _ a c p d q E).
  rewrite !(con1_g n L (fun r => con3 n U (fun s t u => f r s t u) a' a2 a3)
    (fun r => c' * (1 * (c2 * c3 * con3 n L (fun s t u => f r s t u) p' p2 p3 + c2 * d3 * con3 n L (fun s t u => f r s t u) p' p2 q3)
                  + 1 * (d2 * c3 * con3 n L (fun s t u => f r s t u) p' q2 p3 + d2 * d3 * con3 n L (fun s t u => f r s t u) p' q2 q3))
            + d' * (1 * (c2 * c3 * con3 n L (fun s t u => f r s t u) q' p2 p3 + c2 * d3 * con3 n L (fun s t u => f r s t u) q' p2 q3)
                  + 1 * (d2 * c3 * con3 n L (fun s t u => f r s t u) q' q2 p3 + d2 * d3 * con3 n L (fun s t u => f r s t u) q' q2 q3))))
    by (intros; rewrite (con3_lin n U L _ a' c' p' d' q' a2 c2 p2 d2 q2 a3 c3 p3 d3 q3 E' E2 E3); ring).
  rewrite !(con1_plus n L (fun r => 1 * (_ + _) + 1 * (_ + _))), !(con1_plus n L (fun r => _ * _ + _ * _)), !con1_plus. ring.
Qed.

Section Forms.
  Variables (n : nat) (P M : nat -> nat -> R) (h : R) (ns : list nat) (ts : list (nat * nat)) (L : nat -> nat -> R)
    (f3 : nat -> nat -> nat -> R) (f4 : nat -> nat -> nat -> nat -> R).
  Hypothesis Hh : h * h = 3 / 4.
  Hypothesis BH : behaves n P M h ns ts L.
  Hypothesis P3 : same3 n P f3.
  Hypothesis M3 : same3 n M f3.
  Hypothesis P4 : same4 n P f4.
  Hypothesis M4 : same4 n M f4.
  Let K3 := con3 n L f3.
  Let K4 := con4 n L f4.

  Lemma inv3 Q : same3 n Q f3 -> forall i j k, K3 i j k = con3 n (mprod n Q L) f3 i j k.
  Proof. intros S i j k. rewrite <- con3_comp. symmetry. apply con3_g. intros. now apply S. Qed.
  Lemma inv4 Q : same4 n Q f4 -> forall i j k l, K4 i j k l = con4 n (mprod n Q L) f4 i j k l.
  Proof. intros S i j k l. rewrite <- con4_comp. symmetry. apply con4_g. intros. now apply S. Qed.

  Lemma Ps m : In m ns -> comb n (mprod n P L) L m 1 m 0 m.
  Proof. intros I r Hr. change (mprod n P L r m) with (act n P (fun a => L a m) r). rewrite (proj1 (bh_single _ _ _ _ _ _ _ BH m I r Hr)). ring. Qed.
  Lemma Ms m : In m ns -> comb n (mprod n M L) L m 1 m 0 m.
  Proof. intros I r Hr. change (mprod n M L r m) with (act n M (fun a => L a m) r). rewrite (proj2 (bh_single _ _ _ _ _ _ _ BH m I r Hr)). ring. Qed.
  Lemma Pa a b : In (a, b) ts -> comb n (mprod n P L) L a (- (1 / 2)) a h b.
  Proof. intros I r Hr. exact (proj1 (bh_pair _ _ _ _ _ _ _ BH a b I r Hr)). Qed.
  Lemma Pb a b : In (a, b) ts -> comb n (mprod n P L) L b (- h) a (- (1 / 2)) b.
  Proof. intros I r Hr. exact (proj1 (proj2 (bh_pair _ _ _ _ _ _ _ BH a b I r Hr))). Qed.
  Lemma Ma a b : In (a, b) ts -> comb n (mprod n M L) L a 1 a 0 a.
  Proof. intros I r Hr. rewrite Rmult_0_l, Rplus_0_r, Rmult_1_l. exact (proj1 (proj2 (proj2 (bh_pair _ _ _ _ _ _ _ BH a b I r Hr)))). Qed.
  Lemma Mb a b : In (a, b) ts -> comb n (mprod n M L) L b (-1) b 0 b.
  Proof. intros I r Hr. replace (-1 * L r b + 0 * L r b) with (- L r b) by ring. exact (proj2 (proj2 (proj2 (bh_pair _ _ _ _ _ _ _ BH a b I r Hr)))). Qed.

  (** parity *)
  Definition par (i : nat) (e : R) : Prop := comb n (mprod n M L) L i e i 0 i.
  Lemma odd3 i j k ei ej ek : par i ei -> par j ej -> par k ek -> ei * ej * ek = -1 -> K3 i j k = 0.
  Proof.
    intros Hi Hj Hk E. pose proof (inv3 M M3 i j k) as I. rewrite (con3_lin n _ L f3 _ _ _ _ _ _ _ _ _ _ _ _ _ _ _ Hi Hj Hk) in I.
    fold K3 in I. assert (K3 i j k = ei * ej * ek * K3 i j k) by lra. rewrite E in H. lra.
  Qed.
  Lemma odd4 i j k l ei ej ek el : par i ei -> par j ej -> par k ek -> par l el -> ei * ej * ek * el = -1 -> K4 i j k l = 0.
  Proof.
    intros Hi Hj Hk Hl E. pose proof (inv4 M M4 i j k l) as I.
    rewrite (con4_lin n _ L f4 _ _ _ _ _ _ _ _ _ _ _ _ _ _ _ _ _ _ _ _ Hi Hj Hk Hl) in I.
    fold K4 in I. assert (K4 i j k l = ei * ej * ek * el * K4 i j k l) by lra. rewrite E in H. lra.
  Qed.

  Lemma two_zero (s x y : R) : s * s = 3 / 4 -> x = - (1 / 2) * x + s * y -> y = - s * x + - (1 / 2) * y -> x = 0 /\ y = 0.
  Proof.
    intros Hs E1 E2. assert (A : 3 / 2 * x = s * y) by lra. assert (B : 3 / 2 * y = - s * x) by lra.
    assert (D : 3 / 2 * (3 / 2 * x) = - (s * s) * x) by (rewrite A; transitivity (s * (3 / 2 * y)); [lra|rewrite B; ring]).
    rewrite Hs in D. assert (X0 : x = 0) by lra. split; [exact X0|]. rewrite X0 in B. lra.
  Qed.

  Lemma cubic_nn m m' a b : In m ns -> In m' ns -> In (a, b) ts -> K3 m m' a = 0 /\ K3 m m' b = 0.
  Proof.
    intros Hm Hm' I. apply (two_zero h _ _ Hh).
    - rewrite (inv3 P P3 m m' a) at 1. rewrite (con3_lin n _ L f3 _ _ _ _ _ _ _ _ _ _ _ _ _ _ _ (Ps m Hm) (Ps m' Hm') (Pa a b I)). fold K3. ring.
    - rewrite (inv3 P P3 m m' b) at 1. rewrite (con3_lin n _ L f3 _ _ _ _ _ _ _ _ _ _ _ _ _ _ _ (Ps m Hm) (Ps m' Hm') (Pb a b I)). fold K3. ring.
  Qed.
  Lemma hh x : h * h * x = 3 / 4 * x.
  Proof. now rewrite Hh. Qed.
  Lemma cubic_n m a b c d : In m ns -> In (a, b) ts -> In (c, d) ts -> K3 m a c = K3 m b d /\ K3 m a d = 0.
  Proof.
    intros Hm I J.
    assert (Z1 : K3 m a d = 0) by (apply (odd3 m a d 1 1 (-1)); [now apply Ms|eapply Ma; eassumption|eapply Mb; eassumption|lra]).
    assert (Z2 : K3 m b c = 0) by (apply (odd3 m b c 1 (-1) 1); [now apply Ms|eapply Mb; eassumption|eapply Ma; eassumption|lra]).
    split; [|exact Z1].
    pose proof (inv3 P P3 m a c) as E. rewrite (con3_lin n _ L f3 _ _ _ _ _ _ _ _ _ _ _ _ _ _ _ (Ps m Hm) (Pa a b I) (Pa c d J)) in E.
    fold K3 in E. rewrite Z1, Z2 in E. pose proof (hh (K3 m b d)). lra.
  Qed.
  Lemma cubic_d a b c d e g : In (a, b) ts -> In (c, d) ts -> In (e, g) ts ->
    K3 a d g = - K3 a c e /\ K3 a c g = 0 /\ K3 b d g = 0.
  Proof.
    intros I J K.
    pose proof (Ma a b I) as pa. pose proof (Mb a b I) as pb. pose proof (Ma c d J) as pc. pose proof (Mb c d J) as pd.
    pose proof (Ma e g K) as pe. pose proof (Mb e g K) as pg.
    assert (Z1 : K3 a c g = 0) by (apply (odd3 _ _ _ _ _ _ pa pc pg); lra).
    assert (Z2 : K3 a d e = 0) by (apply (odd3 _ _ _ _ _ _ pa pd pe); lra).
    assert (Z3 : K3 b c e = 0) by (apply (odd3 _ _ _ _ _ _ pb pc pe); lra).
    assert (Z4 : K3 b d g = 0) by (apply (odd3 _ _ _ _ _ _ pb pd pg); lra).
    split; [|now split].
    pose proof (inv3 P P3 a c e) as E. rewrite (con3_lin n _ L f3 _ _ _ _ _ _ _ _ _ _ _ _ _ _ _ (Pa a b I) (Pa c d J) (Pa e g K)) in E.
    pose proof (inv3 P P3 a d g) as F. rewrite (con3_lin n _ L f3 _ _ _ _ _ _ _ _ _ _ _ _ _ _ _ (Pa a b I) (Pb c d J) (Pb e g K)) in F.
    fold K3 in E, F. rewrite Z1, Z2, Z3, Z4 in E, F.
    pose proof (hh (K3 a d g)). pose proof (hh (K3 a c e)). pose proof (hh (K3 b c g)). pose proof (hh (K3 b d e)). lra.
  Qed.

  Lemma quartic_n m a b : In m ns -> In (a, b) ts -> K4 m m a a = K4 m m b b.
  Proof.
    intros Hm I. pose proof (Ms m Hm) as pm. pose proof (Ma a b I) as pa. pose proof (Mb a b I) as pb.
    assert (Z1 : K4 m m a b = 0) by (apply (odd4 _ _ _ _ _ _ _ _ pm pm pa pb); lra).
    assert (Z2 : K4 m m b a = 0) by (apply (odd4 _ _ _ _ _ _ _ _ pm pm pb pa); lra).
    pose proof (inv4 P P4 m m a a) as E.
    rewrite (con4_lin n _ L f4 _ _ _ _ _ _ _ _ _ _ _ _ _ _ _ _ _ _ _ _ (Ps m Hm) (Ps m Hm) (Pa a b I) (Pa a b I)) in E.
    fold K4 in E. rewrite Z1, Z2 in E. pose proof (hh (K4 m m b b)). lra.
  Qed.

  Hypothesis S4a : forall i j k l, K4 i j k l = K4 j i k l.
  Hypothesis S4b : forall i j k l, K4 i j k l = K4 i j l k.
  Lemma hhhh x : h * h * (h * h) * x = 9 / 16 * x.
  Proof. rewrite Hh. lra. Qed.
  Lemma quartic_dd a b c d : In (a, b) ts -> In (c, d) ts ->
    K4 a a c c = K4 b b d d /\ K4 a a d d = K4 b b c c /\
    4 * K4 a b c d = 2 * (K4 a a c c - K4 a a d d).
  Proof.
    intros I J. pose proof (Ma a b I) as pa. pose proof (Mb a b I) as pb. pose proof (Ma c d J) as pc. pose proof (Mb c d J) as pd.
    assert (Z1 : K4 a b c c = 0) by (apply (odd4 _ _ _ _ _ _ _ _ pa pb pc pc); lra).
    assert (Z2 : K4 a b d d = 0) by (apply (odd4 _ _ _ _ _ _ _ _ pa pb pd pd); lra).
    assert (Z3 : K4 a a c d = 0) by (apply (odd4 _ _ _ _ _ _ _ _ pa pa pc pd); lra).
    assert (Z4 : K4 b b c d = 0) by (apply (odd4 _ _ _ _ _ _ _ _ pb pb pc pd); lra).
    pose proof (inv4 P P4 a a c c) as E1.
    rewrite (con4_lin n _ L f4 _ _ _ _ _ _ _ _ _ _ _ _ _ _ _ _ _ _ _ _ (Pa a b I) (Pa a b I) (Pa c d J) (Pa c d J)) in E1.
    pose proof (inv4 P P4 b b d d) as E2.
    rewrite (con4_lin n _ L f4 _ _ _ _ _ _ _ _ _ _ _ _ _ _ _ _ _ _ _ _ (Pb a b I) (Pb a b I) (Pb c d J) (Pb c d J)) in E2.
    pose proof (inv4 P P4 a a d d) as E3.
    rewrite (con4_lin n _ L f4 _ _ _ _ _ _ _ _ _ _ _ _ _ _ _ _ _ _ _ _ (Pa a b I) (Pa a b I) (Pb c d J) (Pb c d J)) in E3.
    pose proof (inv4 P P4 b b c c) as E4.
    rewrite (con4_lin n _ L f4 _ _ _ _ _ _ _ _ _ _ _ _ _ _ _ _ _ _ _ _ (Pb a b I) (Pb a b I) (Pa c d J) (Pa c d J)) in E4.
    fold K4 in E1, E2, E3, E4.
    assert (Y1 : K4 b a c d = K4 a b c d) by apply S4a. assert (Y2 : K4 a b d c = K4 a b c d) by apply S4b.
    assert (Y3 : K4 b a d c = K4 a b c d) by (rewrite S4a; apply S4b).
    assert (Y4 : K4 b a c c = 0) by (rewrite S4a; exact Z1). assert (Y5 : K4 b a d d = 0) by (rewrite S4a; exact Z2).
    assert (Y6 : K4 a a d c = 0) by (rewrite S4b; exact Z3). assert (Y7 : K4 b b d c = 0) by (rewrite S4b; exact Z4).
    rewrite Y1, Y2, Y3, Y4, Y5, Y6, Y7, Z1, Z2, Z3, Z4 in E1, E2, E3, E4.
    pose proof (hh (K4 a a c c)). pose proof (hh (K4 a a d d)). pose proof (hh (K4 b b c c)). pose proof (hh (K4 b b d d)). pose proof (hh (K4 a b c d)).
    pose proof (hhhh (K4 a a c c)). pose proof (hhhh (K4 a a d d)). pose proof (hhhh (K4 b b c c)). pose proof (hhhh (K4 b b d d)). pose proof (hhhh (K4 a b c d)).
    repeat split; lra.
  Qed.
  Hypothesis S4c : forall i j k l, K4 i j k l = K4 i k j l.
  Lemma quartic_d a b : In (a, b) ts -> K4 a a a a = 3 * K4 a a b b.
  Proof.
    intros I. destruct (quartic_dd a b a b I I) as (E1 & E2 & E3). rewrite (S4c a b a b) in E3. lra.
  Qed.
End Forms.

(** ** Coriolis constants *)
Definition cross (N : nat) (u v : nat -> R) (x : nat) : R :=
  Sum N (fun q => match x with
    | 0%nat => u (3 * q + 1)%nat * v (3 * q + 2)%nat - u (3 * q + 2)%nat * v (3 * q + 1)%nat
    | 1%nat => u (3 * q + 2)%nat * v (3 * q)%nat - u (3 * q)%nat * v (3 * q + 2)%nat
    | _ => u (3 * q)%nat * v (3 * q + 1)%nat - u (3 * q + 1)%nat * v (3 * q)%nat
    end).
Lemma cross_ext N u v u' v' x : (forall a, (a < 3 * N)%nat -> u a = u' a) -> (forall a, (a < 3 * N)%nat -> v a = v' a) ->
  cross N u v x = cross N u' v' x.
Proof.
  intros E E'. apply sum_g. intros q Hq. destruct x as [|[|x]]; rewrite !E, !E' by lia; reflexivity.
Qed.
Lemma cross_lin N c d c' d' u v u' v' x :
  cross N (fun a => c * u a + d * v a) (fun a => c' * u' a + d' * v' a) x
  = c * c' * cross N u u' x + c * d' * cross N u v' x + d * c' * cross N v u' x + d * d' * cross N v v' x.
Proof.
  unfold cross. rewrite <- !Rsum_scal, <- !Rsum_plus. apply sum_g. intros q _. destruct x as [|[|x]]; ring.
Qed.

Section Zeta.
  Variables (N : nat) (m : nat -> R) (s : R) (sg mu : nat -> nat).
  Hypothesis C : c3v N m s sg mu.
  Let n := (3 * N)%nat.
  Let P := op sg (third s).
  Let M := op mu flip.
  Let sv i := sg (sg i).

  Lemma cross_turn u v x : (x < 3)%nat -> cross N (act n P u) (act n P v) x = Sum 3 (fun y => third s x y * cross N u v y).
  Proof.
    intros Hx. pose proof (c3_s _ _ _ _ _ C) as Hs. rewrite sum_3. unfold cross.
    rewrite <- (sum_carried N sg sv (third s) (c3_sg _ _ _ _ _ C) (sv_lt _ _ _ _ _ C) (sg_sv _ _ _ _ _ C) (sv_sg _ _ _ _ _ C) (fun q => u (3 * q + 1)%nat * v (3 * q + 2)%nat - u (3 * q + 2)%nat * v (3 * q + 1)%nat)).
    rewrite <- (sum_carried N sg sv (third s) (c3_sg _ _ _ _ _ C) (sv_lt _ _ _ _ _ C) (sg_sv _ _ _ _ _ C) (sv_sg _ _ _ _ _ C) (fun q => u (3 * q + 2)%nat * v (3 * q)%nat - u (3 * q)%nat * v (3 * q + 2)%nat)).
    rewrite <- (sum_carried N sg sv (third s) (c3_sg _ _ _ _ _ C) (sv_lt _ _ _ _ _ C) (sg_sv _ _ _ _ _ C) (sv_sg _ _ _ _ _ C) (fun q => u (3 * q)%nat * v (3 * q + 1)%nat - u (3 * q + 1)%nat * v (3 * q)%nat)).
    rewrite <- !Rsum_scal, <- !Rsum_plus. apply sum_g. intros q Hq.
    assert (A0 : forall w, act n P w (3 * q)%nat = - (1 / 2) * w (3 * sv q)%nat - s * w (3 * sv q + 1)%nat).
    { intros w. replace (3 * q)%nat with (3 * q + 0)%nat by lia. unfold n, P. rewrite (turn_at _ _ _ _ _ C), sum_3 by (assumption || lia).
      rewrite Nat.add_0_r. cbn [third]. unfold sv. ring. }
    assert (A1 : forall w, act n P w (3 * q + 1)%nat = s * w (3 * sv q)%nat - 1 / 2 * w (3 * sv q + 1)%nat).
    { intros w. unfold n, P. rewrite (turn_at _ _ _ _ _ C), sum_3 by (assumption || lia).
      rewrite Nat.add_0_r. cbn [third]. unfold sv. ring. }
    assert (A2 : forall w, act n P w (3 * q + 2)%nat = w (3 * sv q + 2)%nat).
    { intros w. unfold n, P. rewrite (turn_at _ _ _ _ _ C), sum_3 by (assumption || lia).
      rewrite Nat.add_0_r. cbn [third]. unfold sv. ring. }
    destruct x as [|[|[|x]]]; try lia; cbn [third]; rewrite ?A0, ?A1, ?A2; try ring.
    set (a := u (3 * sv q)%nat). set (b := u (3 * sv q + 1)%nat). set (a' := v (3 * sv q)%nat). set (b' := v (3 * sv q + 1)%nat).
    transitivity ((1 / 4 + s * s) * (a * b' - b * a')); [field|]. rewrite Hs. field.
  Qed.
  Lemma cross_mirror u v x : (x < 3)%nat -> cross N (act n M u) (act n M v) x = - flip x x * cross N u v x.
  Proof.
    intros Hx. unfold cross.
    rewrite <- Rsum_scal.
    rewrite <- (sum_carried N mu mu flip (c3_mu _ _ _ _ _ C) (c3_mu _ _ _ _ _ C) (c3_mu2 _ _ _ _ _ C) (c3_mu2 _ _ _ _ _ C)
      (fun i => - flip x x * match x with
        | 0%nat => u (3 * i + 1)%nat * v (3 * i + 2)%nat - u (3 * i + 2)%nat * v (3 * i + 1)%nat
        | 1%nat => u (3 * i + 2)%nat * v (3 * i)%nat - u (3 * i)%nat * v (3 * i + 2)%nat
        | _ => u (3 * i)%nat * v (3 * i + 1)%nat - u (3 * i + 1)%nat * v (3 * i)%nat
        end)).
    apply sum_g. intros q Hq.
    assert (A0 : forall w, act n M w (3 * q)%nat = w (3 * mu q)%nat).
    { intros w. replace (3 * q)%nat with (3 * q + 0)%nat by lia. unfold n, M. rewrite (mirror_at _ _ _ _ _ C) by (assumption || lia).
      rewrite Nat.add_0_r. cbn [flip]. ring. }
    assert (A1 : forall w, act n M w (3 * q + 1)%nat = - w (3 * mu q + 1)%nat).
    { intros w. unfold n, M. rewrite (mirror_at _ _ _ _ _ C) by (assumption || lia). cbn [flip]. ring. }
    assert (A2 : forall w, act n M w (3 * q + 2)%nat = w (3 * mu q + 2)%nat).
    { intros w. unfold n, M. rewrite (mirror_at _ _ _ _ _ C) by (assumption || lia). cbn [flip]. ring. }
    destruct x as [|[|[|x]]]; try lia; cbn [flip]; rewrite ?A0, ?A1, ?A2; ring.
  Qed.

  Variables (h : R) (ns : list nat) (ts : list (nat * nat)) (V : nat -> nat -> R).
  Hypothesis Hh : h * h = 3 / 4.
  Hypothesis BH : behaves n P M h ns ts V.
  Let Z := zeta_of N V.

  Lemma z_parity i j ei ej x : (x < 3)%nat -> par n M V i ei -> par n M V j ej -> ei * ej * - flip x x = -1 -> Z i j x = 0.
  Proof.
    intros Hx Hi Hj E. pose proof (cross_mirror (fun a => V a i) (fun a => V a j) x Hx) as Q.
    rewrite (cross_ext N _ _ (fun a => ei * V a i + 0 * V a i) (fun a => ej * V a j + 0 * V a j)) in Q by assumption.
    rewrite cross_lin in Q. change (cross N (fun a => V a i) (fun a => V a j) x) with (Z i j x) in Q.
    assert (Fl : flip x x * flip x x = 1) by (destruct x as [|[|[|x]]]; try lia; cbn; ring).
    set (k := flip x x) in *. clearbody k.
    assert (E1 : ei * ej * Z i j x = - k * Z i j x) by lra.
    assert (E2 : ei * ej = k) by (transitivity (- (ei * ej * - k) * k); [transitivity (ei * ej * (k * k)); [rewrite Fl; ring|ring]|rewrite E; ring]).
    rewrite E2 in E1. assert (Z0 : k * (2 * Z i j x) = 0) by lra. destruct (Rmult_integral _ _ Z0) as [K0|]; [rewrite K0 in Fl; lra|lra].
  Qed.
  Lemma z_turn i j c p d q c' p' d' q' : comb n (mprod n P V) V i c p d q -> comb n (mprod n P V) V j c' p' d' q' ->
    let S x := c * c' * Z p p' x + c * d' * Z p q' x + d * c' * Z q p' x + d * d' * Z q q' x in
    S 0%nat = - (1 / 2) * Z i j 0%nat - s * Z i j 1%nat /\
    S 1%nat = s * Z i j 0%nat - 1 / 2 * Z i j 1%nat /\
    S 2%nat = Z i j 2%nat.
  Proof.
    intros Hi Hj. cbv zeta.
    assert (G : forall x, (x < 3)%nat -> c * c' * Z p p' x + c * d' * Z p q' x + d * c' * Z q p' x + d * d' * Z q q' x
      = third s x 0 * Z i j 0%nat + third s x 1 * Z i j 1%nat + third s x 2 * Z i j 2%nat).
    { intros x Hx. pose proof (cross_turn (fun a => V a i) (fun a => V a j) x Hx) as Q. rewrite sum_3 in Q.
      rewrite (cross_ext N _ _ (fun a => c * V a p + d * V a q) (fun a => c' * V a p' + d' * V a q')) in Q by assumption.
      rewrite cross_lin in Q. exact Q. }
    pose proof (G 0%nat ltac:(lia)) as G0. pose proof (G 1%nat ltac:(lia)) as G1. pose proof (G 2%nat ltac:(lia)) as G2. cbn [third] in *. cbv beta. rewrite G0, G1, G2. repeat split; ring.
  Qed.

  Lemma zeta_nn i j : In i ns -> In j ns -> Z i j 0%nat = 0 /\ Z i j 1%nat = 0.
  Proof.
    intros Hi Hj. destruct (z_turn i j _ _ _ _ _ _ _ _ (Ps _ _ _ _ _ _ _ BH i Hi) (Ps _ _ _ _ _ _ _ BH j Hj)) as (E0 & E1 & _).
    pose proof (c3_s _ _ _ _ _ C) as Hs. destruct (two_zero (- s) (Z i j 0%nat) (Z i j 1%nat)); [lra..|]. split; assumption.
  Qed.
  Lemma sq_link x y : h * x = - s * y \/ h * x = s * y -> Rsqr x = Rsqr y.
  Proof.
    pose proof (c3_s _ _ _ _ _ C) as Hs. intros E. unfold Rsqr.
    assert (h * h * (x * x) = s * s * (y * y)).
    { transitivity (h * x * (h * x)); [ring|]. destruct E as [-> | ->]; ring. }
    rewrite Hh, Hs in H. lra.
  Qed.
  Lemma zeta_n i a b : In i ns -> In (a, b) ts ->
    Z i a 2%nat = 0 /\ Z i b 2%nat = 0 /\ Rsqr (Z i a 0%nat) + Rsqr (Z i a 1%nat) = Rsqr (Z i b 0%nat) + Rsqr (Z i b 1%nat).
  Proof.
    intros Hi I. pose proof (Ms _ _ _ _ _ _ _ BH i Hi) as pi. pose proof (Ma _ _ _ _ _ _ _ BH a b I) as pa. pose proof (Mb _ _ _ _ _ _ _ BH a b I) as pb.
    assert (Z1 : Z i a 2%nat = 0) by (eapply z_parity; [lia|exact pi|exact pa|cbn; lra]).
    assert (Z2 : Z i a 0%nat = 0) by (eapply z_parity; [lia|exact pi|exact pa|cbn; lra]).
    assert (Z3 : Z i b 1%nat = 0) by (eapply z_parity; [lia|exact pi|exact pb|cbn; lra]).
    destruct (z_turn i b _ _ _ _ _ _ _ _ (Ps _ _ _ _ _ _ _ BH i Hi) (Pb _ _ _ _ _ _ _ BH a b I)) as (_ & _ & E).
    destruct (z_turn i a _ _ _ _ _ _ _ _ (Ps _ _ _ _ _ _ _ BH i Hi) (Pa _ _ _ _ _ _ _ BH a b I)) as (E0 & _ & _).
    split; [exact Z1|]. split; [rewrite Z1 in E; lra|]. rewrite Z2, Z3. rewrite Z2 in E0.
    rewrite (sq_link (Z i b 0%nat) (Z i a 1%nat)) by (left; lra). lra.
  Qed.
  Lemma zeta_dd a b c d : In (a, b) ts -> In (c, d) ts ->
    (Z a c 2%nat = 0 /\ Z b d 2%nat = 0 /\ Z b c 2%nat = - Z a d 2%nat) /\
    (Z a c 0%nat = 0 /\ Z b d 0%nat = 0 /\ Z a d 1%nat = 0 /\ Z b c 1%nat = 0) /\
    (Rsqr (Z b d 1%nat) = Rsqr (Z a c 1%nat) /\ Rsqr (Z a d 0%nat) = Rsqr (Z a c 1%nat) /\ Rsqr (Z b c 0%nat) = Rsqr (Z a c 1%nat)).
  Proof.
    intros I J. pose proof (Ma _ _ _ _ _ _ _ BH a b I) as pa. pose proof (Mb _ _ _ _ _ _ _ BH a b I) as pb.
    pose proof (Ma _ _ _ _ _ _ _ BH c d J) as pc. pose proof (Mb _ _ _ _ _ _ _ BH c d J) as pd.
    assert (Z1 : Z a c 2%nat = 0) by (eapply z_parity; [lia|exact pa|exact pc|cbn; lra]).
    assert (Z2 : Z b d 2%nat = 0) by (eapply z_parity; [lia|exact pb|exact pd|cbn; lra]).
    assert (Z3 : Z a c 0%nat = 0) by (eapply z_parity; [lia|exact pa|exact pc|cbn; lra]).
    assert (Z4 : Z b d 0%nat = 0) by (eapply z_parity; [lia|exact pb|exact pd|cbn; lra]).
    assert (Z5 : Z a d 1%nat = 0) by (eapply z_parity; [lia|exact pa|exact pd|cbn; lra]).
    assert (Z6 : Z b c 1%nat = 0) by (eapply z_parity; [lia|exact pb|exact pc|cbn; lra]).
    destruct (z_turn a d _ _ _ _ _ _ _ _ (Pa _ _ _ _ _ _ _ BH a b I) (Pb _ _ _ _ _ _ _ BH c d J)) as (A0 & A1 & A2).
    destruct (z_turn a c _ _ _ _ _ _ _ _ (Pa _ _ _ _ _ _ _ BH a b I) (Pa _ _ _ _ _ _ _ BH c d J)) as (B0 & B1 & B2).
    cbv beta in A0, A1, A2, B0, B1, B2. rewrite ?Z1, ?Z2, ?Z3, ?Z4, ?Z5, ?Z6 in *.
    assert (H1 : forall x, h * h * x = 3 / 4 * x) by (intros; now rewrite Hh).
    pose proof (H1 (Z b c 2%nat)). pose proof (H1 (Z b d 1%nat)). pose proof (H1 (Z b c 0%nat)).
    assert (D : Z b d 1%nat = - Z a c 1%nat) by lra. assert (G : Z b c 0%nat = Z a d 0%nat) by lra.
    split; [repeat split; lra|]. split; [auto|]. rewrite D, G, <- Rsqr_neg.
    rewrite G in B0. rewrite (sq_link (Z a d 0%nat) (Z a c 1%nat)) by (right; lra). auto.
  Qed.
End Zeta.

(** ** the derivatives of the inertia tensor *)
(** the turn carries atom [i] to where atom [sg i] is, the mirror to where [mu i] is *)
Record placed (N : nat) (s : R) (sg mu : nat -> nat) (geom : nat -> R * R * R) : Prop := {
  pl_sg : forall i, (i < N)%nat -> let '(x, y, z) := geom i in
    geom (sg i) = (- (1 / 2) * x - s * y, s * x - 1 / 2 * y, z);
  pl_mu : forall i, (i < N)%nat -> let '(x, y, z) := geom i in geom (mu i) = (x, - y, z)
}.

Section Wila.
  Variables (N : nat) (m : nat -> R) (s : R) (sg mu : nat -> nat).
  Hypothesis C : c3v N m s sg mu.
  Variable geom : nat -> R * R * R.
  Hypothesis G : placed N s sg mu geom.
  Let n := (3 * N)%nat.
  Let P := op sg (third s).
  Let M := op mu flip.
  Let sv i := sg (sg i).
  Let px i := fst (fst (geom i)).
  Let py i := snd (fst (geom i)).
  Let pz i := snd (geom i).

  (** r times u, weighted: the derivatives of the inertia are combinations of these *)
  Let dot (f g : nat -> R) : R := Sum N (fun i => sqrt (m i) * f i * g i).
  Let ux (u : nat -> R) i := u (3 * i)%nat.
  Let uy (u : nat -> R) i := u (3 * i + 1)%nat.
  Let uz (u : nat -> R) i := u (3 * i + 2)%nat.
  Definition W (u : nat -> R) (c : nat) : R := wila N geom m (fun a _ => u a) 0 c.
  Lemma W_wila V k c : W (fun a => V a k) c = wila N geom m V k c.
  Proof. reflexivity. Qed.
  Lemma W_eq u :
    W u 0 = 2 * (dot py (uy u) + dot pz (uz u)) /\ W u 1 = - 2 * dot px (uy u) /\ W u 2 = 2 * (dot px (ux u) + dot pz (uz u)) /\
    W u 3 = - 2 * dot px (uz u) /\ W u 4 = - 2 * dot py (uz u) /\ W u 5 = 2 * (dot px (ux u) + dot py (uy u)).
  Proof.
    unfold W, wila, dot, ux, uy, uz, px, py, pz, cx, cy, cz.
    rewrite !nsum_R, !acc_sub_R, ?range_0, !(nz_R 2), !(nz_R 0). cbn [nmul nadd nsqrt Rnum].
    rewrite <- !Rsum_plus.
    repeat split; try (f_equal; apply sum_g; intros; ring); ring.
  Qed.
  Lemma W_ext u v c : (forall a, (a < n)%nat -> u a = v a) -> (c < 6)%nat -> W u c = W v c.
  Proof.
    intros E Hc. destruct (W_eq u) as (E0 & E1 & E2 & E3 & E4 & E5), (W_eq v) as (F0 & F1 & F2 & F3 & F4 & F5).
    assert (D : forall f, dot f (ux u) = dot f (ux v) /\ dot f (uy u) = dot f (uy v) /\ dot f (uz u) = dot f (uz v)).
    { intros f. unfold dot, ux, uy, uz, n in *. repeat split; apply sum_g; intros i Hi; rewrite E by lia; reflexivity. }
    destruct (D px) as (Xx & Xy & Xz), (D py) as (Yx & Yy & Yz), (D pz) as (Zx & Zy & Zz).
    destruct c as [|[|[|[|[|[|c]]]]]]; try lia; rewrite ?E0, ?E1, ?E2, ?E3, ?E4, ?E5, ?F0, ?F1, ?F2, ?F3, ?F4, ?F5; congruence.
  Qed.
  Lemma W_lin c d u v k : (k < 6)%nat -> W (fun a => c * u a + d * v a) k = c * W u k + d * W v k.
  Proof.
    intros Hk. set (w := fun a => c * u a + d * v a).
    destruct (W_eq u) as (E0 & E1 & E2 & E3 & E4 & E5), (W_eq v) as (F0 & F1 & F2 & F3 & F4 & F5), (W_eq w) as (D0 & D1 & D2 & D3 & D4 & D5).
    assert (D : forall f, dot f (ux w) = c * dot f (ux u) + d * dot f (ux v) /\ dot f (uy w) = c * dot f (uy u) + d * dot f (uy v)
      /\ dot f (uz w) = c * dot f (uz u) + d * dot f (uz v)).
    { intros f. unfold dot, ux, uy, uz, w. rewrite <- !Rsum_scal, <- !Rsum_plus. repeat split; apply sum_g; intros i Hi; ring. }
    destruct (D px) as (Xx & Xy & Xz), (D py) as (Yx & Yy & Yz), (D pz) as (Zx & Zy & Zz).
    destruct k as [|[|[|[|[|[|k]]]]]]; try lia; rewrite ?E0, ?E1, ?E2, ?E3, ?E4, ?E5, ?F0, ?F1, ?F2, ?F3, ?F4, ?F5, ?D0, ?D1, ?D2, ?D3, ?D4, ?D5;
      rewrite ?Xx, ?Xy, ?Xz, ?Yx, ?Yy, ?Yz, ?Zx, ?Zy, ?Zz; ring.
  Qed.

  Lemma dot_turn f g f' g' : (forall i, (i < N)%nat -> f (sg i) = f' i) -> (forall i, (i < N)%nat -> g (sg i) = g' i) -> dot f g = dot f' g'.
  Proof.
    intros Ef Eg. unfold dot.
    rewrite <- (sum_carried N sv sg (third s) (sv_lt _ _ _ _ _ C) (c3_sg _ _ _ _ _ C) (sv_sg _ _ _ _ _ C) (sg_sv _ _ _ _ _ C) (fun i => sqrt (m i) * f i * g i)).
    apply sum_g. intros i Hi. now rewrite (c3_msg _ _ _ _ _ C), Ef, Eg.
  Qed.
  Lemma dot_mirror f g f' g' : (forall i, (i < N)%nat -> f (mu i) = f' i) -> (forall i, (i < N)%nat -> g (mu i) = g' i) -> dot f g = dot f' g'.
  Proof.
    intros Ef Eg. unfold dot.
    rewrite <- (sum_carried N mu mu (third s) (c3_mu _ _ _ _ _ C) (c3_mu _ _ _ _ _ C) (c3_mu2 _ _ _ _ _ C) (c3_mu2 _ _ _ _ _ C) (fun i => sqrt (m i) * f i * g i)).
    apply sum_g. intros i Hi. now rewrite (c3_mmu _ _ _ _ _ C), Ef, Eg.
  Qed.
  Lemma dot_lin2 a b c d f g f' g' :
    dot (fun i => a * f i + b * g i) (fun i => c * f' i + d * g' i) = a * c * dot f f' + a * d * dot f g' + b * c * dot g f' + b * d * dot g g'.
  Proof. unfold dot. rewrite <- !Rsum_scal, <- !Rsum_plus. apply sum_g. intros. ring. Qed.

  Lemma W_turn u :
    let v := act n P u in
    W v 0 = 1 / 4 * W u 0 + 3 / 4 * W u 2 + s * (W u 1 / 2 - dot py (ux u)) /\
    W v 1 = - (1 / 2) * s * W u 0 + 1 / 2 * s * W u 2 + 1 / 4 * W u 1 + 3 / 2 * dot py (ux u) /\
    W v 2 = 3 / 4 * W u 0 + 1 / 4 * W u 2 - s * (W u 1 / 2 - dot py (ux u)) /\
    W v 3 = - (1 / 2) * W u 3 - s * W u 4 /\
    W v 4 = s * W u 3 - 1 / 2 * W u 4 /\
    W v 5 = W u 5.
  Proof.
    intros v. pose proof (c3_s _ _ _ _ _ C) as Hs.
    destruct (W_eq u) as (E0 & E1 & E2 & E3 & E4 & E5), (W_eq v) as (F0 & F1 & F2 & F3 & F4 & F5).
    assert (Px : forall i, (i < N)%nat -> px (sg i) = - (1 / 2) * px i + - s * py i).
    { intros i Hi. pose proof (pl_sg _ _ _ _ _ G i Hi) as Q. unfold px, py. destruct (geom i) as [[x y] z]. rewrite Q. cbn. ring. }
    assert (Py : forall i, (i < N)%nat -> py (sg i) = s * px i + - (1 / 2) * py i).
    { intros i Hi. pose proof (pl_sg _ _ _ _ _ G i Hi) as Q. unfold px, py. destruct (geom i) as [[x y] z]. rewrite Q. cbn. ring. }
    assert (Pz : forall i, (i < N)%nat -> pz (sg i) = 1 * pz i + 0 * pz i).
    { intros i Hi. pose proof (pl_sg _ _ _ _ _ G i Hi) as Q. unfold pz. destruct (geom i) as [[x y] z]. rewrite Q. cbn. ring. }
    assert (Vx : forall i, (i < N)%nat -> ux v (sg i) = - (1 / 2) * ux u i + - s * uy u i).
    { intros i Hi. unfold ux, uy, v. replace (3 * sg i)%nat with (3 * sg i + 0)%nat by lia. unfold n, P. rewrite (turn_to _ _ _ _ _ C), sum_3 by (assumption || lia).
      rewrite Nat.add_0_r. cbn [third]. ring. }
    assert (Vy : forall i, (i < N)%nat -> uy v (sg i) = s * ux u i + - (1 / 2) * uy u i).
    { intros i Hi. unfold ux, uy, v. unfold n, P. rewrite (turn_to _ _ _ _ _ C), sum_3 by (assumption || lia).
      rewrite Nat.add_0_r. cbn [third]. ring. }
    assert (Vz : forall i, (i < N)%nat -> uz v (sg i) = 1 * uz u i + 0 * uz u i).
    { intros i Hi. unfold uz, v. unfold n, P. rewrite (turn_to _ _ _ _ _ C), sum_3 by (assumption || lia).
      rewrite Nat.add_0_r. cbn [third]. ring. }
    pose proof (dot_turn _ _ _ _ Px Vx) as Xx. pose proof (dot_turn _ _ _ _ Px Vy) as Xy. pose proof (dot_turn _ _ _ _ Px Vz) as Xz.
    pose proof (dot_turn _ _ _ _ Py Vx) as Yx. pose proof (dot_turn _ _ _ _ Py Vy) as Yy. pose proof (dot_turn _ _ _ _ Py Vz) as Yz.
    pose proof (dot_turn _ _ _ _ Pz Vz) as Zz.
    rewrite dot_lin2 in Xx, Xy, Xz, Yx, Yy, Yz, Zz.
    rewrite F0, F1, F2, F3, F4, F5, E0, E1, E2, E3, E4, E5, Xx, Xy, Xz, Yy, Yz, Zz.
    assert (H1 : forall x, s * s * x = 3 / 4 * x) by (intros; now rewrite Hs).
    pose proof (H1 (dot px (ux u))). pose proof (H1 (dot px (uy u))). pose proof (H1 (dot py (ux u))). pose proof (H1 (dot py (uy u))).
    repeat split; lra.
  Qed.
  Lemma W_mirror u :
    let v := act n M u in
    W v 0 = W u 0 /\ W v 1 = - W u 1 /\ W v 2 = W u 2 /\ W v 3 = W u 3 /\ W v 4 = - W u 4 /\ W v 5 = W u 5 /\ dot py (ux v) = - dot py (ux u).
  Proof.
    intros v. destruct (W_eq u) as (E0 & E1 & E2 & E3 & E4 & E5), (W_eq v) as (F0 & F1 & F2 & F3 & F4 & F5).
    assert (Px : forall i, (i < N)%nat -> px (mu i) = 1 * px i + 0 * px i).
    { intros i Hi. pose proof (pl_mu _ _ _ _ _ G i Hi) as Q. unfold px. destruct (geom i) as [[x y] z]. rewrite Q. cbn. ring. }
    assert (Py : forall i, (i < N)%nat -> py (mu i) = -1 * py i + 0 * py i).
    { intros i Hi. pose proof (pl_mu _ _ _ _ _ G i Hi) as Q. unfold py. destruct (geom i) as [[x y] z]. rewrite Q. cbn. ring. }
    assert (Pz : forall i, (i < N)%nat -> pz (mu i) = 1 * pz i + 0 * pz i).
    { intros i Hi. pose proof (pl_mu _ _ _ _ _ G i Hi) as Q. unfold pz. destruct (geom i) as [[x y] z]. rewrite Q. cbn. ring. }
    assert (Vx : forall i, (i < N)%nat -> ux v (mu i) = 1 * ux u i + 0 * ux u i).
    { intros i Hi. unfold ux, v. replace (3 * mu i)%nat with (3 * mu i + 0)%nat by lia. unfold n, M.
      rewrite (mirror_at _ _ _ _ _ C), (c3_mu2 _ _ _ _ _ C) by (try apply (c3_mu _ _ _ _ _ C); assumption || lia). rewrite Nat.add_0_r. cbn [flip]. ring. }
    assert (Vy : forall i, (i < N)%nat -> uy v (mu i) = -1 * uy u i + 0 * uy u i).
    { intros i Hi. unfold uy, v. unfold n, M.
      rewrite (mirror_at _ _ _ _ _ C), (c3_mu2 _ _ _ _ _ C) by (try apply (c3_mu _ _ _ _ _ C); assumption || lia). cbn [flip]. ring. }
    assert (Vz : forall i, (i < N)%nat -> uz v (mu i) = 1 * uz u i + 0 * uz u i).
    { intros i Hi. unfold uz, v. unfold n, M.
      rewrite (mirror_at _ _ _ _ _ C), (c3_mu2 _ _ _ _ _ C) by (try apply (c3_mu _ _ _ _ _ C); assumption || lia). cbn [flip]. ring. }
    pose proof (dot_mirror _ _ _ _ Px Vx) as Xx. pose proof (dot_mirror _ _ _ _ Px Vy) as Xy. pose proof (dot_mirror _ _ _ _ Px Vz) as Xz.
    pose proof (dot_mirror _ _ _ _ Py Vx) as Yx. pose proof (dot_mirror _ _ _ _ Py Vy) as Yy. pose proof (dot_mirror _ _ _ _ Py Vz) as Yz.
    pose proof (dot_mirror _ _ _ _ Pz Vz) as Zz.
    rewrite dot_lin2 in Xx, Xy, Xz, Yx, Yy, Yz, Zz.
    rewrite F0, F1, F2, F3, F4, F5, E0, E1, E2, E3, E4, E5, Xx, Xy, Xz, Yx, Yy, Yz, Zz. repeat split; lra.
  Qed.

  Variables (h : R) (ns : list nat) (ts : list (nat * nat)) (V : nat -> nat -> R).
  Hypothesis Hh : h * h = 3 / 4.
  Hypothesis BH : behaves n P M h ns ts V.
  Let wl := wila N geom m V.

  Lemma W_even k : (forall b, (b < n)%nat -> act n M (fun a => V a k) b = V b k) ->
    wl k 1%nat = 0 /\ wl k 4%nat = 0 /\ dot py (ux (fun a => V a k)) = 0.
  Proof.
    intros E. destruct (W_mirror (fun a => V a k)) as (_ & E1 & _ & _ & E4 & _ & E6).
    rewrite (W_ext _ (fun a => V a k) 1 E) in E1 by lia. rewrite (W_ext _ (fun a => V a k) 4 E) in E4 by lia.
    assert (D : dot py (ux (act n M (fun a => V a k))) = dot py (ux (fun a => V a k))).
    { unfold dot, ux, n in *. apply sum_g. intros i Hi. now rewrite E by lia. }
    rewrite D in E6. change (W (fun a => V a k)) with (wl k) in *. repeat split; lra.
  Qed.
  Lemma W_odd k : (forall b, (b < n)%nat -> act n M (fun a => V a k) b = - V b k) ->
    wl k 0%nat = 0 /\ wl k 2%nat = 0 /\ wl k 3%nat = 0 /\ wl k 5%nat = 0.
  Proof.
    intros E. destruct (W_mirror (fun a => V a k)) as (E0 & _ & E2 & E3 & _ & E5 & _).
    assert (E' : forall b, (b < n)%nat -> act n M (fun a => V a k) b = -1 * V b k + 0 * V b k) by (intros; rewrite E by assumption; ring).
    rewrite (W_ext _ (fun b => -1 * V b k + 0 * V b k) 0 E'), W_lin in E0 by lia.
    rewrite (W_ext _ (fun b => -1 * V b k + 0 * V b k) 2 E'), W_lin in E2 by lia.
    rewrite (W_ext _ (fun b => -1 * V b k + 0 * V b k) 3 E'), W_lin in E3 by lia.
    rewrite (W_ext _ (fun b => -1 * V b k + 0 * V b k) 5 E'), W_lin in E5 by lia.
    change (W (fun b => V b k)) with (wl k) in *. repeat split; lra.
  Qed.

  Lemma wila_n k : In k ns -> wl k 3%nat = 0 /\ wl k 4%nat = 0 /\ wl k 1%nat = 0 /\ wl k 2%nat = wl k 0%nat.
  Proof.
    intros I. pose proof (fun b Hb => proj2 (bh_single _ _ _ _ _ _ _ BH k I b Hb)) as E.
    pose proof (fun b Hb => proj1 (bh_single _ _ _ _ _ _ _ BH k I b Hb)) as E'.
    destruct (W_even k E) as (W1 & W4 & W6).
    destruct (W_turn (fun a => V a k)) as (T0 & _ & _ & T3 & _).
    rewrite (W_ext _ (fun a => V a k) 0 E') in T0 by lia. rewrite (W_ext _ (fun a => V a k) 3 E') in T3 by lia. change (W (fun a => V a k)) with (wl k) in *. rewrite W6, W1 in T0. rewrite W4 in T3.
    repeat split; try assumption; lra.
  Qed.
  Lemma wila_d a b : In (a, b) ts ->
    (wl a 5%nat = 0 /\ wl b 5%nat = 0 /\ wl a 2%nat = - wl a 0%nat /\ wl b 2%nat = - wl b 0%nat) /\
    (wl a 1%nat = 0 /\ wl a 4%nat = 0) /\
    (wl b 0%nat = 0 /\ wl b 3%nat = 0) /\
    (wl b 1%nat ^ 2 = wl a 0%nat ^ 2 /\ wl b 4%nat ^ 2 = wl a 3%nat ^ 2).
  Proof.
    intros I. pose proof (c3_s _ _ _ _ _ C) as Hs.
    pose proof (fun r Hr => proj1 (proj2 (proj2 (bh_pair _ _ _ _ _ _ _ BH a b I r Hr)))) as Ea.
    pose proof (fun r Hr => proj2 (proj2 (proj2 (bh_pair _ _ _ _ _ _ _ BH a b I r Hr)))) as Eb.
    pose proof (fun r Hr => proj1 (bh_pair _ _ _ _ _ _ _ BH a b I r Hr)) as Et.
    destruct (W_even a Ea) as (A1 & A4 & A6). destruct (W_odd b Eb) as (B0 & B2 & B3 & B5).
    destruct (W_turn (fun r => V r a)) as (T0 & T1 & _ & _ & T4 & T5).
    rewrite (W_ext _ (fun r => - (1 / 2) * V r a + h * V r b) 0 Et), W_lin in T0 by lia.
    rewrite (W_ext _ (fun r => - (1 / 2) * V r a + h * V r b) 1 Et), W_lin in T1 by lia.
    rewrite (W_ext _ (fun r => - (1 / 2) * V r a + h * V r b) 4 Et), W_lin in T4 by lia.
    rewrite (W_ext _ (fun r => - (1 / 2) * V r a + h * V r b) 5 Et), W_lin in T5 by lia.
    change (W (fun r => V r a)) with (wl a) in *. change (W (fun r => V r b)) with (wl b) in *. rewrite A6, A1, ?B0, ?B5 in *.
    rewrite A4 in T4.
    assert (Y2 : wl a 2%nat = - wl a 0%nat) by lra. rewrite Y2 in T1.
    assert (Q1 : h * wl b 1%nat = - s * wl a 0%nat) by lra. assert (Q4 : h * wl b 4%nat = s * wl a 3%nat) by lra.
    assert (K : forall x y, h * x = - s * y \/ h * x = s * y -> x ^ 2 = y ^ 2).
    { intros x y E. pose proof (sq_link N m s sg mu C h Hh x y E) as Q. unfold Rsqr in Q. lra. }
    repeat split; try assumption; try lra; apply K; auto.
  Qed.
  Lemma wila_cross a b : In (a, b) ts -> wl b 1%nat * wl b 4%nat = - (wl a 0%nat * wl a 3%nat).
  Proof.
    intros I. pose proof (c3_s _ _ _ _ _ C) as Hs.
    pose proof (fun r Hr => proj1 (bh_pair _ _ _ _ _ _ _ BH a b I r Hr)) as Et.
    destruct (wila_d a b I) as ((_ & _ & A2 & _) & (A1 & A4) & (B0 & B3) & _).
    assert (A6 : dot py (ux (fun r => V r a)) = 0).
    { apply W_even. intros r Hr. apply (bh_pair _ _ _ _ _ _ _ BH a b I r Hr). }
    destruct (W_turn (fun r => V r a)) as (T0 & T1 & _ & _ & T4 & T5).
    rewrite (W_ext _ (fun r => - (1 / 2) * V r a + h * V r b) 1 Et), W_lin in T1 by lia.
    rewrite (W_ext _ (fun r => - (1 / 2) * V r a + h * V r b) 4 Et), W_lin in T4 by lia.
    change (W (fun r => V r a)) with (wl a) in *. change (W (fun r => V r b)) with (wl b) in *.
    rewrite A6, A1, A2 in T1. rewrite A4 in T4.
    assert (Q1 : h * wl b 1%nat = - s * wl a 0%nat) by lra. assert (Q4 : h * wl b 4%nat = s * wl a 3%nat) by lra.
    assert (PP : (h * h) * (wl b 1%nat * wl b 4%nat) = - (s * s) * (wl a 0%nat * wl a 3%nat)).
    { transitivity ((h * wl b 1%nat) * (h * wl b 4%nat)); [ring|]. rewrite Q1, Q4. ring. }
    rewrite Hh, Hs in PP. lra.
  Qed.
  Lemma axial_inertia_3 (I : nat -> R) : I 0%nat = I 1%nat -> axial_inertia ns ts wl I 0.
  Proof.
    intros EI. split.
    - exact EI.
    - intros k Hk. destruct (wila_n k Hk) as (W3 & W4 & _ & W2). cbn. auto.
    - intros a b Hp. destruct (wila_d a b Hp) as ((H1 & H2 & H3 & H4) & _). cbn. auto.
    - intros a b Hp. destruct (wila_d a b Hp) as (_ & (H1 & H2) & _). cbn [acol Nat.sub Nat.max Nat.min]. auto.
    - intros a b Hp. destruct (wila_d a b Hp) as (_ & _ & (H1 & H2) & H3 & H4).
      change (acol 0 0) with 0%nat. change (acol 1 0) with 1%nat. change (acol 2 0) with 3%nat. change (acol 2 1) with 4%nat. cbn [acol].
      rewrite H1, H2, H3, H4. split; ring.
    - lia.
  Qed.
  Lemma cor_axis_3 r : cor_axis r ts wl 1.
  Proof.
    unfold cor_axis. cbv zeta. split; [split; [discriminate|]|split; [|reflexivity]].
    - intros (_ & H & a & b & Hp & _). exfalso. apply (H a b Hp). destruct (wila_d a b Hp) as (_ & _ & (_ & ->) & _).
      rewrite Rabs_R0. lra.
    - intros _ (_ & H & a & b & Hp & _). apply (H a b Hp). destruct (wila_d a b Hp) as (_ & _ & (_ & ->) & _).
      rewrite Rabs_R0. lra.
  Qed.
End Wila.
