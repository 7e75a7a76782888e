(** The alignment of degenerate modes over the reals. *)
From Coq Require Import Reals Lra List ZArith Arith Lia Bool.
From Verif Require Import Num Loops Modes ListFacts ResFacts Anharm AnharmFacts Transform TransformFacts
  RotFacts HarmFacts ModeFacts Geom GeomFacts AlignFacts.
Import ListNotations.
Open Scope nat_scope.
Local Open Scope R_scope.

(** ** specification *)

(** the columns A', B' are A, B turned in their plane, B' possibly negated *)
Definition turned (n : nat) (c s g : R) (A B A' B' : nat -> R) : Prop :=
  c * c + s * s = 1 /\ (g = 1 \/ g = -1) /\
  forall i, (i < n)%nat -> A' i = c * A i + s * B i /\ B' i = g * (c * B i - s * A i).

Lemma negate_R natom b (l : nat -> nat -> R) i k :
  negate natom b l i k = if ((i <? 3 * natom) && (k =? b))%nat then - l i b else l i k.
Proof. rewrite negate_eq. destruct (_ && _); [|reflexivity]. rewrite nz_R. cbn. lra. Qed.

(** the sign step leaves column b as it is or negates it *)
Lemma sign_R linear natom iatom order buddy zero4 a b (l l' : nat -> nat -> R) :
  relative_sign linear natom iatom order buddy zero4 a b l = Some l' ->
  exists g, (g = 1 \/ g = -1) /\
    (forall i, (i < 3 * natom)%nat -> l' i b = g * l i b) /\
    forall i k, k <> b -> l' i k = l i k.
Proof.
  apply (sign_inv (fun l' => exists g, (g = 1 \/ g = -1) /\
    (forall i, (i < 3 * natom)%nat -> l' i b = g * l i b) /\ forall i k, k <> b -> l' i k = l i k)).
  - intros m (g & Hg & Hb & Ho). exists (- g). split; [destruct Hg; [right|left]; lra|]. split.
    + intros i Hi. rewrite negate_R, Nat.eqb_refl. replace (i <? 3 * natom)%nat with true by (symmetry; now apply Nat.ltb_lt).
      cbn [andb]. rewrite Hb by exact Hi. ring.
    + intros i k Hk. rewrite negate_R. destruct (Nat.eqb_spec k b); [contradiction|]. rewrite andb_false_r. now apply Ho.
  - exists 1. split; [now left|]. split; intros; [ring|reflexivity].
Qed.
Lemma sincos1 th : cos th * cos th + sin th * sin th = 1.
Proof. pose proof (sin2_cos2 th). unfold Rsqr in *. lra. Qed.

Lemma pair_R linear natom iatom order buddy w a b (l lx l' lx' : nat -> nat -> R) : a <> b ->
  align_pair linear natom iatom order buddy w a b (l, lx) = Some (l', lx') ->
  exists th g, align_angle linear iatom l a b = Some th /\
    turned (3 * natom) (cos th) (sin th) g (fun i => l i a) (fun i => l i b) (fun i => l' i a) (fun i => l' i b).
Proof.
  intros Hab E. unfold align_pair in E.
  destruct (align_angle linear iatom l a b) as [th|] eqn:Ea; cbn [obind] in E; [|discriminate].
  destruct (relative_sign _ _ _ _ _ _ _ _ _) as [m|] eqn:Es; cbn [obind] in E; [|discriminate].
  injection E as <- _. apply sign_R in Es. destruct Es as (g & Hg & Hb & Ho).
  exists th, g. split; [reflexivity|]. split; [apply sincos1|]. split; [exact Hg|].
  intros i Hi. cbn [ncos nsin Rtrig] in *.
  assert (Hl : (i <? 3 * natom)%nat = true) by now apply Nat.ltb_lt.
  split.
  - rewrite Ho by exact Hab. rewrite rotate_eq, Hl, Nat.eqb_refl by exact Hab. reflexivity.
  - rewrite Hb by exact Hi. rewrite rotate_eq, Hl by exact Hab.
    destruct (Nat.eqb_spec b a) as [->|]; [now elim Hab|]. rewrite Nat.eqb_refl. reflexivity.
Qed.

(** ** normal modes stay normal modes *)
Lemma sum_two n (f g : nat -> R) p q : (p < n)%nat -> (q < n)%nat -> p <> q ->
  (forall k, (k < n)%nat -> k <> p -> k <> q -> f k = g k) -> f p + f q = g p + g q -> Sum n f = Sum n g.
Proof.
  intros Hp Hq Hpq Ho Hs.
  assert (D : Sum n (fun k => f k - g k) = 0).
  { transitivity (Sum n (fun k => delta p k * (f k - g k) + delta q k * (f k - g k))).
    - apply sum_g. intros k Hk. unfold delta. destruct (Nat.eqb_spec p k) as [->|Np], (Nat.eqb_spec q k) as [->|Nq].
      + now elim Hpq.
      + ring.
      + ring.
      + rewrite Ho by congruence. ring.
    - rewrite Rsum_plus, !sum_delta by assumption. lra. }
  rewrite Rsum_minus in D. lra.
Qed.

Lemma turned_orth n c s g p q (V V' : nat -> nat -> R) : (p < n)%nat -> (q < n)%nat -> p <> q ->
  turned n c s g (fun i => V i p) (fun i => V i q) (fun i => V' i p) (fun i => V' i q) ->
  (forall i k, (i < n)%nat -> k <> p -> k <> q -> V' i k = V i k) -> orth n V -> orth n V'.
Proof.
  intros Hp Hq Hpq (Hcs & Hg & Ht) Ho [HR HC].
  assert (Hgg : g * g = 1) by (destruct Hg; subst; lra). split.
  - intros a b Ha Hb. rewrite <- (HR a b Ha Hb). apply (sum_two n _ _ p q Hp Hq Hpq).
    + intros k Hk Np Nq. now rewrite !Ho.
    + destruct (Ht a Ha) as [-> ->], (Ht b Hb) as [-> ->].
      transitivity ((c * c + s * s) * (V a p * V b p + V a q * V b q)
                    + (g * g - 1) * ((c * V a q - s * V a p) * (c * V b q - s * V b p))); [ring|].
      rewrite Hcs, Hgg. ring.
  - (* columns: inner products of the new columns *)
    assert (IP : forall x y, (x < n)%nat -> (y < n)%nat ->
      Sum n (fun k => V k x * V k y) = delta x y) by exact HC.
    assert (PX : forall y, (y < n)%nat -> y <> p -> y <> q -> Sum n (fun k => V' k p * V' k y) = 0).
    { intros y Hy Np Nq.
      transitivity (Sum n (fun k => c * (V k p * V k y) + s * (V k q * V k y))).
      { apply sum_g. intros k Hk. destruct (Ht k Hk) as [-> _]. rewrite Ho by assumption. ring. }
      rewrite Rsum_plus, !Rsum_scal, !IP by assumption. unfold delta.
      destruct (Nat.eqb_spec p y), (Nat.eqb_spec q y); try congruence. ring. }
    assert (QX : forall y, (y < n)%nat -> y <> p -> y <> q -> Sum n (fun k => V' k q * V' k y) = 0).
    { intros y Hy Np Nq.
      transitivity (Sum n (fun k => g * c * (V k q * V k y) + - (g * s) * (V k p * V k y))).
      { apply sum_g. intros k Hk. destruct (Ht k Hk) as [_ ->]. rewrite Ho by assumption. ring. }
      rewrite Rsum_plus, !Rsum_scal, !IP by assumption. unfold delta.
      destruct (Nat.eqb_spec p y), (Nat.eqb_spec q y); try congruence. ring. }
    assert (Dpp := IP p p Hp Hp). assert (Dpq := IP p q Hp Hq). assert (Dqq := IP q q Hq Hq).
    unfold delta in Dpp, Dpq, Dqq. rewrite Nat.eqb_refl in *.
    replace (p =? q)%nat with false in Dpq by (symmetry; now apply Nat.eqb_neq).
    assert (PP : Sum n (fun k => V' k p * V' k p) = 1).
    { transitivity (Sum n (fun k => c * c * (V k p * V k p) + 2 * c * s * (V k p * V k q) + s * s * (V k q * V k q))).
      { apply sum_g. intros k Hk. destruct (Ht k Hk) as [-> _]. ring. }
      rewrite !Rsum_plus, !Rsum_scal, Dpp, Dpq, Dqq. lra. }
    assert (QQ : Sum n (fun k => V' k q * V' k q) = 1).
    { transitivity (Sum n (fun k => s * s * (V k p * V k p) + -2 * c * s * (V k p * V k q) + c * c * (V k q * V k q))).
      { apply sum_g. intros k Hk. destruct (Ht k Hk) as [_ ->].
        transitivity (g * g * ((c * V k q - s * V k p) * (c * V k q - s * V k p))); [ring|]. rewrite Hgg. ring. }
      rewrite !Rsum_plus, !Rsum_scal, Dpp, Dpq, Dqq. lra. }
    assert (PQ : Sum n (fun k => V' k p * V' k q) = 0).
    { transitivity (Sum n (fun k => - (g * c * s) * (V k p * V k p) + g * (c * c - s * s) * (V k p * V k q)
                                    + g * c * s * (V k q * V k q))).
      { apply sum_g. intros k Hk. destruct (Ht k Hk) as [-> ->]. ring. }
      rewrite !Rsum_plus, !Rsum_scal, Dpp, Dpq, Dqq. ring. }
    assert (C : forall x y, Sum n (fun k => V' k x * V' k y) = Sum n (fun k => V' k y * V' k x)).
    { intros. apply sum_g. intros. ring. }
    intros x y Hx Hy. unfold delta.
    destruct (Nat.eq_dec x p) as [->|Xp]; [|destruct (Nat.eq_dec x q) as [->|Xq]];
      (destruct (Nat.eq_dec y p) as [->|Yp]; [|destruct (Nat.eq_dec y q) as [->|Yq]]).
    + now rewrite Nat.eqb_refl.
    + destruct (Nat.eqb_spec p q); [contradiction|exact PQ].
    + destruct (Nat.eqb_spec p y); [congruence|]. now apply PX.
    + destruct (Nat.eqb_spec q p); [congruence|]. rewrite C. exact PQ.
    + now rewrite Nat.eqb_refl.
    + destruct (Nat.eqb_spec q y); [congruence|]. now apply QX.
    + destruct (Nat.eqb_spec x p); [congruence|]. rewrite C. now apply PX.
    + destruct (Nat.eqb_spec x q); [congruence|]. rewrite C. now apply QX.
    + transitivity (Sum n (fun k => V k x * V k y)).
      { apply sum_g. intros k Hk. now rewrite !Ho. }
      now apply IP.
Qed.

Lemma normal_kept linear natom nvib iatom order buddy freq w (lxm lx lxm' lx' : nat -> nat -> R) A vals :
  (nvib <= 3 * natom)%nat ->
  (forall a b, (a < nvib)%nat -> (b < nvib)%nat -> partners linear freq a b ->
     nth_error vals a = nth_error vals b) ->
  eigen_system (3 * natom) A vals lxm ->
  bdegnl linear natom nvib iatom order buddy freq w lxm lx = Some (lxm', lx') ->
  eigen_system (3 * natom) A vals lxm'.
Proof.
  intros Hn Hd HE E.
  apply (bdegnl_inv (fun s => eigen_system (3 * natom) A vals (fst s))) in E; [exact E| |exact HE].
  intros p q [l k] [l' k'] Hpq Hq Hp (Hl & HO & Hv) Ep. cbn [fst] in *.
  assert (Npq : p <> q) by lia.
  pose proof (fun i c => pair_other _ _ _ _ _ _ _ _ _ _ _ _ Npq Ep i c) as Ho.
  destruct (pair_R _ _ _ _ _ _ _ _ _ _ _ _ Npq Ep) as (th & g & _ & HT).
  set (n := (3 * natom)%nat) in *.
  split; [exact Hl|]. split.
  - apply (turned_orth n _ _ _ p q l l' ltac:(lia) ltac:(lia) Npq HT); [|exact HO].
    intros i c _ Nc Nd. now destruct (Ho i c Nc Nd).
  - destruct HT as (Hcs & Hg & Ht). intros a c x Ha Hx.
    assert (SE : forall u, (forall b, (b < n)%nat -> l' b c = u b) -> Sum n (fun b => A a b * l' b c) = Sum n (fun b => A a b * u b)).
    { intros u Hu. apply sum_g. intros b Hb. now rewrite Hu. }
    assert (Hpq' := Hd p q ltac:(lia) Hq Hp).
    destruct (Nat.eq_dec c p) as [->|Np]; [|destruct (Nat.eq_dec c q) as [->|Nq]].
    + rewrite (SE (fun b => cos th * l b p + sin th * l b q)) by (intros b Hb; apply (Ht b Hb)).
      transitivity (cos th * Sum n (fun b => A a b * l b p) + sin th * Sum n (fun b => A a b * l b q)).
      { rewrite <- !Rsum_scal, <- Rsum_plus. apply sum_g. intros. ring. }
      rewrite (Hv a p x Ha Hx), (Hv a q x Ha) by congruence. destruct (Ht a Ha) as [-> _]. ring.
    + rewrite (SE (fun b => g * (cos th * l b q - sin th * l b p))) by (intros b Hb; apply (Ht b Hb)).
      transitivity (g * cos th * Sum n (fun b => A a b * l b q) + - (g * sin th) * Sum n (fun b => A a b * l b p)).
      { rewrite <- !Rsum_scal, <- Rsum_plus. apply sum_g. intros. ring. }
      rewrite (Hv a q x Ha Hx), (Hv a p x Ha) by congruence. destruct (Ht a Ha) as [_ ->]. ring.
    + destruct (Ho a c Np Nq) as [-> _]. rewrite (SE (fun b => l b c)) by (intros b _; apply (Ho b c Np Nq)).
      now apply Hv.
Qed.

(** orthonormality alone needs no degeneracy *)
Lemma orth_kept linear natom nvib iatom order buddy freq w (lxm lx lxm' lx' : nat -> nat -> R) :
  (nvib <= 3 * natom)%nat -> orth (3 * natom) lxm ->
  bdegnl linear natom nvib iatom order buddy freq w lxm lx = Some (lxm', lx') ->
  orth (3 * natom) lxm'.
Proof.
  intros Hn HO E.
  apply (bdegnl_inv (fun s => orth (3 * natom) (fst s))) in E; [exact E| |exact HO].
  intros p q [l k] [l' k'] Hpq Hq Hp Hs Ep. cbn [fst] in *. assert (Npq : p <> q) by lia.
  pose proof (fun i c => pair_other _ _ _ _ _ _ _ _ _ _ _ _ Npq Ep i c) as Ho.
  destruct (pair_R _ _ _ _ _ _ _ _ _ _ _ _ Npq Ep) as (th & g & _ & HT).
  apply (turned_orth (3 * natom) _ _ _ p q l l' ltac:(lia) ltac:(lia) Npq HT); [|exact Hs].
  intros i c _ Nc Nd. now destruct (Ho i c Nc Nd).
Qed.

(** ** the mass-weighted matrix follows *)
Definition mass_weighted (natom : nat) (w : nat -> R) (lxm lx : nat -> nat -> R) : Prop :=
  forall i k, (i < 3 * natom)%nat -> (k < 3 * natom)%nat -> lx i k = lxm i k / sqrt (w (i / 3)%nat).

Lemma make_lx_weighted natom w lxm : mass_weighted natom w lxm (make_lx (3 * natom) (make_sqm w) lxm).
Proof.
  intros i k Hi Hk. rewrite make_lx_eq by assumption.
  unfold make_sqm. rewrite nz_R. cbn. unfold Rdiv. ring.
Qed.

Lemma weighted_kept linear natom nvib iatom order buddy freq w (lxm lx lxm' lx' : nat -> nat -> R) :
  mass_weighted natom w lxm lx ->
  bdegnl linear natom nvib iatom order buddy freq w lxm lx = Some (lxm', lx') ->
  mass_weighted natom w lxm' lx'.
Proof.
  intros HM E. apply (bdegnl_inv (fun s => mass_weighted natom w (fst s) (snd s))) in E; [exact E| |exact HM].
  intros a b [l k] [l' k'] Hab Hb Hp Hs Ep i c Hi Hc. cbn [fst snd] in *.
  assert (Nab : a <> b) by lia.
  destruct (Nat.eq_dec c a) as [Ea|Na]; [|destruct (Nat.eq_dec c b) as [Eb|Nb]].
  3: { destruct (pair_other _ _ _ _ _ _ _ _ _ _ _ _ Nab Ep i c Na Nb) as [-> ->]. now apply Hs. }
  all: unfold align_pair in Ep; destruct (align_angle _ _ _ _ _); cbn [obind] in Ep; [|discriminate];
    destruct (relative_sign _ _ _ _ _ _ _ _ _) as [m|]; cbn [obind] in Ep; [|discriminate];
    injection Ep as <- <-; rewrite refresh_eq;
    replace (i <? 3 * natom)%nat with true by (symmetry; now apply Nat.ltb_lt); subst c; rewrite Nat.eqb_refl, ?orb_true_r;
    cbn [andb orb]; rewrite nz_R; cbn; unfold Rdiv; ring.
Qed.

(** ** what the alignment achieves on the chosen atom *)
Definition toler : R := / 100000.
Definition big (x : R) : Prop := toler <= Rabs x.
(** x, y, z components of the chosen atom in the two old and the two new columns *)
Definition aligned (iatom : nat) (A B A' B' : nat -> R) : Prop :=
  let x := (3 * iatom)%nat in let y := (x + 1)%nat in let z := (x + 2)%nat in
  (big (A x) -> B' x = 0) /\
  (~ big (A x) -> big (B x) -> ~ big (B' x)) /\
  (~ big (A x) -> ~ big (B x) -> big (A y) -> ~ big (B y) -> ~ big (A' y)) /\
  (~ big (A x) -> ~ big (B x) -> ~ big (A y) -> ~ big (B y) ->
     (toler < Rabs (B z) -> A' z = 0) /\ (Rabs (B z) <= toler -> Rabs (A' z) <= toler)).

Lemma small_R x : @small R Rnum x = false <-> big x.
Proof.
  unfold small, big, TOLER. cbn [nltb nabs nlit Rnum]. rewrite Rltb_false.
  replace (1 / 100000) with toler by (unfold toler; lra). reflexivity.
Qed.
Lemma small_R' x : @small R Rnum x = true <-> ~ big x.
Proof. rewrite <- small_R. destruct (small x); split; congruence. Qed.

Lemma cos_half : cos (PI / (2 / 1)) = 0 /\ sin (PI / (2 / 1)) = 1.
Proof. replace (PI / (2 / 1)) with (PI / 2) by field. split; [apply cos_PI2|apply sin_PI2]. Qed.
Lemma atan_cos_sin t : exists r, 0 < r /\ r * r = 1 + t * t /\ cos (atan t) = 1 / r /\ sin (atan t) = t / r.
Proof.
  exists (sqrt (1 + t²)). assert (0 < 1 + t²) by (unfold Rsqr; nra).
  split; [now apply sqrt_lt_R0|]. split; [rewrite sqrt_sqrt by lra; reflexivity|].
  split; [apply cos_atan|apply sin_atan].
Qed.

Lemma angle_lemma linear natom iatom (l : nat -> nat -> R) a b th g (A' B' : nat -> R) :
  (iatom < natom)%nat ->
  align_angle linear iatom l a b = Some th ->
  turned (3 * natom) (cos th) (sin th) g (fun i => l i a) (fun i => l i b) A' B' ->
  aligned iatom (fun i => l i a) (fun i => l i b) A' B'.
Proof.
  intros Hi Ea (_ & Hg & Ht). unfold aligned. cbv zeta.
  set (x := (3 * iatom)%nat) in *. set (y := (x + 1)%nat) in *. set (z := (x + 2)%nat) in *.
  destruct (Ht x ltac:(lia)) as [_ Bx], (Ht y ltac:(lia)) as [Ay _], (Ht z ltac:(lia)) as [Az _].
  destruct cos_half as [HC HS].
  assert (HG : forall u, Rabs (g * u) = Rabs u).
  { intros u. rewrite Rabs_mult. destruct Hg as [-> | ->]; [rewrite Rabs_R1|rewrite (Rabs_left (-1)) by lra]; ring. }
  unfold align_angle, izero4 in Ea. cbn [natan npi Rtrig ndiv nmul nz nlit Rnum nabs] in Ea. cbv zeta in Ea. fold x y z in Ea.
  assert (T : @TOLER R Rnum = toler) by (unfold TOLER, toler; cbn; lra).
  refine (conj _ (conj _ (conj _ _))).
  - intros HA. rewrite (proj2 (small_R _) HA) in Ea. cbn [andb negb] in Ea. injection Ea as <-. unR.
    destruct (atan_cos_sin (l x b / l x a)) as (r & Hr & _ & Ec & Es).
    assert (l x a <> 0).
    { intros E0. unfold big in HA. rewrite E0, Rabs_R0 in HA. unfold toler in HA. lra. }
    rewrite Bx. unR. rewrite Ec, Es. field. split; assumption || lra.
  - intros HA HB. rewrite (proj2 (small_R' _) HA), (proj2 (small_R _) HB) in Ea.
    cbn [andb negb] in Ea. injection Ea as <-. rewrite HC, HS in Bx. unfold big. rewrite Bx, HG.
    replace (0 * l x b - 1 * l x a) with (- l x a) by ring. rewrite Rabs_Ropp. exact HA.
  - intros HA HB HAy HBy.
    rewrite (proj2 (small_R' _) HA), (proj2 (small_R' _) HB), (proj2 (small_R _) HAy), (proj2 (small_R' _) HBy) in Ea.
    cbn [andb negb] in Ea. injection Ea as <-. rewrite HC, HS in Ay. unfold big. rewrite Ay.
    replace (0 * l y a + 1 * l y b) with (l y b) by ring. exact HBy.
  - intros HA HB HAy HBy.
    rewrite (proj2 (small_R' _) HA), (proj2 (small_R' _) HB), (proj2 (small_R' _) HAy), (proj2 (small_R' _) HBy) in Ea.
    cbn [andb negb] in Ea. destruct linear; [discriminate|]. unfold ngtb in Ea. cbn [nltb Rnum] in Ea. rewrite T in Ea. split.
    + intros Hz. rewrite (proj2 (Rltb_true _ _) Hz) in Ea. injection Ea as <-. unR.
      destruct (atan_cos_sin (-1 / 1 * l z a / l z b)) as (r & Hr & _ & Ec & Es).
      assert (l z b <> 0).
      { intros E0. rewrite E0, Rabs_R0 in Hz. unfold toler in Hz. lra. }
      rewrite Az. unR. rewrite Ec, Es. field. split; assumption || lra.
    + intros Hz. rewrite (proj2 (Rltb_false _ _) Hz) in Ea. destruct (Rltb _ _); [|discriminate].
      injection Ea as <-. rewrite HC, HS in Az. rewrite Az.
      replace (0 * l z a + 1 * l z b) with (l z b) by ring. exact Hz.
Qed.

Lemma turned_ext n c s g A B A' B' C D C' D' :
  (forall i, A i = C i) -> (forall i, B i = D i) -> (forall i, A' i = C' i) -> (forall i, B' i = D' i) ->
  turned n c s g A B A' B' -> turned n c s g C D C' D'.
Proof.
  intros E1 E2 E3 E4 (H1 & H2 & H3). split; [exact H1|]. split; [exact H2|].
  intros i Hi. rewrite <- E1, <- E2, <- E3, <- E4. now apply H3.
Qed.
Lemma aligned_ext iatom A B A' B' C D C' D' :
  (forall i, A i = C i) -> (forall i, B i = D i) -> (forall i, A' i = C' i) -> (forall i, B' i = D' i) ->
  aligned iatom A B A' B' -> aligned iatom C D C' D'.
Proof. intros E1 E2 E3 E4. unfold aligned. cbv zeta. now rewrite !E1, !E2, !E3, !E4. Qed.

(** a pair without further partners, in the whole run *)
Lemma aligned_lemma linear natom nvib iatom order buddy freq w (lxm lx lxm' lx' : nat -> nat -> R) a b :
  (iatom < natom)%nat -> (a < b)%nat -> (b < nvib)%nat -> partners linear freq a b ->
  (forall m, (m < nvib)%nat -> m <> a -> m <> b -> ~ partners linear freq a m /\ ~ partners linear freq b m) ->
  bdegnl linear natom nvib iatom order buddy freq w lxm lx = Some (lxm', lx') ->
  (exists c s g, turned (3 * natom) c s g (fun i => lxm i a) (fun i => lxm i b) (fun i => lxm' i a) (fun i => lxm' i b)) /\
  aligned iatom (fun i => lxm i a) (fun i => lxm i b) (fun i => lxm' i a) (fun i => lxm' i b).
Proof.
  intros Hi Hab Hb Hp Hiso E.
  apply (isolated_lemma (fun s =>
    (exists c d g, turned (3 * natom) c d g (fun i => lxm i a) (fun i => lxm i b) (fun i => fst s i a) (fun i => fst s i b)) /\
    aligned iatom (fun i => lxm i a) (fun i => lxm i b) (fun i => fst s i a) (fun i => fst s i b))
    _ _ _ _ _ _ _ _ _ _ _ a b Hab Hb Hp Hiso) in E; [exact E| |].
  - intros l l' k k' [(c & d & g & HT) HA] He. cbn [fst] in *. split.
    + exists c, d, g. eapply turned_ext; [..|exact HT]; intros i; cbv beta; try reflexivity; symmetry; apply He.
    + eapply aligned_ext; [..|exact HA]; intros i; cbv beta; try reflexivity; symmetry; apply He.
  - intros l k [l' k'] He Ep. cbn [fst].
    destruct (pair_R _ _ _ _ _ _ _ _ _ _ _ _ (Nat.lt_neq _ _ Hab) Ep) as (th & g & Ea & HT). split.
    + exists (cos th), (sin th), g. eapply turned_ext; [..|exact HT]; intros i; cbv beta; try reflexivity; apply He.
    + pose proof (angle_lemma linear natom iatom l a b th g _ _ Hi Ea HT) as HA.
      eapply aligned_ext; [..|exact HA]; intros i; cbv beta; try reflexivity; apply He.
Qed.

(** when one pair panics *)
Lemma pair_panics linear natom iatom order buddy w a b (l lx : nat -> nat -> R) :
  let x := (3 * iatom)%nat in let y := (x + 1)%nat in let z := (x + 2)%nat in
  align_pair linear natom iatom order buddy w a b (l, lx) = None <->
  (~ big (l x a) /\ ~ big (l x b) /\ ~ big (l y a) /\ ~ big (l y b) /\
   (linear = true \/ Rabs (l z a) <= toler /\ Rabs (l z b) <= toler)) \/
  (linear = false /\ buddy = None).
Proof.
  cbv zeta. set (x := (3 * iatom)%nat). set (y := (x + 1)%nat). set (z := (x + 2)%nat).
  assert (T : @TOLER R Rnum = toler) by (unfold TOLER, toler; cbn; lra).
  assert (EA : align_angle linear iatom l a b = None <->
    (~ big (l x a) /\ ~ big (l x b) /\ ~ big (l y a) /\ ~ big (l y b) /\
     (linear = true \/ Rabs (l z a) <= toler /\ Rabs (l z b) <= toler))).
  { unfold align_angle, izero4. cbv zeta. fold x y z.
    rewrite <- !small_R'.
    destruct (small (l x a)); cbn [andb negb]; [|split; [discriminate|intros (H & _); discriminate]].
    destruct (small (l x b)); cbn [andb negb]; [|split; [discriminate|intros (_ & H & _); discriminate]].
    destruct (small (l y a)); cbn [andb negb]; [|split; [discriminate|intros (_ & _ & H & _); discriminate]].
    destruct (small (l y b)); cbn [andb negb]; [|split; [discriminate|intros (_ & _ & _ & H & _); discriminate]].
    destruct linear; [tauto|]. unfold ngtb. cbn [nltb nabs Rnum]. rewrite T.
    destruct (Rltb toler (Rabs (l z b))) eqn:Eb.
    { apply Rltb_true in Eb. split; [discriminate|]. intros (_ & _ & _ & _ & [H|[_ H]]); [discriminate|lra]. }
    apply Rltb_false in Eb. destruct (Rltb toler (Rabs (l z a))) eqn:Ez.
    { apply Rltb_true in Ez. split; [discriminate|]. intros (_ & _ & _ & _ & [H|[H _]]); [discriminate|lra]. }
    apply Rltb_false in Ez. tauto. }
  rewrite <- EA. unfold align_pair. destruct (align_angle linear iatom l a b); cbn [obind]; [|tauto].
  unfold relative_sign. destruct linear; cbn [obind].
  - split; [discriminate|]. intros [H|[H _]]; discriminate.
  - destruct buddy; cbn [obind]; split; try discriminate; try tauto. intros [H|[_ H]]; discriminate.
Qed.

(** ** the third branch of the angle does not align *)
(** one atom; neither mode moves it along x, both move it along y *)
Definition wt : R := / 1000000.
Definition wcol (i k : nat) : R :=
  match k, i with
  | 0%nat, 1%nat => 3 / 5 | 0%nat, 2%nat => 4 / 5
  | 1%nat, 0%nat => 2 * wt / (1 + wt * wt)
  | 1%nat, 1%nat => (1 - wt * wt) / (1 + wt * wt) * (4 / 5)
  | 1%nat, 2%nat => - ((1 - wt * wt) / (1 + wt * wt) * (3 / 5))
  | 2%nat, 0%nat => (1 - wt * wt) / (1 + wt * wt)
  | 2%nat, 1%nat => - (2 * wt / (1 + wt * wt) * (4 / 5))
  | 2%nat, 2%nat => 2 * wt / (1 + wt * wt) * (3 / 5)
  | _, _ => 0
  end.
Lemma align_refuted_lemma :
  exists natom nvib iatom order buddy (freq w : nat -> R) lxm lx lxm' lx' a b,
    (iatom < natom)%nat /\ (a < b)%nat /\ (b < nvib)%nat /\ partners false freq a b /\ orth (3 * natom) lxm /\
    bdegnl false natom nvib iatom order buddy freq w lxm lx = Some (lxm', lx') /\
    ~ big (lxm (3 * iatom)%nat a) /\ ~ big (lxm (3 * iatom)%nat b) /\
    ~ big (lxm' (3 * iatom)%nat a) /\ ~ big (lxm' (3 * iatom)%nat b) /\
    big (lxm' (3 * iatom + 1)%nat a) /\ big (lxm' (3 * iatom + 1)%nat b).
Proof.
  pose (d := 1 + wt * wt).
  assert (Hd : d = 1 + / 1000000000000) by (unfold d, wt; lra).
  assert (P : partners false (fun _ => 1000) 0 1).
  { unfold partners, align_tol. cbn. apply Rltb_true. rewrite Rminus_diag_eq by reflexivity. rewrite Rabs_R0. lra. }
  destruct (bdegnl false 1 2 0 3 (Some 0%nat) (fun _ => 1000) (fun _ => 1) wcol wcol) as [[l' k']|] eqn:E.
  2: { exfalso. unfold bdegnl in E. cbn [Nat.eqb] in E. change (range 0 (2 - 1)) with [0%nat] in E.
       cbn [ofold] in E. change (range (0 + 1) 2) with [1%nat] in E. cbn [ofold] in E.
       unfold partners in P. cbn [Nat.min Nat.max] in P. rewrite P in E.
       destruct (align_pair _ _ _ _ _ _ _ _ _) eqn:Ep; [discriminate|].
       apply pair_panics in Ep. destruct Ep as [(_ & _ & H & _)|[_ H]]; [|discriminate].
       apply H. unfold big, toler. cbn. rewrite Rabs_right by lra. lra. }
  exists 1%nat, 2%nat, 0%nat, 3%nat, (Some 0%nat), (fun _ => 1000), (fun _ => 1), wcol, wcol, l', k', 0%nat, 1%nat.
  do 3 (split; [lia|]). split; [exact P|].
  assert (NA : ~ big (wcol 0 0)) by (unfold big, toler; cbn; rewrite Rabs_R0; lra).
  assert (X : 0 < wcol 0 1 < 3 * wt).
  { cbn [wcol]. change (1 + wt * wt) with d. rewrite Hd. unfold wt. split; lra. }
  assert (NB : ~ big (wcol 0 1)) by (unfold big, toler; unfold wt in X; rewrite Rabs_right by lra; lra).
  assert (Y : 7 / 10 < wcol 1 1 < 4 / 5).
  { cbn [wcol]. change (1 + wt * wt) with d. rewrite Hd. unfold wt. split; lra. }
  assert (NY : big (wcol 1 1)) by (unfold big, toler; rewrite Rabs_right by lra; lra).
  split; [|split; [exact E|]].
  { unfold orth. split; intros i j Hi Hj; cbn in Hi, Hj; rewrite sum3; three i; three j; unfold delta; cbn [Nat.eqb wcol];
      change (1 + wt * wt) with d; rewrite ?Hd; unfold wt; lra. }
  unfold bdegnl in E. cbn [Nat.eqb] in E. change (range 0 (2 - 1)) with [0%nat] in E.
  cbn [ofold] in E. change (range (0 + 1) 2) with [1%nat] in E. cbn [ofold] in E.
  unfold partners in P. cbn [Nat.min Nat.max] in P. rewrite P in E.
  destruct (align_pair _ _ _ _ _ _ _ _ _) as [[l1 k1]|] eqn:Ep; [|discriminate]. injection E as -> ->.
  destruct (pair_R _ _ _ _ _ _ _ _ _ _ _ _ (Nat.neq_0_succ 0) Ep) as (th & g & Ea & _ & Hg & Ht).
  unfold align_angle, izero4 in Ea. cbv zeta in Ea. change (3 * 0)%nat with 0%nat in *. cbn [Nat.add] in *.
  rewrite (proj2 (small_R' _) NA), (proj2 (small_R' _) NB), (proj2 (small_R _) NY) in Ea.
  rewrite andb_false_r in Ea. cbn [negb] in Ea. injection Ea as Ea. unR.
  assert (W01 : wcol 0 1 = 2 * wt / (1 + wt * wt)) by reflexivity. rewrite <- W01 in Ea.
  set (t := -1 / 1 * (3 / 5) / wcol 0 1) in Ea.
  assert (Tt : t = - (3 / 5) / wcol 0 1) by (unfold t; field; lra).
  clearbody t.
  destruct (atan_cos_sin t) as (r & Hr & Hrr & Ec & Es). cbn [natan Rtrig] in Ea. rewrite Ea in Ec, Es.
  assert (TX : t * wcol 0 1 = - (3 / 5)) by (rewrite Tt; field; lra).
  assert (T1 : t < - 100000) by (unfold wt in X; nra).
  assert (R1 : - t < r < 2 * - t) by (split; nra).
  destruct (Ht 0%nat ltac:(lia)) as [A0 B0], (Ht 1%nat ltac:(lia)) as [A1 B1].
  rewrite Ec, Es in A0, B0, A1, B1.
  assert (HG : forall u, Rabs (g * u) = Rabs u).
  { intros u. rewrite Rabs_mult. destruct Hg as [-> | ->]; [rewrite Rabs_R1|rewrite (Rabs_left (-1)) by lra]; ring. }
  assert (Q1 : 1 / r < / 100000).
  { apply Rmult_lt_reg_r with r; [lra|]. replace (1 / r * r) with 1 by (field; lra). lra. }
  assert (Q0 : 0 < 1 / r) by (apply Rdiv_lt_0_compat; lra).
  assert (S1 : -1 < t / r < - (1 / 2)).
  { split; apply Rmult_lt_reg_r with r; try lra; replace (t / r * r) with t by (field; lra); lra. }
  set (c := 1 / r) in *. set (s := t / r) in *. change (wcol 0 0) with 0 in *. change (wcol 1 0) with (3 / 5) in *.
  assert (SX : - (3 * wt) < s * wcol 0 1 < 0) by (unfold wt in *; nra).
  assert (CX : 0 < c * wcol 0 1 < 3 * wt) by (unfold wt in *; nra).
  refine (conj NA (conj NB (conj _ (conj _ (conj _ _))))); unfold big, toler; cbv beta in *.
  - rewrite A0. unfold wt in *. rewrite Rabs_left by lra. lra.
  - rewrite B0, HG. unfold wt in *. rewrite Rabs_right by lra. lra.
  - rewrite A1. assert (s * wcol 1 1 < - (7 / 20)) by nra. rewrite Rabs_left by lra. lra.
  - rewrite B1, HG. assert (0 < c * wcol 1 1) by nra. rewrite Rabs_right by lra. lra.
Qed.

(** an instance: two modes of one atom, turned away from the axes, and a third mode *)
Definition tcol (i k : nat) : R :=
  match i, k with
  | 0%nat, 0%nat => 3 / 5 | 1%nat, 0%nat => 4 / 5
  | 0%nat, 1%nat => - (4 / 5) | 1%nat, 1%nat => 3 / 5
  | 2%nat, 2%nat => 1
  | _, _ => 0
  end.
Definition tfreq (k : nat) : R := if Nat.eqb k 2 then 500 else 1000.
Definition tforce (i j : nat) : R := if Nat.eqb i j then if Nat.eqb i 2 then 1 else 4 else 0.
Lemma align_example :
  orth 3 tcol /\ eigen_system 3 tforce [4; 4; 1] tcol /\
  partners true tfreq 0 1 /\ ~ partners true tfreq 0 2 /\ ~ partners true tfreq 1 2 /\
  mass_weighted 1 (fun _ => 4) tcol (fun i k => tcol i k / 2) /\
  exists lxm' lx',
    bdegnl true 1 3 0 3 None tfreq (fun _ => 4) tcol (fun i k => tcol i k / 2) = Some (lxm', lx').
Proof.
  assert (O : orth 3 tcol).
  { unfold orth. split; intros i j Hi Hj; rewrite sum3; three i; three j; unfold delta; cbn [Nat.eqb tcol]; lra. }
  assert (Q : forall a b, partners true tfreq a b <-> Rabs (tfreq (Nat.min a b) - tfreq (Nat.max a b)) < 1).
  { intros a b. unfold partners, align_tol. rewrite nz_R. cbn [nltb nabs nsub Rnum]. apply Rltb_true. }
  assert (P01 : partners true tfreq 0 1).
  { apply Q. cbn. rewrite Rminus_diag_eq by reflexivity. rewrite Rabs_R0. lra. }
  assert (P02 : ~ partners true tfreq 0 2).
  { rewrite Q. cbn. rewrite Rabs_right; lra. }
  assert (P12 : ~ partners true tfreq 1 2).
  { rewrite Q. cbn. rewrite Rabs_right; lra. }
  split; [exact O|]. split.
  { split; [reflexivity|]. split; [exact O|]. intros a i x Ha Hx. rewrite sum3.
    three a; destruct i as [|[|[|i]]]; try (destruct i; discriminate); injection Hx as <-;
      unfold tforce; cbn [Nat.eqb tcol]; lra. }
  split; [exact P01|]. split; [exact P02|]. split; [exact P12|]. split.
  { intros i k _ _. replace 4 with (2 * 2) by lra. now rewrite sqrt_square by lra. }
  destruct (bdegnl true 1 3 0 3 None tfreq (fun _ => 4) tcol (fun i k => tcol i k / 2)) as [[l' k']|] eqn:E;
    [eauto|exfalso].
  unfold bdegnl in E. cbn [Nat.eqb] in E. change (range 0 (3 - 1)) with [0%nat; 1%nat] in E.
  cbn [ofold] in E. change (range (0 + 1) 3) with [1%nat; 2%nat] in E.
  change (range (1 + 1) 3) with [2%nat] in E. cbn [ofold] in E.
  unfold partners in P01, P02, P12. cbn [Nat.min Nat.max] in P01, P02, P12. rewrite P01 in E.
  apply not_true_is_false in P02, P12. rewrite P02, P12 in E.
  destruct (align_pair _ _ _ _ _ _ _ _ _) eqn:Ep; [discriminate|].
  apply pair_panics in Ep. destruct Ep as [(H & _)|[H _]]; [|discriminate].
  apply H. unfold big, toler. cbn. rewrite Rabs_right by lra. lra.
Qed.
