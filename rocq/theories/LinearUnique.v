(** The energy of a rotating linear molecule determines its distortion constants. *)
From Coq Require Import Reals Lra List ZArith Arith Lia Bool.
From Verif Require Import Num Loops AnharmFacts VibRotFacts TransformFacts RotFacts ModeFacts ZeroFacts RunRot RotorMech LinearMech.
Import ListNotations.
Open Scope nat_scope.
Local Open Scope R_scope.

Lemma order_eq (k : nat) a b C d : 0 < d -> (forall e, 0 < e < d -> Rabs (e ^ k * (a - b)) <= C * (e ^ k * e ^ 2)) -> a = b.
Proof.
  intros Hd H. destruct (Req_dec a b) as [E|Ne]; [exact E|exfalso].
  assert (P : 0 < Rabs (a - b)) by (apply Rabs_pos_lt; lra).
  set (D := Rabs (a - b)) in *.
  set (M := Rabs C + 1). assert (PM : 1 <= M) by (unfold M; pose proof (Rabs_pos C); lra).
  set (e := Rmin (d / 2) (Rmin 1 (D / (2 * M)))).
  assert (P2 : 0 < D / (2 * M)) by (apply Rdiv_lt_0_compat; lra).
  assert (L1 : e <= d / 2) by apply Rmin_l.
  assert (L2 : e <= 1) by (eapply Rle_trans; [apply Rmin_r|apply Rmin_l]).
  assert (L3 : e <= D / (2 * M)) by (eapply Rle_trans; [apply Rmin_r|apply Rmin_r]).
  assert (Pe : 0 < e) by (unfold e; repeat apply Rmin_glb_lt; lra).
  specialize (H e ltac:(lra)). rewrite Rabs_mult in H. fold D in H.
  assert (Pk : 0 < e ^ k) by now apply pow_lt.
  rewrite (Rabs_pos_eq (e ^ k)) in H by lra.
  assert (H' : D <= C * e ^ 2).
  { apply Rmult_le_reg_l with (e ^ k); [exact Pk|]. lra. }
  assert (C <= M) by (unfold M; pose proof (Rle_abs C); lra).
  assert (Q2 : 0 < e ^ 2) by now apply pow_lt.
  assert (S2 : e ^ 2 <= e) by (replace (e ^ 2) with (e * e) by ring; rewrite <- (Rmult_1_r e) at 3; apply Rmult_le_compat_l; lra).
  assert (C * e ^ 2 <= M * e) by (eapply Rle_trans; [apply Rmult_le_compat_r; [lra|eassumption]|apply Rmult_le_compat_l; lra]).
  assert (M * e <= M * (D / (2 * M))) by (apply Rmult_le_compat_l; lra).
  assert (M * (D / (2 * M)) = D / 2) by (field; lra). lra.
Qed.

Lemma near_exists n w f3 : exists V, cubic_near n w f3 V.
Proof.
  exists (fun q => / 2 * Sum n (fun k => w k * q k ^ 2) + / 6 * Sum n (fun i => Sum n (fun j => Sum n (fun k => f3 i j k * q i * q j * q k)))).
  intros q. exists 0, 1. split; [lra|]. intros t _. rewrite Rmult_0_l. right. rewrite <- Rabs_R0. f_equal.
  assert (E2 : Sum n (fun k => w k * (t * q k) ^ 2) = t ^ 2 * Sum n (fun k => w k * q k ^ 2)).
  { rewrite <- Rsum_scal. apply sum_g. intros. ring. }
  assert (E3 : Sum n (fun i => Sum n (fun j => Sum n (fun k => f3 i j k * (t * q i) * (t * q j) * (t * q k))))
    = t ^ 3 * Sum n (fun i => Sum n (fun j => Sum n (fun k => f3 i j k * q i * q j * q k)))).
  { rewrite <- Rsum_scal. apply sum_g. intros. rewrite <- Rsum_scal. apply sum_g. intros. rewrite <- Rsum_scal. apply sum_g. intros. ring. }
  rewrite E2, E3. ring.
Qed.

Lemma square_sum_0 n (w u : nat -> R) : (forall k, (k < n)%nat -> 0 < w k) -> Sum n (fun k => w k * u k ^ 2) <= 0 -> forall k, (k < n)%nat -> u k = 0.
Proof.
  intros Hw H k Hk. destruct (Req_dec (u k) 0) as [E|Ne]; [exact E|exfalso].
  assert (P : 0 < w k * u k ^ 2) by (apply Rmult_lt_0_compat; [now apply Hw|]; rewrite <- Rsqr_pow2; now apply Rsqr_pos_lt).
  assert (G : forall i, (i < n)%nat -> 0 <= w i * u i ^ 2) by (intros i Hi; apply Rmult_le_pos; [left; now apply Hw|apply pow2_ge_0]).
  assert (Le : Sum n (fun i => if (i =? k)%nat then w k * u k ^ 2 else 0) <= Sum n (fun i => w i * u i ^ 2)).
  { apply Rsum_le. intros i Hi%in_seq. destruct (Nat.eqb_spec i k) as [->|_]; [lra|apply G; lia]. }
  rewrite (Rsum_only _ n k Hk) in Le; [rewrite Nat.eqb_refl in Le; lra|].
  intros i _ Ne'. apply Nat.eqb_neq in Ne'. now rewrite Ne'.
Qed.
Lemma square_sum_ge n (w u : nat -> R) : (forall k, (k < n)%nat -> 0 < w k) -> 0 <= Sum n (fun k => w k * u k ^ 2).
Proof.
  intros Hw. rewrite <- (Rsum_0 (fun _ => 0) (seq 0 n)) by reflexivity. apply Rsum_le. intros k Hk%in_seq.
  apply Rmult_le_pos; [left; apply Hw; lia|apply pow2_ge_0].
Qed.

(** the energy of the motions with angular momentum along x determines both constants *)
Lemma linear_unique N n m geom lx w f3 K lam B D H D' H' :
  (forall k, (k < n)%nat -> 0 < w k) ->
  linear_energy N n m geom lx w f3 K lam B D H -> linear_energy N n m geom lx w f3 K lam B D' H' -> D = D' /\ H = H'.
Proof.
  intros Hw (c & r & L) (c' & r' & L').
  destruct (near_exists n w f3) as (V & HV). specialize (L V HV 1 0). specialize (L' V HV 1 0). cbv zeta in L, L'.
  replace (1 ^ 2 + 0 ^ 2) with 1 in L, L' by ring.
  assert (Q4 : forall q, - D + / 2 * Sum n (fun k => w k * (q k - c k) ^ 2) = - D' + / 2 * Sum n (fun k => w k * (q k - c' k) ^ 2)).
  { intros q. destruct (L q (fun _ => 0)) as ((d0 & P0 & M0) & (C1 & d1 & P1 & E1) & _).
    destruct (L' q (fun _ => 0)) as (_ & (C2 & d2 & P2 & E2) & _).
    apply (order_eq 4 _ _ (C1 + C2) (Rmin d0 (Rmin d1 d2))); [repeat apply Rmin_glb_lt; lra|].
    intros e [He1 He2].
    assert (L0 : e < d0) by (eapply Rlt_le_trans; [exact He2|apply Rmin_l]).
    assert (L1 : e < d1) by (eapply Rlt_le_trans; [exact He2|eapply Rle_trans; [apply Rmin_r|apply Rmin_l]]).
    assert (L2 : e < d2) by (eapply Rlt_le_trans; [exact He2|eapply Rle_trans; [apply Rmin_r|apply Rmin_r]]).
    destruct (M0 e) as (v & Mv); [rewrite Rabs_pos_eq; lra|].
    specialize (E1 e v ltac:(rewrite Rabs_pos_eq; lra) Mv). specialize (E2 e v ltac:(rewrite Rabs_pos_eq; lra) Mv).
    rewrite (sum_g n (fun k => w k * (q k - c k * 1) ^ 2) (fun k => w k * (q k - c k) ^ 2)) in E1 by (intros; f_equal; f_equal; ring).
    rewrite (sum_g n (fun k => w k * (q k - c' k * 1) ^ 2) (fun k => w k * (q k - c' k) ^ 2)) in E2 by (intros; f_equal; f_equal; ring).
    set (En := energy _ _ _ _ _ _) in *.
    set (s1 := Sum n (fun k => w k * (q k - c k) ^ 2)) in *. set (s2 := Sum n (fun k => w k * (q k - c' k) ^ 2)) in *.
    match goal with |- Rabs ?t <= _ => replace t with ((En - (e ^ 2 * (B * 1) + e ^ 4 * (- D' * 1 ^ 2 + / 2 * s2))) - (En - (e ^ 2 * (B * 1) + e ^ 4 * (- D * 1 ^ 2 + / 2 * s1)))) by ring end.
    eapply Rle_trans; [apply Rabs_triang|]. rewrite Rabs_Ropp. replace ((C1 + C2) * (e ^ 4 * e ^ 2)) with (C1 * e ^ 6 + C2 * e ^ 6) by ring. lra. }
  assert (Z : forall u : nat -> R, Sum n (fun k => w k * (u k - u k) ^ 2) = 0) by (intros u; apply Rsum_0; intros; ring).
  pose proof (Q4 c) as A1. pose proof (Q4 c') as A2. rewrite Z in A1, A2.
  pose proof (square_sum_ge n w (fun k => c k - c' k) Hw) as G1. pose proof (square_sum_ge n w (fun k => c' k - c k) Hw) as G2. cbv beta in G1, G2.
  assert (ED : D = D') by lra. split; [exact ED|].
  assert (Ec : forall k, (k < n)%nat -> c k = c' k).
  { intros k Hk. pose proof (square_sum_0 n w (fun k => c k - c' k) Hw ltac:(cbv beta; lra) k Hk). cbv beta in *. lra. }
  assert (Q6 : forall p, H + / 2 * Sum n (fun k => w k * (p k - r 1 0 k) ^ 2) = H' + / 2 * Sum n (fun k => w k * (p k - r' 1 0 k) ^ 2)).
  { intros p. destruct (L c p) as ((d0 & P0 & M0) & _ & F1). destruct (L' c p) as (_ & _ & F2).
    destruct F1 as (C1 & d1 & P1 & E1); [intros; ring|]. destruct F2 as (C2 & d2 & P2 & E2); [intros k Hk; rewrite Ec by exact Hk; ring|].
    apply (order_eq 6 _ _ (C1 + C2) (Rmin d0 (Rmin d1 d2))); [repeat apply Rmin_glb_lt; lra|].
    intros e [He1 He2].
    assert (L0 : e < d0) by (eapply Rlt_le_trans; [exact He2|apply Rmin_l]).
    assert (L1 : e < d1) by (eapply Rlt_le_trans; [exact He2|eapply Rle_trans; [apply Rmin_r|apply Rmin_l]]).
    assert (L2 : e < d2) by (eapply Rlt_le_trans; [exact He2|eapply Rle_trans; [apply Rmin_r|apply Rmin_r]]).
    destruct (M0 e) as (v & Mv); [rewrite Rabs_pos_eq; lra|].
    specialize (E1 e v ltac:(rewrite Rabs_pos_eq; lra) Mv). specialize (E2 e v ltac:(rewrite Rabs_pos_eq; lra) Mv).
    rewrite <- ED in E2.
    set (En := energy _ _ _ _ _ _) in *.
    set (s1 := Sum n (fun k => w k * (p k - r 1 0 k) ^ 2)) in *. set (s2 := Sum n (fun k => w k * (p k - r' 1 0 k) ^ 2)) in *.
    match goal with |- Rabs ?t <= _ => replace t with ((En - (e ^ 2 * (B * 1) - e ^ 4 * (D * 1 ^ 2) + e ^ 6 * (H' * 1 ^ 3 + / 2 * s2))) - (En - (e ^ 2 * (B * 1) - e ^ 4 * (D * 1 ^ 2) + e ^ 6 * (H * 1 ^ 3 + / 2 * s1)))) by ring end.
    eapply Rle_trans; [apply Rabs_triang|]. rewrite Rabs_Ropp. replace ((C1 + C2) * (e ^ 6 * e ^ 2)) with (C1 * e ^ 8 + C2 * e ^ 8) by ring. lra. }
  pose proof (Q6 (r 1 0)) as A3. pose proof (Q6 (r' 1 0)) as A4. rewrite Z in A3, A4.
  pose proof (square_sum_ge n w (fun k => r 1 0 k - r' 1 0 k) Hw) as G3. pose proof (square_sum_ge n w (fun k => r' 1 0 k - r 1 0 k) Hw) as G4. cbv beta in G3, G4. lra.
Qed.
