(** Lemmas about the centrifugal distortion constants. *)
From Coq Require Import Reals Lra Lia List ZArith Arith Bool Psatz SpecFloat.
From Verif Require Import Num Loops Index Modes Anharm VibRot Distort.
From Verif Require Import ListFacts ModesFacts ResFacts AnharmFacts EnergyFacts VibRotFacts.
Import ListNotations.
Open Scope nat_scope.

(** ** axis tables *)
Lemma axes_lemma irep :
  (irep < 6 -> exists c e, princ_cart irep = Some (c, e) /\
     forall i, i < 3 -> at3 c i < 3 /\ at3 e i < 3 /\ at3 e (at3 c i) = i /\ at3 c (at3 e i) = i) /\
  (6 <= irep -> princ_cart irep = None).
Proof.
  split.
  - intros Hi. destruct irep as [|[|[|[|[|[|]]]]]]; try lia;
      (eexists; eexists; split; [reflexivity|]);
      intros i Hl; destruct i as [|[|[|]]]; try lia; cbn; repeat split; lia.
  - intros Hi. do 6 (destruct irep as [|irep]; [lia|]). cbn.
    destruct irep; reflexivity.
Qed.

(** ** the quartic tensor *)
Open Scope R_scope.

(** tau as in the literature, with the code's constant *)
Definition tau_spec (nvib : nat) (w I : nat -> R) (wl : nat -> nat -> R) (i j k l : nat) : R :=
  - / 2 * (3833384078 / 100000) *
  Rsum (seq 0 nvib) (fun v =>
    wl v (acol i j) * wl v (acol k l) / (w v ^ 2 * I i * I j * I k * I l)).

Lemma wcol_acol i j : (i < 3)%nat -> (j < 3)%nat -> wcol i j = acol i j.
Proof.
  intros Hi Hj. destruct i as [|[|[|]]]; try lia; destruct j as [|[|[|]]]; try lia; reflexivity.
Qed.
Lemma acol_sym i j : (i < 3)%nat -> (j < 3)%nat -> acol i j = acol j i.
Proof.
  intros Hi Hj. destruct i as [|[|[|]]]; try lia; destruct j as [|[|[|]]]; try lia; reflexivity.
Qed.
Lemma nlit_mhalf : @nlit R Rnum (-1) 2 = - / 2.
Proof. cbn. unfold Rdiv. lra. Qed.

Lemma make_tau_R nvib w I wl i j k l :
  (i < 3)%nat -> (j < 3)%nat -> (k < 3)%nat -> (l < 3)%nat ->
  make_tau nvib w I wl i j k l = tau_spec nvib w I wl i j k l.
Proof.
  intros. unfold make_tau, tau_spec. rewrite nsum_R, range_0, !wcol_acol by assumption.
  rewrite nlit_mhalf. unfold CONST1, nsq. cbn [nmul ndiv Rnum nlit].
  f_equal. apply Rsum_ext. intros v _. cbn [pow]. rewrite Rmult_1_r. reflexivity.
Qed.

Lemma tau_sym_lemma nvib w I wl i j k l :
  (i < 3)%nat -> (j < 3)%nat -> (k < 3)%nat -> (l < 3)%nat ->
  let tau := make_tau (F := R) nvib w I wl in
  tau i j k l = tau_spec nvib w I wl i j k l /\
  tau i j k l = tau j i k l /\ tau i j k l = tau i j l k /\ tau i j k l = tau k l i j.
Proof.
  intros Hi Hj Hk Hl tau. unfold tau. rewrite !make_tau_R by assumption.
  split; [reflexivity|]. unfold tau_spec.
  repeat split; f_equal; apply Rsum_ext; intros v _.
  - rewrite (acol_sym i j) by assumption. f_equal. ring.
  - rewrite (acol_sym k l) by assumption. f_equal. ring.
  - f_equal; ring.
Qed.

Lemma Rsum_nonneg {A} (f : A -> R) l : (forall a, In a l -> 0 <= f a) -> 0 <= Rsum l f.
Proof.
  intros E. induction l as [|a l IH]; [cbn; lra|]. rewrite Rsum_cons.
  apply Rplus_le_le_0_compat; [apply E; cbn; auto|]. apply IH. intros b Hb. apply E. cbn. auto.
Qed.

Lemma tau_diag_lemma nvib w I wl i j :
  (i < 3)%nat -> (j < 3)%nat -> (forall v, (v < nvib)%nat -> 0 < w v) ->
  (forall x, (x < 3)%nat -> 0 < I x) ->
  make_tau (F := R) nvib w I wl i j i j <= 0.
Proof.
  intros Hi Hj Hw HI. rewrite make_tau_R by assumption. unfold tau_spec.
  assert (0 <= Rsum (seq 0 nvib) (fun v =>
    wl v (acol i j) * wl v (acol i j) / (w v ^ 2 * I i * I j * I i * I j))) as P; [|lra].
  apply Rsum_nonneg. intros v Hv. apply in_seq in Hv.
  pose proof (Hw v ltac:(lia)). pose proof (HI i Hi). pose proof (HI j Hj).
  unfold Rdiv. apply Rmult_le_pos; [apply Rle_0_sqr|].
  apply Rlt_le, Rinv_0_lt_compat. repeat apply Rmult_lt_0_compat; try assumption; lra.
Qed.

Definition taup_spec (nvib : nat) (w I : nat -> R) (wl : nat -> nat -> R) (i j : nat) : R :=
  if (i =? j)%nat then tau_spec nvib w I wl i i i i
  else tau_spec nvib w I wl i i j j + 2 * tau_spec nvib w I wl i j i j.

Lemma taup_R nvib w I wl i j : (i < 3)%nat -> (j < 3)%nat ->
  tau_prime (make_tau (F := R) nvib w I wl) i j = taup_spec nvib w I wl i j.
Proof.
  intros Hi Hj. unfold tau_prime, taup_spec. destruct (Nat.eqb_spec i j) as [<-|N].
  - now apply make_tau_R.
  - rewrite !make_tau_R by assumption. cbn [nadd nmul Rnum]. now rewrite nz_R.
Qed.

Lemma taup_sym_lemma nvib w I wl i j : (i < 3)%nat -> (j < 3)%nat ->
  let tp := tau_prime (make_tau (F := R) nvib w I wl) in
  tp i j = taup_spec nvib w I wl i j /\ tp i j = tp j i.
Proof.
  intros Hi Hj tp. unfold tp. split; [now apply taup_R|].
  unfold tau_prime. rewrite (Nat.eqb_sym j i).
  destruct (tau_sym_lemma nvib w I wl i i j j Hi Hi Hj Hj) as (_ & _ & _ & E1).
  destruct (tau_sym_lemma nvib w I wl i j i j Hi Hj Hi Hj) as (_ & E2 & _ & _).
  destruct (tau_sym_lemma nvib w I wl j i i j Hj Hi Hi Hj) as (_ & _ & E3 & _).
  cbn zeta in *. rewrite E1, E2, E3. destruct (Nat.eqb_spec i j) as [<-|N]; reflexivity.
Qed.

(** equilibrium distortion constant of a linear or diatomic molecule *)
Lemma de_lemma r nvib (B I w : nat -> R) wl :
  r = Linear \/ r = Diatomic ->
  (forall v, (v < nvib)%nat -> 0 < w v) -> (forall x, (x < 3)%nat -> 0 < I x) ->
  exists q, quartic_new r nvib B I w wl = Some q /\ 0 <= de q /\
    de q = - taup_spec nvib w I wl (if is_diatomic r then 1 else 0)%nat
                                   (if is_diatomic r then 1 else 0)%nat / 4.
Proof.
  intros Hr Hw HI.
  assert (D : forall x, (x < 3)%nat -> taup_spec nvib w I wl x x <= 0).
  { intros x Hx. unfold taup_spec. rewrite Nat.eqb_refl.
    rewrite <- make_tau_R by assumption. now apply tau_diag_lemma. }
  destruct Hr as [->| ->]; (eexists; split; [reflexivity|]);
    cbn [de quartic_linear is_diatomic];
    unfold upd2; cbn [Nat.eqb andb nopp ndiv Rnum at3 fst snd];
    rewrite nz_R, taup_R by lia; pose proof (D 0%nat ltac:(lia)); pose proof (D 1%nat ltac:(lia)); split; lra.
Qed.

(** ** quartic constants of an asymmetric top, representation I^r: x = 1, y = 2, z = 0 *)
Section Asym.
  Variables (nvib : nat) (B I w : nat -> R) (wl : nat -> nat -> R).
  Let Bx := B 1%nat. Let By := B 2%nat. Let Bz := B 0%nat.
  Let T a b := taup_spec nvib w I wl a b / 4.
  Let x := 1%nat. Let y := 2%nat. Let z := 0%nat.

  Lemma make_t_asym : exists t,
    make_t 3 (2, 0, 1)%nat (tau_prime (make_tau (F := R) nvib w I wl)) = Some t /\
    t 0%nat 0%nat = T x x /\ t 1%nat 1%nat = T y y /\ t 2%nat 2%nat = T z z /\
    t 0%nat 1%nat = T x y /\ t 0%nat 2%nat = T x z /\ t 1%nat 2%nat = T y z.
  Proof.
    eexists. split; [reflexivity|]. unfold upd2, at3. cbn [Nat.eqb andb fst snd ndiv Rnum].
    rewrite !nz_R, !taup_R by lia. unfold T.
    pose proof (fun i j Hi Hj => proj2 (taup_sym_lemma nvib w I wl i j Hi Hj)) as S.
    cbn zeta in S.
    assert (E : forall i j, (i < 3)%nat -> (j < 3)%nat -> taup_spec nvib w I wl i j = taup_spec nvib w I wl j i).
    { intros i j Hi Hj. rewrite <- !taup_R by assumption. now apply S. }
    repeat split; try reflexivity.
  Qed.

  Lemma watson_lemma : Bx <> By -> 2 * Bz <> Bx + By ->
    let s := (2 * Bz - Bx - By) / (Bx - By) in
    exists q, quartic_new AsymmTop nvib B I w wl = Some q /\
      (** Watson's conversion between the two reductions *)
      delj q = dj q - 2 * sd2 q /\
      deljk q = djk q + 12 * sd2 q /\
      delk q = dk q - 10 * sd2 q /\
      sdelj q = - sd1 q /\
      sdelk q = - 4 * s * sd2 q /\
      bxa q - bxs q = - 4 * (2 * s + 1) * sd2 q /\
      bya q - bys q = 4 * (2 * s - 1) * sd2 q /\
      bza q - bzs q = 10 * sd2 q /\
      (** what the constants of the A reduction are *)
      delj q + 2 * sdelj q = - T x x /\
      delj q - 2 * sdelj q = - T y y /\
      delj q + deljk q + delk q = - T z z /\
      2 * delj q + deljk q = (T x x + T y y) / 2 - (T x y + T x z + T y z) /\
      sdelk q = (T y z - T x z) / 2 + (T x x - T y y) / 4 - s * (T x x + T y y - 2 * T x y) / 4 /\
      bxa q = Bx - (s + 1) * (T x x + T y y - 2 * T x y) / 2 /\
      bya q = By + (s - 1) * (T x x + T y y - 2 * T x y) / 2 /\
      bza q = Bz + (T x x + T y y - 2 * T x y) /\
      sigma q = s.
  Proof.
    intros N1 N2 s.
    assert (Hs : s <> 0).
    { unfold s. intros E. apply Rmult_integral in E as [E|E]; [lra|].
      revert E. apply Rinv_neq_0_compat. lra. }
    destruct make_t_asym as (t & Et & T00 & T11 & T22 & T01 & T02 & T12).
    unfold quartic_new. cbn [is_linear princ_cart IPTOC ICTOP nth_error obind].
    rewrite Et. cbn [obind is_diatomic is_sym_top is_asymm_top is_spherical_top andb negb].
    unfold make_tsix. cbn [princ_cart IPTOC ICTOP nth_error obind].
    eexists. split; [reflexivity|].
    cbn [delj deljk delk sdelj sdelk dj djk dk sd1 sd2 bxa bya bza bxs bys bzs sigma].
    cbn [at3 fst snd nadd nsub nmul ndiv nopp Rnum]. rewrite !nz_R.
    rewrite T00, T11, T22, T01, T02, T12.
    change (@nlit R Rnum 1 2) with (1 / 2). change (@nlit R Rnum 5 2) with (5 / 2).
    change (@nlit R Rnum 1 4) with (1 / 4).
    fold Bx By Bz. fold s. set (a := T x x). set (b := T y y). set (c := T z z).
    set (e := T x y). set (f := T x z). set (g := T y z). clearbody a b c e f g s.
    repeat split; field; exact Hs.
  Qed.
End Asym.
