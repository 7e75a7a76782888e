(** The sum rule that connects the derivatives of the inertia tensor with the Coriolis constants. *)
From Coq Require Import Reals Lra List ZArith NArith Arith Lia Bool FunctionalExtensionality.
From Verif Require Import Num Loops ListFacts Modes ModesFacts ResFacts AnharmFacts VibRot VibRotFacts TransformFacts RotFacts
  NormalFacts ModeFacts ZeroFacts InertiaFacts EckartFacts RunSecond RunRot RotFiles TriangleWitness.
Import ListNotations.
Open Scope R_scope.

(** the modes of a free molecule: orthonormal with the masses as weights, without linear and
    angular momentum; the geometry has its centre of mass at the origin and principal axes *)
Definition free_modes (N n : nat) (m : nat -> R) (geom : nat -> R * R * R) (I : nat -> R) (lx : nat -> nat -> R) : Prop :=
  (forall x, (x < 3)%nat -> Sum N (fun q => m q * comp (geom q) x) = 0) /\
  (forall x y, (x < 3)%nat -> (y < 3)%nat -> inertia N m geom x y = kron x y * I x) /\
  (forall i j, (i < n)%nat -> (j < n)%nat ->
     Sum (3 * N) (fun a => m (a / 3)%nat * lx a i * lx a j) = (if (i =? j)%nat then 1 else 0)) /\
  (forall k x, (k < n)%nat -> (x < 3)%nat -> Sum N (fun q => m q * lx (3 * q + x)%nat k) = 0) /\
  (forall k x y, (k < n)%nat -> (x < 3)%nat -> (y < 3)%nat ->
     Sum N (fun q => m q * (comp (geom q) x * lx (3 * q + y)%nat k - comp (geom q) y * lx (3 * q + x)%nat k)) = 0).

Section Rule.
  Variables (N n : nat) (m : nat -> R) (geom : nat -> R * R * R) (I : nat -> R) (lx : nat -> nat -> R).
  Hypothesis Hn : (3 * N = n + 6)%nat.
  Hypothesis Hm : forall q, (q < N)%nat -> 0 < m q.
  Hypothesis HI : forall x, (x < 3)%nat -> 0 < I x.
  Hypothesis HF : free_modes N n m geom I lx.
  Let HN : (0 < N)%nat. Proof. lia. Qed.
  Let M : R := Sum N m.
  Let PM : 0 < M. Proof. apply sum_pos; [lia|exact Hm]. Qed.

  Definition turnv (d : nat) (a : nat) : R := Sum 3 (fun b => about d (a mod 3) b * comp (geom (a / 3)%nat) b).
  (** modes, translations and rotations *)
  Definition col (a k : nat) : R :=
    if (k <? n)%nat then lx a k
    else if (k <? n + 3)%nat then kron (a mod 3) (k - n) / sqrt M
    else turnv (k - n - 3) a / sqrt (I (k - n - 3)%nat).
  Definition ip (f g : nat -> R) : R := Sum (3 * N) (fun a => m (a / 3)%nat * f a * g a).

  Lemma ip_blocks f g : ip f g = Sum N (fun q => m q * Sum 3 (fun x => f (3 * q + x)%nat * g (3 * q + x)%nat)).
  Proof. clear PM HN HF HI Hm Hn.
    unfold ip. rewrite sum_blocks. apply sum_g. intros q _. rewrite <- Rsum_scal. apply sum_g. intros x Hx.
    rewrite div_block by exact Hx. ring.
  Qed.
  Lemma ip_scal c f g : ip f (fun a => g a / c) = ip f g / c.
  Proof. clear PM HN HF HI Hm Hn. unfold ip, Rdiv. rewrite <- Rsum_scal_r. apply Rsum_ext. intros. ring. Qed.
  Lemma ip_com f g : ip f g = ip g f.
  Proof. clear PM HN HF HI Hm Hn. unfold ip. apply Rsum_ext. intros. ring. Qed.

  Lemma ip_shift f d : (d < 3)%nat -> ip f (fun a => kron (a mod 3) d) = Sum N (fun q => m q * f (3 * q + d)%nat).
  Proof. clear PM HN HF HI Hm Hn lx I geom.
    intros Hd. rewrite ip_blocks. apply sum_g. intros q _. f_equal. rewrite sum_3.
    rewrite !mod_block by lia. unfold kron. destruct d as [|[|[|d]]]; [| | |lia]; cbn [Nat.eqb]; ring.
  Qed.
  Lemma turn_block d q x : (x < 3)%nat -> turnv d (3 * q + x) = Sum 3 (fun b => about d x b * comp (geom q) b).
  Proof. clear PM HN HF HI Hm Hn. intros Hx. unfold turnv. now rewrite div_block, mod_block by exact Hx. Qed.

  Lemma mode_shift k d : (k < n)%nat -> (d < 3)%nat -> ip (fun a => lx a k) (fun a => kron (a mod 3) d) = 0.
  Proof. intros Hk Hd. rewrite ip_shift by exact Hd. now apply HF. Qed.
  Lemma mode_turn k d : (k < n)%nat -> (d < 3)%nat -> ip (fun a => lx a k) (turnv d) = 0.
  Proof.
    intros Hk Hd. rewrite ip_blocks.
    destruct HF as (_ & _ & _ & _ & E).
    assert (C : forall x y, (x < 3)%nat -> (y < 3)%nat -> (forall q, Sum 3 (fun z => lx (3 * q + z)%nat k * turnv d (3 * q + z))
       = comp (geom q) x * lx (3 * q + y)%nat k - comp (geom q) y * lx (3 * q + x)%nat k) ->
       Sum N (fun q => m q * Sum 3 (fun z => lx (3 * q + z)%nat k * turnv d (3 * q + z))) = 0).
    { intros x y Hx Hy Q. rewrite <- (E k x y Hk Hx Hy). apply sum_g. intros q _. now rewrite Q. }
    destruct d as [|[|[|d]]]; [apply (C 1%nat 2%nat)|apply (C 2%nat 0%nat)|apply (C 0%nat 1%nat)|lia]; try lia;
      intros q; rewrite sum_3, !turn_block, !sum_3 by lia; cbn [about]; ring.
  Qed.
  Lemma shift_shift d e : (d < 3)%nat -> (e < 3)%nat -> ip (fun a => kron (a mod 3) d) (fun a => kron (a mod 3) e) = kron d e * M.
  Proof.
    intros Hd He. rewrite ip_shift by exact He. unfold M. rewrite <- Rsum_scal. apply sum_g. intros q _.
    rewrite mod_block by exact He. unfold kron. rewrite (Nat.eqb_sym e d). ring.
  Qed.
  Lemma shift_turn d e : (d < 3)%nat -> (e < 3)%nat -> ip (fun a => kron (a mod 3) d) (turnv e) = 0.
  Proof.
    intros Hd He. rewrite ip_com, ip_shift by exact Hd.
    transitivity (Sum 3 (fun b => about e d b * Sum N (fun q => m q * comp (geom q) b))).
    - transitivity (Sum N (fun q => Sum 3 (fun b => about e d b * (m q * comp (geom q) b)))).
      + apply sum_g. intros q _. rewrite turn_block by exact Hd. rewrite !sum_3. ring.
      + rewrite Rsum_swap. apply sum_g. intros b _. now rewrite Rsum_scal.
    - apply Rsum_0. intros b Hb%in_seq. destruct HF as (C & _). rewrite C by lia. ring.
  Qed.
  Lemma turn_turn d e : (d < 3)%nat -> (e < 3)%nat -> ip (turnv d) (turnv e) = kron d e * I d.
  Proof.
    intros Hd He. destruct HF as (_ & P & _). rewrite <- (P d e Hd He), <- (about_inertia N m geom Hm d e Hd He), ip_blocks.
    apply sum_g. intros q _. f_equal. apply sum_g. intros x Hx. now rewrite !turn_block.
  Qed.

  Lemma col_orth i j : (i < 3 * N)%nat -> (j < 3 * N)%nat -> ip (fun a => col a i) (fun a => col a j) = delta i j.
  Proof.
    intros Hi Hj. pose proof (sqrt_lt_R0 _ PM) as SM. pose proof (sqrt_sqrt M ltac:(lra)) as SS.
    assert (SI : forall d, (d < 3)%nat -> 0 < sqrt (I d) /\ sqrt (I d) * sqrt (I d) = I d).
    { intros d Hd. split; [apply sqrt_lt_R0; auto|apply sqrt_sqrt, Rlt_le; auto]. }
    assert (S1 : forall f g c, ip (fun a => f a / c) g = ip f g / c) by (intros; rewrite ip_com, ip_scal, ip_com; reflexivity).
    unfold col, delta. destruct (Nat.ltb_spec i n) as [Li|Li]; destruct (Nat.ltb_spec j n) as [Lj|Lj].
    - now apply HF.
    - destruct (Nat.eqb_spec i j); [lia|]. destruct (Nat.ltb_spec j (n + 3)).
      + rewrite ip_scal, mode_shift by lia. unfold Rdiv. ring.
      + rewrite ip_scal, mode_turn by lia. unfold Rdiv. ring.
    - destruct (Nat.eqb_spec i j); [lia|]. destruct (Nat.ltb_spec i (n + 3)).
      + rewrite S1, ip_com, mode_shift by lia. unfold Rdiv. ring.
      + rewrite S1, ip_com, mode_turn by lia. unfold Rdiv. ring.
    - destruct (Nat.ltb_spec i (n + 3)) as [Ti|Ti]; destruct (Nat.ltb_spec j (n + 3)) as [Tj|Tj].
      + rewrite ip_scal, S1, shift_shift by lia. unfold kron.
        destruct (Nat.eqb_spec (i - n) (j - n)); destruct (Nat.eqb_spec i j); try lia; [rewrite <- SS at 1|]; field; lra.
      + destruct (Nat.eqb_spec i j); [lia|]. rewrite ip_scal, S1, shift_turn by lia. unfold Rdiv. ring.
      + destruct (Nat.eqb_spec i j); [lia|]. rewrite ip_scal, S1, ip_com, shift_turn by lia. unfold Rdiv. ring.
      + rewrite ip_scal, S1, turn_turn by lia. unfold kron. destruct (SI (i - n - 3)%nat ltac:(lia)) as [P1 P2].
        destruct (Nat.eqb_spec (i - n - 3) (j - n - 3)) as [Q|Q]; destruct (Nat.eqb_spec i j) as [Q'|Q']; try lia.
        * rewrite <- Q. rewrite <- P2 at 1. field. lra.
        * destruct (SI (j - n - 3)%nat ltac:(lia)) as [P3 _]. field. lra.
  Qed.

  (** completeness *)
  Lemma complete f g : Sum (3 * N) (fun k => ip f (fun a => col a k) * ip g (fun a => col a k)) = ip f g.
  Proof.
    set (s := fun a : nat => sqrt (m (a / 3)%nat)).
    assert (Sp : forall a, (a < 3 * N)%nat -> 0 < s a /\ s a * s a = m (a / 3)%nat).
    { intros a Ha. assert (a / 3 < N)%nat by (apply Nat.div_lt_upper_bound; lia).
      split; [apply sqrt_lt_R0; auto|apply sqrt_sqrt, Rlt_le; auto]. }
    destruct (square_orth (3 * N) (fun a k => s a * col a k)) as [O _].
    { intros i j Hi Hj. rewrite <- (col_orth i j Hi Hj). unfold ip. apply sum_g. intros a Ha.
      rewrite <- (proj2 (Sp a Ha)). ring. }
    transitivity (Sum (3 * N) (fun a => Sum (3 * N) (fun b => s a * f a * (s b * g b) * Sum (3 * N) (fun k => s a * col a k * (s b * col b k))))).
    - unfold ip.
      transitivity (Sum (3 * N) (fun k => Sum (3 * N) (fun a => Sum (3 * N) (fun b =>
        s a * f a * (s b * g b) * (s a * col a k * (s b * col b k)))))).
      + apply sum_g. intros k _. rewrite <- Rsum_scal_r. apply sum_g. intros a Ha. rewrite <- Rsum_scal. apply sum_g. intros b Hb.
        rewrite <- (proj2 (Sp a Ha)), <- (proj2 (Sp b Hb)). ring.
      + rewrite Rsum_swap. apply sum_g. intros a _. rewrite Rsum_swap. apply sum_g. intros b _. now rewrite Rsum_scal.
    - unfold ip. apply sum_g. intros a Ha.
      rewrite (sum_g (3 * N) _ (fun b => delta a b * (s a * f a * (s b * g b)))) by (intros b Hb; rewrite (O a b Ha Hb); ring).
      rewrite (sum_delta (3 * N) (fun b => s a * f a * (s b * g b)) a Ha), <- (proj2 (Sp a Ha)). ring.
  Qed.
  Lemma complete_modes f g :
    (forall d, (d < 3)%nat -> ip g (fun a => kron (a mod 3) d) = 0) ->
    Sum n (fun k => ip f (fun a => lx a k) * ip g (fun a => lx a k)) =
    ip f g - Sum 3 (fun d => ip f (turnv d) * ip g (turnv d) / I d).
  Proof.
    intros Hg. rewrite <- complete. rewrite Hn. rewrite seq_app, Rsum_app. cbn [Nat.add].
    assert (E1 : Sum n (fun k => ip f (fun a => col a k) * ip g (fun a => col a k)) = Sum n (fun k => ip f (fun a => lx a k) * ip g (fun a => lx a k))).
    { apply sum_g. intros k Hk. unfold col. destruct (Nat.ltb_spec k n); [reflexivity|lia]. }
    rewrite E1.
    assert (E2 : forall d, (d < 3)%nat -> ip g (fun a => col a (n + d)) = 0).
    { intros d Hd. unfold col. destruct (Nat.ltb_spec (n + d) n); [lia|]. destruct (Nat.ltb_spec (n + d) (n + 3)); [|lia].
      replace (n + d - n)%nat with d by lia. rewrite ip_scal, Hg by exact Hd. unfold Rdiv. ring. }
    assert (E3 : forall d, (d < 3)%nat -> ip f (fun a => col a (n + (3 + d))) * ip g (fun a => col a (n + (3 + d))) = ip f (turnv d) * ip g (turnv d) / I d).
    { intros d Hd. unfold col. destruct (Nat.ltb_spec (n + (3 + d)) n); [lia|]. destruct (Nat.ltb_spec (n + (3 + d)) (n + 3)); [lia|].
      replace (n + (3 + d) - n - 3)%nat with d by lia. rewrite !ip_scal.
      pose proof (sqrt_lt_R0 _ (HI d Hd)) as P. rewrite <- (sqrt_sqrt (I d)) at 3 by (apply Rlt_le; auto). field. lra. }
    assert (S6 : forall F, Rsum (seq n 6) F = F (n + 0)%nat + F (n + 1)%nat + F (n + 2)%nat
      + F (n + (3 + 0))%nat + F (n + (3 + 1))%nat + F (n + (3 + 2))%nat).
    { intros F. cbn [seq]. rewrite !Rsum_cons. unfold Rsum. cbn [fold_right].
      replace (n + 0)%nat with n by lia. replace (n + 1)%nat with (S n) by lia. replace (n + 2)%nat with (S (S n)) by lia.
      replace (n + (3 + 0))%nat with (S (S (S n))) by lia. replace (n + (3 + 1))%nat with (S (S (S (S n)))) by lia.
      replace (n + (3 + 2))%nat with (S (S (S (S (S n))))) by lia. ring. }
    rewrite S6, !E2, !E3, sum_3 by lia. ring.
  Qed.

  (** *** the rule *)
  Variable a : nat -> nat -> nat -> R.
  Hypothesis Ha : inertia_slope N n m geom lx a.
  Local Notation zeta := (zeta_of N (fun b k => sqrt (m (b / 3)%nat) * lx b k)).

  Lemma slope_eq k y z : (k < n)%nat -> (y < 3)%nat -> (z < 3)%nat ->
    a k y z = Sum N (fun i => m i * (kron y z * (2 * (comp (geom i) 0 * lx (3 * i)%nat k
      + comp (geom i) 1 * lx (3 * i + 1)%nat k + comp (geom i) 2 * lx (3 * i + 2)%nat k))
    - (comp (geom i) y * lx (3 * i + z)%nat k + lx (3 * i + y)%nat k * comp (geom i) z))).
  Proof.
    intros Hk Hy Hz. eapply uniqueness_limite; [exact (Ha k y z Hk Hy Hz)|].
    assert (Q : (fun t => inertia N m (displaced geom lx k t) y z) = (fun t => inertia N m geom y z
      + t * Sum N (fun i => m i * (kron y z * (2 * (comp (geom i) 0 * lx (3 * i)%nat k
        + comp (geom i) 1 * lx (3 * i + 1)%nat k + comp (geom i) 2 * lx (3 * i + 2)%nat k))
      - (comp (geom i) y * lx (3 * i + z)%nat k + lx (3 * i + y)%nat k * comp (geom i) z)))
      + t ^ 2 * Sum N (fun i => m i * (kron y z * (lx (3 * i)%nat k ^ 2 + lx (3 * i + 1)%nat k ^ 2 + lx (3 * i + 2)%nat k ^ 2)
      - lx (3 * i + y)%nat k * lx (3 * i + z)%nat k)))).
    { extensionality t. unfold inertia. rewrite <- !Rsum_scal, <- !Rsum_plus. apply Rsum_ext. intros i _. unfold displaced.
      destruct y as [|[|[|y]]]; [| | |lia]; (destruct z as [|[|[|z]]]; [| | |lia]); cbn [comp fst snd]; rewrite ?Nat.add_0_r; ring. }
    rewrite Q. apply parabola_slope.
  Qed.
  Lemma slope_sym k y z : (k < n)%nat -> (y < 3)%nat -> (z < 3)%nat -> a k y z = a k z y.
  Proof.
    intros Hk Hy Hz. rewrite !slope_eq by assumption. apply sum_g. intros i _. unfold kron. rewrite (Nat.eqb_sym z y). ring.
  Qed.

  (** component [d] of the vector product of [u] and [v] *)
  Definition cross (u v : nat -> R) (d : nat) : R :=
    match d with
    | 0%nat => u 1%nat * v 2%nat - u 2%nat * v 1%nat
    | 1%nat => u 2%nat * v 0%nat - u 0%nat * v 2%nat
    | _ => u 0%nat * v 1%nat - u 1%nat * v 0%nat
    end.

  Variable u : nat -> R.
  Definition gv (b : nat) : R :=
    let r := comp (geom (b / 3)%nat) in
    2 * ((u 0%nat ^ 2 + u 1%nat ^ 2 + u 2%nat ^ 2) * r (b mod 3)%nat - (u 0%nat * r 0%nat + u 1%nat * r 1%nat + u 2%nat * r 2%nat) * u (b mod 3)%nat).
  Definition hv (v b : nat) : R := cross (fun x => lx (3 * (b / 3) + x)%nat v) u (b mod 3).

  Lemma gv_block q x : (x < 3)%nat -> gv (3 * q + x) =
    2 * ((u 0%nat ^ 2 + u 1%nat ^ 2 + u 2%nat ^ 2) * comp (geom q) x
      - (u 0%nat * comp (geom q) 0 + u 1%nat * comp (geom q) 1 + u 2%nat * comp (geom q) 2) * u x).
  Proof. clear PM HN HF HI Hm Hn. intros Hx. unfold gv. now rewrite div_block, mod_block by exact Hx. Qed.
  Lemma hv_block v q x : (x < 3)%nat -> hv v (3 * q + x) = cross (fun x => lx (3 * q + x)%nat v) u x.
  Proof. clear PM HN HF HI Hm Hn. intros Hx. unfold hv. now rewrite div_block, mod_block by exact Hx. Qed.

  Lemma slope_form k : (k < n)%nat -> Sum 3 (fun b => Sum 3 (fun c => a k b c * (u b * u c))) = ip gv (fun b => lx b k).
  Proof.
    intros Hk. rewrite ip_blocks. rewrite !sum_3, !slope_eq by lia. rewrite <- !Rsum_scal_r, <- !Rsum_plus.
    apply sum_g. intros q _. rewrite sum_3, !gv_block by lia. unfold kron. cbn [Nat.eqb]. rewrite !Nat.add_0_r. ring.
  Qed.
  Lemma zeta_form k v : (k < n)%nat -> Sum 3 (fun x => zeta k v x * u x) = ip (hv v) (fun b => lx b k).
  Proof.
    intros Hk. rewrite ip_blocks. unfold zeta_of. rewrite !sum_3. rewrite <- !Rsum_scal_r, <- !Rsum_plus.
    apply sum_g. intros q Hq. rewrite sum_3, !hv_block by lia. cbn [cross].
    replace (3 * q / 3)%nat with q by (rewrite <- (Nat.add_0_r (3 * q)), div_block; lia).
    rewrite !div_block by lia. rewrite !Nat.add_0_r. pose proof (sqrt_sqrt (m q) ltac:(apply Rlt_le; auto)) as SS.
    set (s := sqrt (m q)) in *. rewrite <- SS. ring.
  Qed.
  Lemma hv_shift v d : (v < n)%nat -> (d < 3)%nat -> ip (hv v) (fun b => kron (b mod 3) d) = 0.
  Proof.
    intros Hv Hd. rewrite ip_shift by exact Hd. destruct HF as (_ & _ & _ & T & _).
    transitivity (cross (fun x => Sum N (fun q => m q * lx (3 * q + x)%nat v)) u d).
    - destruct d as [|[|[|d]]]; [| | |lia]; cbn [cross]; rewrite <- !Rsum_scal_r, <- Rsum_minus; apply sum_g; intros q _;
        rewrite hv_block by lia; cbn [cross]; ring.
    - destruct d as [|[|[|d]]]; [| | |lia]; cbn [cross]; rewrite !T by (assumption || lia); ring.
  Qed.
  Lemma gv_hv v : (v < n)%nat -> ip gv (hv v) = 0.
  Proof.
    intros Hv. destruct HF as (_ & _ & _ & _ & E). rewrite ip_blocks.
    transitivity (2 * (u 0%nat ^ 2 + u 1%nat ^ 2 + u 2%nat ^ 2) * (u 0%nat * Sum N (fun q => m q * (comp (geom q) 1 * lx (3 * q + 2)%nat v - comp (geom q) 2 * lx (3 * q + 1)%nat v))
      + u 1%nat * Sum N (fun q => m q * (comp (geom q) 2 * lx (3 * q + 0)%nat v - comp (geom q) 0 * lx (3 * q + 2)%nat v))
      + u 2%nat * Sum N (fun q => m q * (comp (geom q) 0 * lx (3 * q + 1)%nat v - comp (geom q) 1 * lx (3 * q + 0)%nat v)))).
    - rewrite <- !Rsum_scal, <- !Rsum_plus, <- Rsum_scal. apply sum_g. intros q _. rewrite sum_3, !gv_block, !hv_block by lia. cbn [cross]. ring.
    - rewrite !E by (assumption || lia). ring.
  Qed.
  Lemma hv_turn v d : (v < n)%nat -> (d < 3)%nat -> ip (hv v) (turnv d) = - / 2 * Sum 3 (fun c => a v d c * u c).
  Proof.
    intros Hv Hd. destruct HF as (_ & _ & _ & _ & E). rewrite ip_blocks, sum_3, !slope_eq by lia.
    assert (Z : Sum 3 (fun c => u c * Sum N (fun q => m q * (comp (geom q) d * lx (3 * q + c)%nat v - comp (geom q) c * lx (3 * q + d)%nat v))) = 0).
    { apply Rsum_0. intros c Hc%in_seq. rewrite E by lia. ring. }
    rewrite sum_3 in Z. apply Rminus_diag_uniq.
    rewrite <- (Rmult_0_r (- / 2)), <- Z.
    rewrite <- !Rsum_scal, <- !Rsum_scal_r, <- !Rsum_plus, <- !Rsum_scal, <- Rsum_minus. apply sum_g. intros q _.
    rewrite sum_3, !turn_block, !hv_block, !sum_3 by lia. unfold kron.
    destruct d as [|[|[|d]]]; [| | |lia]; cbn [cross about Nat.eqb]; rewrite !Nat.add_0_r; field.
  Qed.
  Lemma gv_turn d : (d < 3)%nat -> ip gv (turnv d) = 2 * cross (fun x => I x * u x) u d.
  Proof.
    intros Hd. destruct HF as (_ & P & _). rewrite ip_blocks.
    assert (D : forall x, (x < 3)%nat -> I x * u x = Sum 3 (fun y => inertia N m geom x y * u y)).
    { intros x Hx. rewrite (sum_g 3 _ (fun y => kron x y * I x * u y)) by (intros y Hy; now rewrite P).
      rewrite sum_3. unfold kron. destruct x as [|[|[|x]]]; [| | |lia]; cbn [Nat.eqb]; ring. }
    destruct d as [|[|[|d]]]; [| | |lia]; cbn [cross]; rewrite !D by lia; rewrite !sum_3; unfold inertia;
      rewrite <- !Rsum_scal_r, <- !Rsum_plus, <- !Rsum_scal_r, <- Rsum_minus, <- Rsum_scal; apply sum_g; intros q _;
      rewrite sum_3, !turn_block, !gv_block, !sum_3 by lia; unfold kron; cbn [about Nat.eqb]; ring.
  Qed.

  Lemma sum_rule v : (v < n)%nat ->
    Sum n (fun k => Sum 3 (fun b => Sum 3 (fun c => a k b c * (u b * u c))) * Sum 3 (fun x => zeta k v x * u x))
    = Sum 3 (fun d => Sum 3 (fun c => a v d c * u c) * cross (fun x => I x * u x) u d / I d).
  Proof.
    intros Hv.
    rewrite (sum_g n _ (fun k => ip gv (fun b => lx b k) * ip (hv v) (fun b => lx b k)))
      by (intros k Hk; now rewrite slope_form, zeta_form).
    rewrite (complete_modes gv (hv v)) by (intros; now apply hv_shift). rewrite gv_hv by exact Hv.
    rewrite !sum_3. rewrite !hv_turn, !gv_turn by (assumption || lia). rewrite !sum_3.
    pose proof (HI 0%nat ltac:(lia)). pose proof (HI 1%nat ltac:(lia)). pose proof (HI 2%nat ltac:(lia)). field. lra.
  Qed.
End Rule.
