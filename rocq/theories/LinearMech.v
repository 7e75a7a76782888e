(** Classical mechanics of a rotating linear molecule that vibrates. *)
From Coq Require Import Reals Lra List ZArith NArith Arith Lia Bool FunctionalExtensionality.
From Verif Require Import Num Loops ListFacts Modes ModesFacts ResFacts AnharmFacts VibRot VibRotFacts TransformFacts RotFacts
  NormalFacts ModeFacts ZeroFacts InertiaFacts EckartFacts DistortFacts SexticFacts FormFacts RunSecond RunRot RotFiles TriangleWitness SumRule RotorMech LinearModes.
Import ListNotations.
Open Scope R_scope.

(** ** the specification side *)

(** the atoms [i] of a linear molecule have the velocities [v i]: no linear momentum, angular momentum
    with the components [x] and [y] perpendicular to the axis, and momentum [p] along the modes *)
Definition line_motion (N n : nat) (m : nat -> R) (geom : nat -> R * R * R) (lx : nat -> nat -> R) (w : nat -> R) (lam : R)
  (x y : R) (q p : nat -> R) (v : nat -> nat -> R) : Prop :=
  (forall d, (d < 3)%nat -> Sum N (fun i => m i * v i d) = 0) /\
  Sum N (fun i => m i * cross (RotorMech.placed n geom lx w lam q i) (v i) 0) = x /\
  Sum N (fun i => m i * cross (RotorMech.placed n geom lx w lam q i) (v i) 1) = y /\
  (forall k, (k < n)%nat -> Sum N (fun i => m i * Sum 3 (fun d => lx (3 * i + d)%nat k * v i d)) = lam * sqrt (w k) * p k).

(** The atoms move with angular momentum [e] (x, y), displacements [e^2 q] and momenta [e^3 p] along the
    modes.  Such motions exist for small [e].  Up to order four their energy is
    [B J^2 - D J^4], where J is the angular momentum, plus the energy of displacing the modes from
    [c J^2].  When they are displaced by this amount the energy of order six is [H J^6] plus the
    energy of momenta that differ from [r]: [B J^2 - D J^4 + H J^6] is the least energy. *)
Definition linear_energy (N n : nat) (m : nat -> R) (geom : nat -> R * R * R) (lx : nat -> nat -> R)
  (w : nat -> R) (f3 : nat -> nat -> nat -> R) (K lam B D H : R) : Prop :=
  exists (c : nat -> R) (r : R -> R -> nat -> R),
  forall V, cubic_near n w f3 V ->
  forall x y q p,
  let J2 := x ^ 2 + y ^ 2 in
  let moving e := line_motion N n m geom lx w lam (e * x) (e * y) (fun k => e ^ 2 * q k) (fun k => e ^ 3 * p k) in
  let E e := energy N m K V (fun k => e ^ 2 * q k) in
  (exists d, 0 < d /\ forall e, Rabs e < d -> exists v, moving e v) /\
  (exists C d, 0 < d /\ forall e v, Rabs e < d -> moving e v ->
     Rabs (E e v - (e ^ 2 * (B * J2)
       + e ^ 4 * (- D * J2 ^ 2 + / 2 * Sum n (fun k => w k * (q k - c k * J2) ^ 2)))) <= C * e ^ 6) /\
  ((forall k, (k < n)%nat -> q k = c k * J2) ->
   exists C d, 0 < d /\ forall e v, Rabs e < d -> moving e v ->
     Rabs (E e v - (e ^ 2 * (B * J2) - e ^ 4 * (D * J2 ^ 2)
       + e ^ 6 * (H * J2 ^ 3 + / 2 * Sum n (fun k => w k * (p k - r x y k) ^ 2)))) <= C * e ^ 8).

(** the modes of a free linear molecule: orthonormal with the masses as weights, without linear and
    angular momentum; the atoms are on the axis, the centre of mass is at the origin *)
Definition line_modes (N n : nat) (m : nat -> R) (geom : nat -> R * R * R) (I0 : R) (lx : nat -> nat -> R) : Prop :=
  (forall x, (x < 3)%nat -> Sum N (fun q => m q * comp (geom q) x) = 0) /\
  (on_axis N geom /\ inertia N m geom 0 0 = I0) /\
  (forall i j, (i < n)%nat -> (j < n)%nat ->
     Sum (3 * N) (fun a => m (a / 3)%nat * lx a i * lx a j) = (if (i =? j)%nat then 1 else 0)) /\
  (forall k x, (k < n)%nat -> (x < 3)%nat -> Sum N (fun q => m q * lx (3 * q + x)%nat k) = 0) /\
  (forall k x y, (k < n)%nat -> (x < 3)%nat -> (y < 3)%nat ->
     Sum N (fun q => m q * (comp (geom q) x * lx (3 * q + y)%nat k - comp (geom q) y * lx (3 * q + x)%nat k)) = 0).

Section Line.
  Variables (N n : nat) (m : nat -> R) (geom : nat -> R * R * R) (I0 : R) (lx : nat -> nat -> R).
  Hypothesis Hn : (3 * N = n + 5)%nat.
  Hypothesis Hm : forall q, (q < N)%nat -> 0 < m q.
  Hypothesis HI0 : 0 < I0.
  Hypothesis HF : line_modes N n m geom I0 lx.
  (** there is no moment about the axis; the number is not used *)
  Definition I (x : nat) : R := I0.
  Let HI x : (x < 3)%nat -> 0 < I x. Proof. intros _. exact HI0. Qed.
  Let HN : (0 < N)%nat. Proof. lia. Qed.
  Let M : R := Sum N m.
  Let PM : 0 < M. Proof. apply sum_pos; [lia|exact Hm]. Qed.
  Local Notation turnv := (turnv geom).
  Local Notation ip := (ip N m).

  Lemma axis_comp q : (q < N)%nat -> comp (geom q) 0 = 0 /\ comp (geom q) 1 = 0.
  Proof. intros Hq. destruct HF as (_ & (Ax & _) & _). destruct (Ax q Hq) as (z & ->). auto. Qed.
  Definition lcol (a k : nat) : R :=
    if (k <? n)%nat then lx a k
    else if (k <? n + 3)%nat then kron (a mod 3) (k - n) / sqrt M
    else turnv (k - n - 3) a / sqrt (I (k - n - 3)%nat).

  Lemma mode_shift k d : (k < n)%nat -> (d < 3)%nat -> ip (fun a => lx a k) (fun a => kron (a mod 3) d) = 0.
  Proof. intros Hk Hd. rewrite ip_shift by exact Hd. now apply HF. Qed.
  Lemma mode_turn k d : (k < n)%nat -> (d < 3)%nat -> ip (fun a => lx a k) (turnv d) = 0.
  Proof.
    intros Hk Hd. rewrite ip_blocks.
    destruct HF as (_ & _ & _ & _ & E).
    assert (C : forall x y, (x < 3)%nat -> (y < 3)%nat -> (forall q, Sum 3 (fun z => lx (3 * q + z)%nat k * turnv d (3 * q + z))
       = comp (geom q) x * lx (3 * q + y)%nat k - comp (geom q) y * lx (3 * q + x)%nat k) ->
       Sum N (fun q => m q * Sum 3 (fun z => lx (3 * q + z)%nat k * turnv d (3 * q + z))) = 0).
    { intros x y Hx Hy Q. rewrite <- (E k x y Hk Hx Hy). apply sum_g. intros q _. now rewrite Q. }
    destruct d as [|[|[|d]]]; [apply (C 1%nat 2%nat)|apply (C 2%nat 0%nat)|apply (C 0%nat 1%nat)|lia]; try lia;
      intros q; rewrite sum_3, !turn_block, !sum_3 by lia; cbn [about]; ring.
  Qed.
  Lemma shift_shift d e : (d < 3)%nat -> (e < 3)%nat -> ip (fun a => kron (a mod 3) d) (fun a => kron (a mod 3) e) = kron d e * M.
  Proof.
    intros Hd He. rewrite ip_shift by exact He. unfold M. rewrite <- Rsum_scal. apply sum_g. intros q _.
    rewrite mod_block by exact He. unfold kron. rewrite (Nat.eqb_sym e d). ring.
  Qed.
  Lemma shift_turn d e : (d < 3)%nat -> (e < 3)%nat -> ip (fun a => kron (a mod 3) d) (turnv e) = 0.
  Proof.
    intros Hd He. rewrite ip_com, ip_shift by exact Hd.
    transitivity (Sum 3 (fun b => about e d b * Sum N (fun q => m q * comp (geom q) b))).
    - transitivity (Sum N (fun q => Sum 3 (fun b => about e d b * (m q * comp (geom q) b)))).
      + apply sum_g. intros q _. rewrite turn_block by exact Hd. rewrite !sum_3. ring.
      + rewrite Rsum_swap. apply sum_g. intros b _. now rewrite Rsum_scal.
    - apply Rsum_0. intros b Hb%in_seq. destruct HF as (C & _). rewrite C by lia. ring.
  Qed.
  Lemma turn_turn d e : (d < 2)%nat -> (e < 2)%nat -> ip (turnv d) (turnv e) = kron d e * I d.
  Proof.
    intros Hd He. destruct HF as (_ & (_ & P) & _).
    assert (E : inertia N m geom d e = kron d e * I d).
    { unfold I, kron. destruct d as [|[|d]]; [| |lia]; (destruct e as [|[|e]]; [| |lia]); cbn [Nat.eqb]; rewrite <- ?P, ?Rmult_1_l, ?Rmult_0_l;
        unfold inertia; [apply sum_g|apply Rsum_0|apply Rsum_0|apply sum_g]; intros q Hq; try apply in_seq in Hq;
        destruct (axis_comp q ltac:(lia)) as [-> ->]; unfold kron; cbn [Nat.eqb]; ring. }
    rewrite <- E, <- (about_inertia N m geom Hm d e ltac:(lia) ltac:(lia)), ip_blocks.
    apply sum_g. intros q _. f_equal. apply sum_g. intros x Hx. now rewrite !turn_block.
  Qed.
  Lemma turn_axis f : ip f (turnv 2) = 0.
  Proof.
    rewrite ip_blocks. apply Rsum_0. intros q Hq%in_seq. rewrite sum_3, !turn_block, !sum_3 by lia.
    destruct (axis_comp q ltac:(lia)) as [-> ->]. cbn [about]. ring.
  Qed.

  Lemma lcol_orth i j : (i < 3 * N)%nat -> (j < 3 * N)%nat -> ip (fun a => lcol a i) (fun a => lcol a j) = delta i j.
  Proof.
    intros Hi Hj. pose proof (sqrt_lt_R0 _ PM) as SM. pose proof (sqrt_sqrt M ltac:(lra)) as SS.
    assert (SI : forall d, (d < 3)%nat -> 0 < sqrt (I d) /\ sqrt (I d) * sqrt (I d) = I d).
    { intros d Hd. split; [apply sqrt_lt_R0; auto|apply sqrt_sqrt, Rlt_le; auto]. }
    assert (S1 : forall f g c, ip (fun a => f a / c) g = ip f g / c) by (intros; rewrite ip_com, ip_scal, ip_com; reflexivity).
    unfold lcol, delta. destruct (Nat.ltb_spec i n) as [Li|Li]; destruct (Nat.ltb_spec j n) as [Lj|Lj].
    - now apply HF.
    - destruct (Nat.eqb_spec i j); [lia|]. destruct (Nat.ltb_spec j (n + 3)).
      + rewrite ip_scal, mode_shift by lia. unfold Rdiv. ring.
      + rewrite ip_scal, mode_turn by lia. unfold Rdiv. ring.
    - destruct (Nat.eqb_spec i j); [lia|]. destruct (Nat.ltb_spec i (n + 3)).
      + rewrite S1, ip_com, mode_shift by lia. unfold Rdiv. ring.
      + rewrite S1, ip_com, mode_turn by lia. unfold Rdiv. ring.
    - destruct (Nat.ltb_spec i (n + 3)) as [Ti|Ti]; destruct (Nat.ltb_spec j (n + 3)) as [Tj|Tj].
      + rewrite ip_scal, S1, shift_shift by lia. unfold kron.
        destruct (Nat.eqb_spec (i - n) (j - n)); destruct (Nat.eqb_spec i j); try lia; [rewrite <- SS at 1|]; field; lra.
      + destruct (Nat.eqb_spec i j); [lia|]. rewrite ip_scal, S1, shift_turn by lia. unfold Rdiv. ring.
      + destruct (Nat.eqb_spec i j); [lia|]. rewrite ip_scal, S1, ip_com, shift_turn by lia. unfold Rdiv. ring.
      + rewrite ip_scal, S1, turn_turn by lia. unfold kron. destruct (SI (i - n - 3)%nat ltac:(lia)) as [P1 P2].
        destruct (Nat.eqb_spec (i - n - 3) (j - n - 3)) as [Q|Q]; destruct (Nat.eqb_spec i j) as [Q'|Q']; try lia.
        * rewrite <- Q. rewrite <- P2 at 1. field. lra.
        * destruct (SI (j - n - 3)%nat ltac:(lia)) as [P3 _]. field. lra.
  Qed.

  (** completeness *)
  Lemma complete f g : Sum (3 * N) (fun k => ip f (fun a => lcol a k) * ip g (fun a => lcol a k)) = ip f g.
  Proof.
    set (s := fun a : nat => sqrt (m (a / 3)%nat)).
    assert (Sp : forall a, (a < 3 * N)%nat -> 0 < s a /\ s a * s a = m (a / 3)%nat).
    { intros a Ha. assert (a / 3 < N)%nat by (apply Nat.div_lt_upper_bound; lia).
      split; [apply sqrt_lt_R0; auto|apply sqrt_sqrt, Rlt_le; auto]. }
    destruct (square_orth (3 * N) (fun a k => s a * lcol a k)) as [O _].
    { intros i j Hi Hj. rewrite <- (lcol_orth i j Hi Hj). unfold ip. apply sum_g. intros a Ha.
      rewrite <- (proj2 (Sp a Ha)). ring. }
    transitivity (Sum (3 * N) (fun a => Sum (3 * N) (fun b => s a * f a * (s b * g b) * Sum (3 * N) (fun k => s a * lcol a k * (s b * lcol b k))))).
    - unfold ip.
      transitivity (Sum (3 * N) (fun k => Sum (3 * N) (fun a => Sum (3 * N) (fun b =>
        s a * f a * (s b * g b) * (s a * lcol a k * (s b * lcol b k)))))).
      + apply sum_g. intros k _. rewrite <- Rsum_scal_r. apply sum_g. intros a Ha. rewrite <- Rsum_scal. apply sum_g. intros b Hb.
        rewrite <- (proj2 (Sp a Ha)), <- (proj2 (Sp b Hb)). ring.
      + rewrite Rsum_swap. apply sum_g. intros a _. rewrite Rsum_swap. apply sum_g. intros b _. now rewrite Rsum_scal.
    - unfold ip. apply sum_g. intros a Ha.
      rewrite (sum_g (3 * N) _ (fun b => delta a b * (s a * f a * (s b * g b)))) by (intros b Hb; rewrite (O a b Ha Hb); ring).
      rewrite (sum_delta (3 * N) (fun b => s a * f a * (s b * g b)) a Ha), <- (proj2 (Sp a Ha)). ring.
  Qed.
  Lemma complete_modes f g :
    (forall d, (d < 3)%nat -> ip g (fun a => kron (a mod 3) d) = 0) ->
    Sum n (fun k => ip f (fun a => lx a k) * ip g (fun a => lx a k)) =
    ip f g - Sum 3 (fun d => ip f (turnv d) * ip g (turnv d) / I d).
  Proof.
    intros Hg. rewrite <- complete. rewrite Hn. rewrite seq_app, Rsum_app. cbn [Nat.add].
    assert (E1 : Sum n (fun k => ip f (fun a => lcol a k) * ip g (fun a => lcol a k)) = Sum n (fun k => ip f (fun a => lx a k) * ip g (fun a => lx a k))).
    { apply sum_g. intros k Hk. unfold lcol. destruct (Nat.ltb_spec k n); [reflexivity|lia]. }
    rewrite E1.
    assert (E2 : forall d, (d < 3)%nat -> ip g (fun a => lcol a (n + d)) = 0).
    { intros d Hd. unfold lcol. destruct (Nat.ltb_spec (n + d) n); [lia|]. destruct (Nat.ltb_spec (n + d) (n + 3)); [|lia].
      replace (n + d - n)%nat with d by lia. rewrite ip_scal, Hg by exact Hd. unfold Rdiv. ring. }
    assert (E3 : forall d, (d < 3)%nat -> ip f (fun a => lcol a (n + (3 + d))) * ip g (fun a => lcol a (n + (3 + d))) = ip f (turnv d) * ip g (turnv d) / I d).
    { intros d Hd. unfold lcol. destruct (Nat.ltb_spec (n + (3 + d)) n); [lia|]. destruct (Nat.ltb_spec (n + (3 + d)) (n + 3)); [lia|].
      replace (n + (3 + d) - n - 3)%nat with d by lia. rewrite !ip_scal.
      pose proof (sqrt_lt_R0 _ (HI d Hd)) as P. rewrite <- (sqrt_sqrt (I d)) at 3 by (apply Rlt_le; auto). field. lra. }
    assert (S6 : forall F, Rsum (seq n 5) F = F (n + 0)%nat + F (n + 1)%nat + F (n + 2)%nat
      + F (n + (3 + 0))%nat + F (n + (3 + 1))%nat).
    { intros F. cbn [seq]. rewrite !Rsum_cons. unfold Rsum. cbn [fold_right].
      replace (n + 0)%nat with n by lia. replace (n + 1)%nat with (S n) by lia. replace (n + 2)%nat with (S (S n)) by lia.
      replace (n + (3 + 0))%nat with (S (S (S n))) by lia. replace (n + (3 + 1))%nat with (S (S (S (S n)))) by lia. ring. }
    rewrite S6, !E2, !E3, sum_3 by lia. rewrite !(turn_axis f). unfold Rdiv. ring.
  Qed.

  (** *** the rule *)
  Variable a : nat -> nat -> nat -> R.
  Hypothesis Ha : inertia_slope N n m geom lx a.
  Local Notation zeta := (zeta_of N (fun b k => sqrt (m (b / 3)%nat) * lx b k)).

  Lemma slope_eq k y z : (k < n)%nat -> (y < 3)%nat -> (z < 3)%nat ->
    a k y z = Sum N (fun i => m i * (kron y z * (2 * (comp (geom i) 0 * lx (3 * i)%nat k
      + comp (geom i) 1 * lx (3 * i + 1)%nat k + comp (geom i) 2 * lx (3 * i + 2)%nat k))
    - (comp (geom i) y * lx (3 * i + z)%nat k + lx (3 * i + y)%nat k * comp (geom i) z))).
  Proof.
    intros Hk Hy Hz. eapply uniqueness_limite; [exact (Ha k y z Hk Hy Hz)|].
    assert (Q : (fun t => inertia N m (displaced geom lx k t) y z) = (fun t => inertia N m geom y z
      + t * Sum N (fun i => m i * (kron y z * (2 * (comp (geom i) 0 * lx (3 * i)%nat k
        + comp (geom i) 1 * lx (3 * i + 1)%nat k + comp (geom i) 2 * lx (3 * i + 2)%nat k))
      - (comp (geom i) y * lx (3 * i + z)%nat k + lx (3 * i + y)%nat k * comp (geom i) z)))
      + t ^ 2 * Sum N (fun i => m i * (kron y z * (lx (3 * i)%nat k ^ 2 + lx (3 * i + 1)%nat k ^ 2 + lx (3 * i + 2)%nat k ^ 2)
      - lx (3 * i + y)%nat k * lx (3 * i + z)%nat k)))).
    { extensionality t. unfold inertia. rewrite <- !Rsum_scal, <- !Rsum_plus. apply Rsum_ext. intros i _. unfold displaced.
      destruct y as [|[|[|y]]]; [| | |lia]; (destruct z as [|[|[|z]]]; [| | |lia]); cbn [comp fst snd]; rewrite ?Nat.add_0_r; ring. }
    rewrite Q. apply parabola_slope.
  Qed.
  Lemma slope_sym k y z : (k < n)%nat -> (y < 3)%nat -> (z < 3)%nat -> a k y z = a k z y.
  Proof.
    intros Hk Hy Hz. rewrite !slope_eq by assumption. apply sum_g. intros i _. unfold kron. rewrite (Nat.eqb_sym z y). ring.
  Qed.

  Lemma slope_axis k y z : (k < n)%nat -> (y < 3)%nat -> (z < 3)%nat -> a k y z = if (y =? z)%nat && (y <? 2)%nat then a k 0%nat 0%nat else 0.
  Proof.
    intros Hk Hy Hz. destruct HF as (_ & _ & _ & _ & E).
    assert (G : forall y z, (y < 3)%nat -> (z < 3)%nat -> a k y z = Sum N (fun i => m i * (kron y z * (2 * (comp (geom i) 2 * lx (3 * i + 2)%nat k))
      - (comp (geom i) y * lx (3 * i + z)%nat k + lx (3 * i + y)%nat k * comp (geom i) z)))).
    { intros y' z' Hy' Hz'. rewrite slope_eq by assumption. apply sum_g. intros i Hi. destruct (axis_comp i Hi) as [E0 E1]. rewrite E0, E1. ring. }
    assert (X : forall d, (d < 2)%nat -> Sum N (fun i => m i * (comp (geom i) 2 * lx (3 * i + d)%nat k)) = 0).
    { intros d Hd. rewrite <- (E k 2%nat d Hk ltac:(lia) ltac:(lia)). apply sum_g. intros i Hi. destruct (axis_comp i Hi) as [E0 E1].
      destruct d as [|[|d]]; [| |lia]; rewrite ?E0, ?E1; ring. }
    rewrite (G y z), (G 0%nat 0%nat) by lia. clear G.
    destruct y as [|[|[|y]]]; [| | |lia]; (destruct z as [|[|[|z]]]; [| | |lia]); cbn [Nat.eqb Nat.ltb Nat.leb andb]; unfold kron; cbn [Nat.eqb];
      try (rewrite Nat.add_0_r in * || idtac);
      try (apply sum_g; intros i Hi; destruct (axis_comp i Hi) as [E0 E1]; rewrite ?E0, ?E1; ring);
      try (apply Rsum_0; intros i Hi%in_seq; destruct (axis_comp i ltac:(lia)) as [E0 E1]; rewrite ?E0, ?E1; ring);
      (let go d := (pose proof (X d ltac:(lia)) as Q;
        transitivity (-1 * Sum N (fun i => m i * (comp (geom i) 2 * lx (3 * i + d)%nat k))); [|rewrite Q; ring];
        rewrite <- Rsum_scal; apply sum_g; intros i Hi; destruct (axis_comp i Hi) as [E0 E1]; rewrite ?E0, ?E1, ?Nat.add_0_r; ring) in
      first [solve [go 0%nat]|go 1%nat]).
  Qed.

  Section Rule.
  Variable u : nat -> R.
  Local Notation gv := (gv geom u).
  Local Notation hv := (hv lx u).
  Lemma slope_form k : (k < n)%nat -> Sum 3 (fun b => Sum 3 (fun c => a k b c * (u b * u c))) = ip gv (fun b => lx b k).
  Proof.
    intros Hk. rewrite ip_blocks. rewrite !sum_3, !slope_eq by lia. rewrite <- !Rsum_scal_r, <- !Rsum_plus.
    apply sum_g. intros q _. rewrite sum_3, !gv_block by lia. unfold kron. cbn [Nat.eqb]. rewrite !Nat.add_0_r. ring.
  Qed.
  Lemma zeta_form k v : (k < n)%nat -> Sum 3 (fun x => zeta k v x * u x) = ip (hv v) (fun b => lx b k).
  Proof.
    intros Hk. rewrite ip_blocks. unfold zeta_of. rewrite !sum_3. rewrite <- !Rsum_scal_r, <- !Rsum_plus.
    apply sum_g. intros q Hq. rewrite sum_3, !hv_block by lia. cbn [cross].
    replace (3 * q / 3)%nat with q by (rewrite <- (Nat.add_0_r (3 * q)), div_block; lia).
    rewrite !div_block by lia. rewrite !Nat.add_0_r. pose proof (sqrt_sqrt (m q) ltac:(apply Rlt_le; auto)) as SS.
    set (s := sqrt (m q)) in *. rewrite <- SS. ring.
  Qed.
  Lemma hv_shift v d : (v < n)%nat -> (d < 3)%nat -> ip (hv v) (fun b => kron (b mod 3) d) = 0.
  Proof.
    intros Hv Hd. rewrite ip_shift by exact Hd. destruct HF as (_ & _ & _ & T & _).
    transitivity (cross (fun x => Sum N (fun q => m q * lx (3 * q + x)%nat v)) u d).
    - destruct d as [|[|[|d]]]; [| | |lia]; cbn [cross]; rewrite <- !Rsum_scal_r, <- Rsum_minus; apply sum_g; intros q _;
        rewrite hv_block by lia; cbn [cross]; ring.
    - destruct d as [|[|[|d]]]; [| | |lia]; cbn [cross]; rewrite !T by (assumption || lia); ring.
  Qed.
  Lemma gv_hv v : (v < n)%nat -> ip gv (hv v) = 0.
  Proof.
    intros Hv. destruct HF as (_ & _ & _ & _ & E). rewrite ip_blocks.
    transitivity (2 * (u 0%nat ^ 2 + u 1%nat ^ 2 + u 2%nat ^ 2) * (u 0%nat * Sum N (fun q => m q * (comp (geom q) 1 * lx (3 * q + 2)%nat v - comp (geom q) 2 * lx (3 * q + 1)%nat v))
      + u 1%nat * Sum N (fun q => m q * (comp (geom q) 2 * lx (3 * q + 0)%nat v - comp (geom q) 0 * lx (3 * q + 2)%nat v))
      + u 2%nat * Sum N (fun q => m q * (comp (geom q) 0 * lx (3 * q + 1)%nat v - comp (geom q) 1 * lx (3 * q + 0)%nat v)))).
    - rewrite <- !Rsum_scal, <- !Rsum_plus, <- Rsum_scal. apply sum_g. intros q _. rewrite sum_3, !gv_block, !hv_block by lia. cbn [cross]. ring.
    - rewrite !E by (assumption || lia). ring.
  Qed.
  Lemma hv_turn v d : (v < n)%nat -> (d < 3)%nat -> ip (hv v) (turnv d) = - / 2 * Sum 3 (fun c => a v d c * u c).
  Proof.
    intros Hv Hd. destruct HF as (_ & _ & _ & _ & E). rewrite ip_blocks, sum_3, !slope_eq by lia.
    assert (Z : Sum 3 (fun c => u c * Sum N (fun q => m q * (comp (geom q) d * lx (3 * q + c)%nat v - comp (geom q) c * lx (3 * q + d)%nat v))) = 0).
    { apply Rsum_0. intros c Hc%in_seq. rewrite E by lia. ring. }
    rewrite sum_3 in Z. apply Rminus_diag_uniq.
    rewrite <- (Rmult_0_r (- / 2)), <- Z.
    rewrite <- !Rsum_scal, <- !Rsum_scal_r, <- !Rsum_plus, <- !Rsum_scal, <- Rsum_minus. apply sum_g. intros q _.
    rewrite sum_3, !turn_block, !hv_block, !sum_3 by lia. unfold kron.
    destruct d as [|[|[|d]]]; [| | |lia]; cbn [cross about Nat.eqb]; rewrite !Nat.add_0_r; field.
  Qed.
  Lemma gv_turn d : u 2%nat = 0 -> (d < 3)%nat -> ip gv (turnv d) = 0.
  Proof.
    intros U Hd. rewrite ip_blocks. apply Rsum_0. intros q Hq%in_seq. destruct (axis_comp q ltac:(lia)) as [E0 E1].
    rewrite sum_3, !gv_block, !turn_block, !sum_3, E0, E1, U by lia.
    destruct d as [|[|[|d]]]; [| | |lia]; cbn [about]; ring.
  Qed.
  Lemma sum_rule v : u 2%nat = 0 -> (v < n)%nat ->
    Sum n (fun k => Sum 3 (fun b => Sum 3 (fun c => a k b c * (u b * u c))) * Sum 3 (fun x => zeta k v x * u x)) = 0.
  Proof.
    intros U Hv.
    rewrite (sum_g n _ (fun k => ip gv (fun b => lx b k) * ip (hv v) (fun b => lx b k)))
      by (intros k Hk; now rewrite slope_form, zeta_form).
    rewrite (complete_modes gv (hv v)) by (intros; now apply hv_shift). rewrite gv_hv by exact Hv.
    rewrite sum_3, !(gv_turn _ U) by lia. unfold Rdiv. ring.
  Qed.
  End Rule.

  (** angular momentum of the velocities at the undisplaced positions *)
  Local Notation still := (still N m geom).
  Lemma still_axis v : still v 2 = 0.
  Proof. unfold RotorMech.still. apply turn_axis. Qed.
  Lemma still_eq v d : (d < 3)%nat -> still v d = Sum N (fun i => m i * cross (comp (geom i)) (v i) d).
  Proof.
    intros Hd. unfold RotorMech.still. rewrite ip_blocks. apply sum_g. intros i _. f_equal. rewrite sum_3, !flat_block, !turn_block, !sum_3 by lia.
    destruct d as [|[|[|d]]]; [| | |lia]; cbn [cross about]; ring.
  Qed.

  Lemma kinetic v : (forall x, (x < 3)%nat -> Sum N (fun i => m i * v i x) = 0) ->
    Sum N (fun i => m i * Sum 3 (fun x => v i x ^ 2))
    = Sum n (fun k => ip (flat v) (fun b => lx b k) ^ 2) + Sum 3 (fun d => still v d ^ 2 / I d).
  Proof.
    intros H.
    pose proof (complete_modes (flat v) (flat v) (no_shift N m v H)) as E.
    rewrite (sum_g n _ (fun k => ip (flat v) (fun b => lx b k) * ip (flat v) (fun b => lx b k))) by (intros; ring).
    rewrite E. unfold RotorMech.still.
    rewrite (sum_g 3 (fun d => ip (flat v) (turnv d) ^ 2 / I d) (fun d => ip (flat v) (turnv d) * ip (flat v) (turnv d) / I d))
      by (intros; unfold Rdiv; ring).
    rewrite ip_blocks. ring_simplify. apply sum_g. intros i _. f_equal. apply sum_g. intros x Hx. rewrite flat_block by exact Hx. ring.
  Qed.

  (** the rotation that the displacement of a mode adds *)
  Lemma mode_spin v k d : (k < n)%nat -> (d < 3)%nat -> (forall x, (x < 3)%nat -> Sum N (fun i => m i * v i x) = 0) ->
    Sum N (fun i => m i * cross (fun x => lx (3 * i + x)%nat k) (v i) d)
    = Sum n (fun l => ip (flat v) (fun b => lx b l) * zeta k l d) + / 2 * Sum 3 (fun e => a k d e * still v e / I e).
  Proof.
    intros Hk Hd H. set (u := fun x => kron x d).
    assert (E : Sum N (fun i => m i * cross (fun x => lx (3 * i + x)%nat k) (v i) d) = - ip (flat v) (hv lx u k)).
    { rewrite ip_blocks. transitivity (-1 * Sum N (fun q => m q * Sum 3 (fun x => flat v (3 * q + x) * hv lx u k (3 * q + x)))); [|ring].
      rewrite <- Rsum_scal. apply sum_g. intros i _. rewrite sum_3, !flat_block, !hv_block by lia. unfold u, kron.
      destruct d as [|[|[|d]]]; [| | |lia]; cbn [cross Nat.eqb]; ring. }
    rewrite E.
    pose proof (complete_modes (flat v) (hv lx u k) (fun d Hd => hv_shift u k d Hk Hd)) as C.
    assert (C1 : Sum n (fun l => ip (flat v) (fun b => lx b l) * ip (hv lx u k) (fun b => lx b l))
      = - Sum n (fun l => ip (flat v) (fun b => lx b l) * zeta k l d)).
    { transitivity (-1 * Sum n (fun l => ip (flat v) (fun b => lx b l) * zeta k l d)); [|ring]. rewrite <- Rsum_scal.
      apply sum_g. intros l Hl. rewrite <- (zeta_form u l k Hl).
      assert (Z : Sum 3 (fun x => zeta l k x * u x) = zeta l k d).
      { rewrite sum_3. unfold u, kron. destruct d as [|[|[|d]]]; [| | |lia]; cbn [Nat.eqb]; ring. }
      rewrite Z. assert (Z2 : zeta l k d = - zeta k l d).
      { transitivity (-1 * zeta k l d); [|ring]. unfold zeta_of. rewrite <- Rsum_scal. apply sum_g. intros q _.
        destruct d as [|[|[|d]]]; ring. }
      rewrite Z2. ring. }
    rewrite C1 in C.
    assert (C2 : Sum 3 (fun e => ip (flat v) (turnv e) * ip (hv lx u k) (turnv e) / I e)
      = - (/ 2 * Sum 3 (fun e => a k d e * still v e / I e))).
    { transitivity (- / 2 * Sum 3 (fun e => a k d e * still v e / I e)); [|ring]. rewrite <- Rsum_scal. apply sum_g. intros e He.
      rewrite (hv_turn u k e Hk He).
      assert (Z : Sum 3 (fun c => a k e c * u c) = a k d e).
      { rewrite (slope_sym k d e Hk Hd He). rewrite sum_3. unfold u, kron.
        destruct d as [|[|[|d]]]; [| | |lia]; cbn [Nat.eqb]; ring. }
      rewrite Z. unfold RotorMech.still, Rdiv. ring. }
    rewrite C2 in C. lra.
  Qed.

  (** the displacement changes the inertia tensor by [X] *)
  Variables (w : nat -> R) (lam : R).
  Definition Xq (q : nat -> R) (x y : nat) : R := Sum n (fun k => a k x y * (q k / (lam * sqrt (w k)))).
  Definition piqp (q p : nat -> R) (x : nat) : R :=
    Sum n (fun k => Sum n (fun l => zeta k l x * (q k / (lam * sqrt (w k))) * (lam * sqrt (w l) * p l))).
  Definition turning (q : nat -> R) (v : nat -> nat -> R) (d : nat) : R := Sum N (fun i => m i * cross (RotorMech.placed n geom lx w lam q i) (v i) d).
  Lemma momentum q p v : (forall x, (x < 3)%nat -> Sum N (fun i => m i * v i x) = 0) ->
    (forall k, (k < n)%nat -> Sum N (fun i => m i * Sum 3 (fun x => lx (3 * i + x)%nat k * v i x)) = lam * sqrt (w k) * p k) ->
    forall d, (d < 3)%nat ->
    turning q v d - piqp q p d = still v d + / 2 * Sum 3 (fun e => Xq q d e * still v e / I e).
  Proof.
    intros H1 H3 d Hd. unfold turning.
    assert (E : Sum N (fun i => m i * cross (RotorMech.placed n geom lx w lam q i) (v i) d)
      = still v d + Sum n (fun k => (q k / (lam * sqrt (w k))) * Sum N (fun i => m i * cross (fun x => lx (3 * i + x)%nat k) (v i) d))).
    { rewrite still_eq by exact Hd.
      rewrite (sum_g n (fun k => (q k / (lam * sqrt (w k))) * Sum N _)
        (fun k => Sum N (fun i => (q k / (lam * sqrt (w k))) * (m i * cross (fun x => lx (3 * i + x)%nat k) (v i) d))))
        by (intros; now rewrite Rsum_scal).
      rewrite Rsum_swap, <- Rsum_plus. apply sum_g. intros i _. unfold RotorMech.placed.
      assert (L : Sum n (fun k => q k / (lam * sqrt (w k)) * (m i * cross (fun x => lx (3 * i + x)%nat k) (v i) d))
        = m i * cross (fun x => Sum n (fun k => lx (3 * i + x)%nat k * (q k / (lam * sqrt (w k))))) (v i) d).
      { destruct d as [|[|[|d]]]; [| | |lia]; cbn [cross]; rewrite <- !Rsum_scal_r, <- Rsum_minus, <- Rsum_scal; apply sum_g; intros k _; ring. }
      rewrite L. destruct d as [|[|[|d]]]; [| | |lia]; cbn [cross]; ring. }
    rewrite E. unfold piqp.
    rewrite (sum_g n _ (fun k => Sum n (fun l => zeta k l d * (q k / (lam * sqrt (w k))) * (lam * sqrt (w l) * p l))
      + / 2 * Sum 3 (fun e => a k d e * (q k / (lam * sqrt (w k))) * still v e / I e))).
    - rewrite Rsum_plus, Rsum_scal.
      assert (S : Sum n (fun k => Sum 3 (fun e => a k d e * (q k / (lam * sqrt (w k))) * still v e / I e)) = Sum 3 (fun e => Xq q d e * still v e / I e)).
      { rewrite Rsum_swap. apply sum_g. intros e _. unfold Xq, Rdiv. rewrite <- !Rsum_scal_r. apply sum_g. intros; ring. }
      rewrite S. ring.
    - intros k Hk. rewrite (mode_spin v k d Hk Hd H1). rewrite Rmult_plus_distr_l. f_equal.
      + rewrite <- Rsum_scal. apply sum_g. intros l Hl. rewrite mode_momentum, H3 by exact Hl. ring.
      + rewrite !sum_3. unfold Rdiv. ring.
  Qed.
  (** *** the energy in powers of the angular momentum *)
  Variables (K : R) (f3 : nat -> nat -> nat -> R) (V : (nat -> R) -> R).
  Hypothesis Hw : forall k, (k < n)%nat -> 0 < w k.
  Hypothesis Hl : 0 < lam.
  Hypothesis HK : 2 * K * lam ^ 2 = 1.
  Hypothesis HV : cubic_near n w f3 V.
  Local Notation B := (fun x => K / I x).

  Lemma Xq_scal t q x y : Xq (fun k => t * q k) x y = t * Xq q x y.
  Proof. unfold Xq. rewrite <- Rsum_scal. apply sum_g. intros k Hk. unfold Rdiv. ring. Qed.
  Lemma piqp_scal t s q p x : piqp (fun k => t * q k) (fun k => s * p k) x = t * s * piqp q p x.
  Proof.
    unfold piqp. rewrite <- Rsum_scal. apply sum_g. intros k Hk. rewrite <- Rsum_scal. apply sum_g. intros l Hl'. unfold Rdiv. ring.
  Qed.
  Lemma Xq_sym q x y : (x < 3)%nat -> (y < 3)%nat -> Xq q x y = Xq q y x.
  Proof.
    intros Hx Hy. unfold Xq. apply sum_g. intros k Hk. f_equal. exact (slope_sym k x y Hk Hx Hy).
  Qed.

  Lemma Xq_axis q y : (y < 3)%nat -> Xq q 2 y = 0.
  Proof.
    intros Hy. unfold Xq. apply Rsum_0. intros k Hk%in_seq. rewrite (slope_axis k 2 y) by lia.
    destruct y as [|[|[|y]]]; [| | |lia]; cbn [Nat.eqb Nat.ltb Nat.leb andb]; ring.
  Qed.

  Definition E4 (J q : nat -> R) : R :=
    - K * Sum 3 (fun x => Sum 3 (fun y => Xq q x y * J x * J y / (I x * I y))) + / 2 * Sum n (fun k => w k * q k ^ 2).
  Definition E6 (J q p : nat -> R) : R :=
    3 / 4 * K * Sum 3 (fun x => Sum 3 (fun y => Xq q x y * J y / I y) ^ 2 / I x)
    - 2 * K * Sum 3 (fun x => J x * piqp q p x / I x) + / 2 * Sum n (fun k => w k * p k ^ 2)
    + / 6 * Sum n (fun i => Sum n (fun j => Sum n (fun k => f3 i j k * q i * q j * q k))).

  Lemma energy_expand jx jy q p : let J := xyz jx jy 0 in exists C d, 0 < d /\ d <= 1 /\ 0 <= C /\ forall e v, Rabs e < d ->
    line_motion N n m geom lx w lam (e * jx) (e * jy) (fun k => e ^ 2 * q k) (fun k => e ^ 3 * p k) v ->
    Rabs (energy N m K V (fun k => e ^ 2 * q k) v - (e ^ 2 * Sum 3 (fun x => B x * J x ^ 2) + e ^ 4 * E4 J q + e ^ 6 * E6 J q p)) <= C * e ^ 8.
  Proof.
    intros J.
    pose proof (HI 0%nat ltac:(lia)) as P0. pose proof (HI 1%nat ltac:(lia)) as I1. pose proof (HI 2%nat ltac:(lia)) as I2.
    assert (PK : 0 < K) by (assert (0 < lam ^ 2) by nra; nra).
    destruct (inner_expand (fun x y => / 2 * Xq q x y / I y) J (fun x => if (x <? 2)%nat then piqp q p x else 0)) as (C1 & d1 & P1 & P2 & HC).
    destruct (HV q) as (C2 & d2 & P3 & HC2).
    set (C := K * Sum 3 (fun x => C1 / I x) + Rabs C2).
    exists (Rabs C), (Rmin d1 d2).
    split; [now apply Rmin_glb_lt|]. split; [eapply Rle_trans; [apply Rmin_l|exact P2]|]. split; [apply Rabs_pos|]. intros e v He Mo.
    assert (He1 : Rabs e < d1) by (eapply Rlt_le_trans; [exact He|apply Rmin_l]).
    assert (He2 : Rabs (e ^ 2) < d2).
    { rewrite <- RPow_abs. assert (Rabs e < d2) by (eapply Rlt_le_trans; [exact He|apply Rmin_r]). pose proof (Rabs_pos e). nra. }
    assert (P8 : 0 <= e ^ 8) by (replace (e ^ 8) with ((e ^ 4) ^ 2) by ring; apply pow2_ge_0).
    pose proof (HC e (still v) He1) as HL. specialize (HC2 (e ^ 2) He2).
    destruct Mo as (M1 & M2x & M2y & M3).
    assert (HM : forall x, (x < 3)%nat -> e * J x - e ^ 5 * (if (x <? 2)%nat then piqp q p x else 0)
      = still v x + e ^ 2 * Sum 3 (fun y => / 2 * Xq q x y / I y * still v y)).
    { intros x Hx.
      assert (HM2 : forall x, (x < 2)%nat -> turning (fun k => e ^ 2 * q k) v x = e * J x ->
        e * J x - e ^ 5 * piqp q p x = still v x + e ^ 2 * Sum 3 (fun y => / 2 * Xq q x y / I y * still v y)).
      { clear x Hx. intros x Hx EJ. pose proof (momentum (fun k => e ^ 2 * q k) (fun k => e ^ 3 * p k) v M1 M3 x ltac:(lia)) as E. cbv beta in E. rewrite piqp_scal, EJ in E.
        rewrite (sum_g 3 _ (fun y => e ^ 2 * (Xq q x y * still v y / I y))) in E by (intros; rewrite Xq_scal; unfold Rdiv; ring).
        rewrite Rsum_scal in E. rewrite (sum_g 3 (fun y => / 2 * Xq q x y / I y * still v y) (fun y => / 2 * (Xq q x y * still v y / I y)))
          by (intros; unfold Rdiv; ring). rewrite Rsum_scal. replace (e ^ 5) with (e ^ 2 * e ^ 3) by ring. lra. }
      destruct x as [|[|[|x]]]; [| | |lia]; cbn [Nat.ltb Nat.leb].
      - apply HM2; [lia|exact M2x].
      - apply HM2; [lia|exact M2y].
      - rewrite still_axis, sum_3, !Xq_axis by lia. unfold J. cbn [xyz]. unfold Rdiv. ring. }
    specialize (HL HM). clear HC HM He1 He2.
    unfold energy. rewrite (kinetic v M1).
    rewrite (sum_g n _ (fun k => e ^ 6 * (lam ^ 2 * (w k * p k ^ 2)))).
    2: { intros k Hk. rewrite mode_momentum, M3 by exact Hk. pose proof (sqrt_sqrt (w k) ltac:(apply Rlt_le; auto)) as SS.
      set (s := sqrt (w k)) in *. rewrite <- SS. ring. }
    rewrite Rsum_scal, Rsum_scal. unfold E4, E6.
    set (W := Sum n (fun k => w k * p k ^ 2)) in *. set (Q := Sum n (fun k => w k * q k ^ 2)) in *.
    set (F := Sum n (fun i => Sum n _)) in *. set (v0 := V _) in *.
    pose proof (HL 0%nat ltac:(lia)) as H0. pose proof (HL 1%nat ltac:(lia)) as H1. pose proof (HL 2%nat ltac:(lia)) as H2. clear HL.
    cbn [Nat.ltb Nat.leb] in H0, H1, H2.
    rewrite !sum_3 in *. rewrite (Xq_sym q 1 0), (Xq_sym q 0 2), (Xq_sym q 1 2), !(Xq_axis q) in * by lia.
    set (L0 := still v 0) in *. set (L1 := still v 1) in *. set (L2 := still v 2) in *. assert (J2 : J 2%nat = 0) by reflexivity. rewrite J2 in *.
    set (p0 := piqp q p 0) in *. set (p1 := piqp q p 1) in *. set (p2 := piqp q p 2) in *.
    set (X00 := Xq q 0 0) in *. set (X01 := Xq q 0 1) in *.
    set (X11 := Xq q 1 1) in *.
    match type of H0 with Rabs (_ - ?r) <= _ => set (r0 := r) in * end.
    match type of H1 with Rabs (_ - ?r) <= _ => set (r1 := r) in * end.
    match type of H2 with Rabs (_ - ?r) <= _ => set (r2 := r) in * end.
    match type of HC2 with Rabs (_ - ?r) <= _ => set (rv := r) in * end.
    match goal with |- Rabs (?x) <= _ => replace x with (K / I 0%nat * (L0 ^ 2 - r0) + K / I 1%nat * (L1 ^ 2 - r1) + K / I 2%nat * (L2 ^ 2 - r2) + (v0 - rv)) end.
    - eapply Rle_trans; [apply Rabs_triang|]. eapply Rle_trans; [apply Rplus_le_compat_r, Rabs_triang|].
      eapply Rle_trans; [apply Rplus_le_compat_r, Rplus_le_compat_r, Rabs_triang|].
      rewrite !Rabs_mult.
      assert (Q3 : forall x, 0 < x -> 0 <= K / x /\ Rabs (K / x) = K / x).
      { intros x Hx. assert (0 <= K / x) by (apply Rlt_le, Rdiv_lt_0_compat; assumption). split; [assumption|now apply Rabs_pos_eq]. }
      destruct (Q3 _ P0) as [B0 ->]. destruct (Q3 _ I1) as [B1 ->]. destruct (Q3 _ I2) as [B2 ->].
      apply Rle_trans with (C * e ^ 8); [|apply Rmult_le_compat_r; [exact P8|apply Rle_abs]].
      unfold C. rewrite sum_3. replace ((e ^ 2) ^ 4) with (e ^ 8) in HC2 by ring.
      assert (C2 * e ^ 8 <= Rabs C2 * e ^ 8) by (apply Rmult_le_compat_r; [exact P8|apply Rle_abs]).
      apply (Rmult_le_compat_l _ _ _ B0) in H0. apply (Rmult_le_compat_l _ _ _ B1) in H1. apply (Rmult_le_compat_l _ _ _ B2) in H2.
      unfold Rdiv in *. lra.
    - unfold r0, r1, r2, rv. replace (lam ^ 2) with (/ (2 * K)) by (apply (Rmult_eq_reg_l (2 * K)); [rewrite HK; field; lra|lra]).
      field. lra.
  Qed.

  (** *** the quartic and sextic forms *)
  (** the displacement of a mode by rotation and the constant of centrifugal distortion *)
  Definition line_shift (v : nat) : R := a v 0%nat 0%nat / (2 * I0 ^ 2 * p32 (lam ^ 2 * w v)).
  Definition line_D : R := K ^ 3 / I0 ^ 4 * Sum n (fun v => a v 0%nat 0%nat ^ 2 / w v ^ 2).
  Section Shape.
  Variables (x y : R).
  Let z : R := 0.
  Let J := xyz x y z.
  Let u (d : nat) : R := J d / I d.
  Let asum (v : nat) : R := Sum 3 (fun b => Sum 3 (fun c => a v b c * (u b * u c))).
  Let au (v d : nat) : R := Sum 3 (fun c => a v d c * u c).
  Local Notation tau := (tau_cl n K w I a).
  Local Notation c := (shift_cl lam w I a).
  Let cv (v : nat) : R := c_form c v x y z.

  Let posK : 0 < K.
  Proof. assert (0 < lam ^ 2) by nra. nra. Qed.
  Let I3 : I 0%nat <> 0 /\ I 1%nat <> 0 /\ I 2%nat <> 0.
  Proof. pose proof (HI 0%nat ltac:(lia)). pose proof (HI 1%nat ltac:(lia)). pose proof (HI 2%nat ltac:(lia)). lra. Qed.

  Lemma p32_lam v : (v < n)%nat -> p32 (lam ^ 2 * w v) = lam ^ 3 * (w v * sqrt (w v)).
  Proof.
    intros Hv. pose proof (Hw v Hv). unfold p32. rewrite sqrt_mult, sqrt_pow2 by nra. ring.
  Qed.
  Lemma cv_eq v : (v < n)%nat -> cv v = asum v / (2 * lam ^ 3 * (w v * sqrt (w v))).
  Proof.
    intros Hv. destruct I3 as (N0 & N1 & N2). unfold cv, c_form, shift_cl. rewrite !p32_lam by exact Hv. unfold asum, u, J. rewrite ?FormFacts.sum3_eq, ?sum_3.
    assert (P1 : w v <> 0) by (pose proof (Hw v Hv); lra). assert (P2 : sqrt (w v) <> 0) by (pose proof (sqrt_lt_R0 _ (Hw v Hv)); lra).
    cbn [xyz]. field. repeat split; try assumption. lra.
  Qed.
  Lemma w_cv v : (v < n)%nat -> w v * cv v = K * asum v / (lam * sqrt (w v)).
  Proof.
    intros Hv. rewrite cv_eq by exact Hv.
    assert (P1 : w v <> 0) by (pose proof (Hw v Hv); lra). assert (P2 : sqrt (w v) <> 0) by (pose proof (sqrt_lt_R0 _ (Hw v Hv)); lra).
    replace K with (/ (2 * lam ^ 2)) by (rewrite <- (Rmult_1_r (/ _)), <- HK; field; lra).
    field. repeat split; try assumption; lra.
  Qed.
  Lemma w_cv2 v : (v < n)%nat -> w v * cv v ^ 2 = 2 * K ^ 3 * (asum v ^ 2 / w v ^ 2).
  Proof.
    intros Hv. replace (w v * cv v ^ 2) with (w v * cv v * cv v) by ring. rewrite w_cv, cv_eq by exact Hv.
    assert (P1 : w v <> 0) by (pose proof (Hw v Hv); lra). assert (P2 : sqrt (w v) <> 0) by (pose proof (sqrt_lt_R0 _ (Hw v Hv)); lra).
    pose proof (sqrt_sqrt (w v) ltac:(apply Rlt_le; auto)) as SS.
    replace (K * asum v / (lam * sqrt (w v)) * (asum v / (2 * lam ^ 3 * (w v * sqrt (w v)))))
      with (K * asum v ^ 2 / (2 * lam ^ 4 * (w v * (sqrt (w v) * sqrt (w v))))) by (field; repeat split; try assumption; lra).
    rewrite SS. replace K with (/ (2 * lam ^ 2)) by (rewrite <- (Rmult_1_r (/ _)), <- HK; field; lra).
    field. repeat split; try assumption; lra.
  Qed.

  Lemma quartic_cv : quartic_form tau x y z = - / 2 * Sum n (fun v => w v * cv v ^ 2).
  Proof.
    rewrite (sum_g n _ (fun v => 2 * K ^ 3 * (asum v ^ 2 / w v ^ 2))) by (intros; now apply w_cv2). rewrite Rsum_scal.
    assert (E : quartic_form tau x y z = / 4 * Sum 3 (fun b => Sum 3 (fun d => Sum 3 (fun e => Sum 3 (fun f =>
      Sum n (fun v => - ((2 * K) ^ 3 / 2) * (/ w v ^ 2 * (a v b d * (u b * u d)) * (a v e f * (u e * u f))))))))).
    { unfold quartic_form. f_equal. apply sum_g. intros b _. apply sum_g. intros d _. apply sum_g. intros e _. apply sum_g. intros f _.
      unfold tau_cl. rewrite Rsum_scal, Rmult_assoc. f_equal. rewrite <- Rsum_scal_r. apply sum_g. intros v _. fold J. unfold u, Rdiv.
      rewrite !Rinv_mult. ring. }
    rewrite E.
    assert (E' : Sum 3 (fun b => Sum 3 (fun d => Sum 3 (fun e => Sum 3 (fun f =>
      Sum n (fun v => - ((2 * K) ^ 3 / 2) * (/ w v ^ 2 * (a v b d * (u b * u d)) * (a v e f * (u e * u f))))))))
      = Sum n (fun v => - ((2 * K) ^ 3 / 2) * (/ w v ^ 2 * asum v * asum v))).
    { assert (F1 : forall b d e, Sum 3 (fun f => Sum n (fun v => - ((2 * K) ^ 3 / 2) * (/ w v ^ 2 * (a v b d * (u b * u d)) * (a v e f * (u e * u f)))))
        = Sum n (fun v => - ((2 * K) ^ 3 / 2) * (/ w v ^ 2 * (a v b d * (u b * u d)) * Sum 3 (fun f => a v e f * (u e * u f))))).
      { intros. rewrite Rsum_swap. apply sum_g. intros v _. now rewrite Rsum_scal, Rsum_scal. }
      assert (F2 : forall b d, Sum 3 (fun e => Sum n (fun v => - ((2 * K) ^ 3 / 2) * (/ w v ^ 2 * (a v b d * (u b * u d)) * Sum 3 (fun f => a v e f * (u e * u f)))))
        = Sum n (fun v => - ((2 * K) ^ 3 / 2) * (/ w v ^ 2 * asum v * (a v b d * (u b * u d))))).
      { intros. rewrite Rsum_swap. apply sum_g. intros v _. rewrite Rsum_scal, Rsum_scal. unfold asum. ring. }
      assert (F3 : forall b, Sum 3 (fun d => Sum n (fun v => - ((2 * K) ^ 3 / 2) * (/ w v ^ 2 * asum v * (a v b d * (u b * u d)))))
        = Sum n (fun v => - ((2 * K) ^ 3 / 2) * (/ w v ^ 2 * asum v * Sum 3 (fun d => a v b d * (u b * u d))))).
      { intros. rewrite Rsum_swap. apply sum_g. intros v _. now rewrite Rsum_scal, Rsum_scal. }
      rewrite (sum_g 3 _ (fun b => Sum n (fun v => - ((2 * K) ^ 3 / 2) * (/ w v ^ 2 * asum v * Sum 3 (fun d => a v b d * (u b * u d)))))).
      - rewrite Rsum_swap. apply sum_g. intros v _. now rewrite Rsum_scal, Rsum_scal.
      - intros b _. rewrite <- F3. apply sum_g. intros d _. rewrite <- F2. apply sum_g. intros e _. now rewrite F1. }
    rewrite E', Rsum_scal. unfold Rdiv. rewrite (sum_g n (fun v => asum v ^ 2 * / w v ^ 2) (fun v => / w v ^ 2 * asum v * asum v)) by (intros; ring). field.
  Qed.
  Lemma E4_forms q : E4 J q = quartic_form tau x y z + / 2 * Sum n (fun v => w v * (q v - cv v) ^ 2).
  Proof.
    rewrite quartic_cv. unfold E4.
    assert (E : K * Sum 3 (fun x => Sum 3 (fun y => Xq q x y * J x * J y / (I x * I y))) = Sum n (fun k => w k * cv k * q k)).
    { rewrite (sum_g n _ (fun k => K * asum k / (lam * sqrt (w k)) * q k)) by (intros; now rewrite w_cv).
      rewrite ?sum_3. unfold Xq, Rdiv. rewrite <- !Rsum_scal_r, <- !Rsum_plus, <- !Rsum_scal. apply sum_g. intros k Hk.
      unfold asum, u. rewrite ?sum_3. unfold Rdiv. rewrite !Rinv_mult. ring. }
    replace (- K * Sum 3 (fun x => Sum 3 (fun y => Xq q x y * J x * J y / (I x * I y)))) with (-1 * Sum n (fun k => w k * cv k * q k)) by (rewrite <- E; ring).
    rewrite <- !Rsum_scal, <- !Rsum_plus. apply sum_g. intros k _. field.
  Qed.

  Lemma tau_form_eq d : (d < 3)%nat -> tau_form tau d x y z = - (2 * K) ^ 3 / 2 * Sum n (fun v => au v d / I d * (asum v / w v ^ 2)).
  Proof.
    intros Hd.
    assert (E : tau_form tau d x y z = Sum 3 (fun b => Sum 3 (fun e => Sum 3 (fun f =>
      Sum n (fun v => - ((2 * K) ^ 3 / 2) * (/ w v ^ 2 * (a v d b * u b * / I d) * (a v e f * (u e * u f)))))))).
    { unfold tau_form. apply sum_g. intros b _. apply sum_g. intros e _. apply sum_g. intros f _.
      unfold tau_cl. rewrite Rsum_scal, Rmult_assoc. f_equal. rewrite <- Rsum_scal_r. apply sum_g. intros v _. fold J. unfold u, Rdiv.
      rewrite !Rinv_mult. ring. }
    rewrite E.
    assert (F1 : forall b e, Sum 3 (fun f => Sum n (fun v => - ((2 * K) ^ 3 / 2) * (/ w v ^ 2 * (a v d b * u b * / I d) * (a v e f * (u e * u f)))))
      = Sum n (fun v => - ((2 * K) ^ 3 / 2) * (/ w v ^ 2 * (a v d b * u b * / I d) * Sum 3 (fun f => a v e f * (u e * u f))))).
    { intros. rewrite Rsum_swap. apply sum_g. intros v _. now rewrite Rsum_scal, Rsum_scal. }
    assert (F2 : forall b, Sum 3 (fun e => Sum n (fun v => - ((2 * K) ^ 3 / 2) * (/ w v ^ 2 * (a v d b * u b * / I d) * Sum 3 (fun f => a v e f * (u e * u f)))))
      = Sum n (fun v => - ((2 * K) ^ 3 / 2) * (/ w v ^ 2 * asum v * / I d * (a v d b * u b)))).
    { intros. rewrite Rsum_swap. apply sum_g. intros v _. rewrite Rsum_scal, Rsum_scal. unfold asum. ring. }
    rewrite (sum_g 3 _ (fun b => Sum n (fun v => - ((2 * K) ^ 3 / 2) * (/ w v ^ 2 * asum v * / I d * (a v d b * u b))))).
    - rewrite Rsum_swap. rewrite <- Rsum_scal. apply sum_g. intros v _. rewrite Rsum_scal, Rsum_scal. unfold au, Rdiv. ring.
    - intros b _. rewrite <- F2. apply sum_g. intros e _. now rewrite F1.
  Qed.
  Lemma Xq_cv q d : (d < 3)%nat -> (forall v, (v < n)%nat -> q v = cv v) ->
    Sum 3 (fun e => Xq q d e * J e / I e) = - I d * tau_form tau d x y z / (2 * K).
  Proof.
    intros Hd Hq. rewrite tau_form_eq by exact Hd.
    assert (E : Sum 3 (fun e => Xq q d e * J e / I e) = 2 * K ^ 2 * Sum n (fun v => au v d * (asum v / w v ^ 2))).
    { rewrite sum_3. unfold Xq, Rdiv. rewrite <- !Rsum_scal_r, <- !Rsum_plus, <- !Rsum_scal. apply sum_g. intros v Hv. rewrite Hq by exact Hv.
      assert (D : cv v * / (lam * sqrt (w v)) = 2 * K ^ 2 * (asum v / w v ^ 2)).
      { rewrite cv_eq by exact Hv.
        assert (P1 : w v <> 0) by (pose proof (Hw v Hv); lra). assert (P2 : sqrt (w v) <> 0) by (pose proof (sqrt_lt_R0 _ (Hw v Hv)); lra).
        pose proof (sqrt_sqrt (w v) ltac:(apply Rlt_le; auto)) as SS.
        replace (asum v / (2 * lam ^ 3 * (w v * sqrt (w v))) * / (lam * sqrt (w v)))
          with (asum v / (2 * lam ^ 4 * (w v * (sqrt (w v) * sqrt (w v))))) by (field; repeat split; try assumption; lra).
        rewrite SS. replace K with (/ (2 * lam ^ 2)) by (rewrite <- (Rmult_1_r (/ _)), <- HK; field; lra).
        field. repeat split; try assumption; lra. }
      rewrite D. unfold au, u. rewrite sum_3. unfold Rdiv. ring. }
    rewrite E. unfold Rdiv. rewrite (sum_g n (fun v => au v d * / I d * (asum v * / w v ^ 2)) (fun v => / I d * (au v d * (asum v * / w v ^ 2)))) by (intros; ring).
    rewrite Rsum_scal. pose proof (HI d Hd). field. lra.
  Qed.

  (** the Coriolis force on mode [l] *)
  Let gam (l : nat) : R := 2 * K * sqrt (w l) * Sum n (fun k => cv k / sqrt (w k) * Sum 3 (fun x => zeta k l x * u x)).
  Lemma coriolis_cv q p : (forall v, (v < n)%nat -> q v = cv v) ->
    2 * K * Sum 3 (fun x => J x * piqp q p x / I x) = Sum n (fun l => p l * gam l).
  Proof.
    intros Hq. unfold gam.
    rewrite (sum_g n (fun l => p l * _) (fun l => Sum n (fun k => 2 * K * sqrt (w l) * p l * (cv k / sqrt (w k) * Sum 3 (fun x => zeta k l x * u x)))))
      by (intros; rewrite Rsum_scal; ring).
    rewrite Rsum_swap.
    assert (E : forall d, J d * piqp q p d / I d = Sum n (fun k => Sum n (fun l => u d * (zeta k l d * (cv k / sqrt (w k)) * (sqrt (w l) * p l))))).
    { intros d. unfold piqp. unfold Rdiv at 1. rewrite (Rmult_comm (J d)), Rmult_assoc. fold (Rdiv (J d) (I d)). fold (u d).
      rewrite <- Rsum_scal_r. apply sum_g. intros k Hk. rewrite <- Rsum_scal_r. apply sum_g. intros l Hl'. rewrite Hq by exact Hk.
      pose proof (sqrt_lt_R0 _ (Hw k Hk)). field. lra. }
    rewrite sum_3, !E, <- !Rsum_plus, <- Rsum_scal. apply sum_g. intros k Hk. rewrite <- !Rsum_plus, <- Rsum_scal. apply sum_g. intros l Hl'.
    rewrite sum_3. ring.
  Qed.

  Lemma cor_eq v : (v < n)%nat -> w v * (2 * cor_form n B w c zeta v x y z) = gam v.
  Proof.
    intros Hv.
    assert (R0 : Sum n (fun k => w k * sqrt (w k) * cv k * Sum 3 (fun x => zeta k v x * u x)) = 0).
    { assert (U2 : u 2%nat = 0) by (unfold u, J, z; cbn [xyz]; unfold Rdiv; ring).
      rewrite <- (Rmult_0_r (/ (2 * lam ^ 3))), <- (sum_rule u v U2 Hv), <- Rsum_scal. apply sum_g. intros k Hk. rewrite cv_eq by exact Hk. fold (asum k).
      assert (w k <> 0) by (pose proof (Hw k Hk); lra). assert (sqrt (w k) <> 0) by (pose proof (sqrt_lt_R0 _ (Hw k Hk)); lra).
      field. repeat split; try assumption; lra. }
    transitivity (gam v + 4 * K / (w v * sqrt (w v)) * Sum n (fun k => w k * sqrt (w k) * cv k * Sum 3 (fun x => zeta k v x * u x))).
    2: { rewrite R0. ring. }
    unfold cor_form, gam.
    pose proof (Hw v Hv) as Pv. pose proof (sqrt_lt_R0 _ Pv) as Ps. pose proof (sqrt_sqrt (w v) ltac:(lra)) as SS.
    rewrite <- !Rsum_scal, <- Rsum_plus.
    unfold Rdiv at 1. rewrite <- Rsum_scal_r, <- !Rsum_scal. apply sum_g. intros k Hk.
    pose proof (Hw k Hk) as Pk. pose proof (sqrt_lt_R0 _ Pk) as Pt. pose proof (sqrt_sqrt (w k) ltac:(lra)) as TT.
    fold (cv k). unfold p32.
    assert (Z : FormFacts.sum3 (fun b => zeta k v b * (K / I b) * xyz x y z b) = K * Sum 3 (fun x => zeta k v x * u x)).
    { rewrite ?FormFacts.sum3_eq, ?sum_3. unfold u, J. cbn [xyz]. unfold Rdiv. ring. }
    rewrite Z. set (zz := Sum 3 _).
    set (s := sqrt (w v)) in *. set (t := sqrt (w k)) in *. rewrite <- SS, <- TT. field. lra.
  Qed.

  Lemma E6_forms q p : (forall v, (v < n)%nat -> q v = cv v) ->
    E6 J q p = sextic_form n B w tau c zeta f3 x y z
      + / 2 * Sum n (fun v => w v * (p v - 2 * cor_form n B w c zeta v x y z) ^ 2).
  Proof.
    intros Hq. unfold E6, sextic_form. rewrite (coriolis_cv q p Hq).
    rewrite (sum_g 3 (fun d => Sum 3 (fun e => Xq q d e * J e / I e) ^ 2 / I d) (fun d => (- I d * tau_form tau d x y z / (2 * K)) ^ 2 / I d))
      by (intros d Hd; now rewrite (Xq_cv q d Hd Hq)).
    rewrite (sum_g n (fun i => Sum n (fun j => Sum n (fun k => f3 i j k * q i * q j * q k)))
      (fun i => Sum n (fun j => Sum n (fun k => f3 i j k * c_form c i x y z * c_form c j x y z * c_form c k x y z)))).
    2: { intros i Hi. apply sum_g. intros j Hj. apply sum_g. intros k Hk. now rewrite !Hq. }
    set (F := Sum n (fun i => Sum n _)).
    assert (A1 : 3 / 4 * K * Sum 3 (fun d => (- I d * tau_form tau d x y z / (2 * K)) ^ 2 / I d) = 3 / 16 * FormFacts.sum3 (fun d => tau_form tau d x y z ^ 2 / (K / I d))).
    { rewrite ?FormFacts.sum3_eq, ?sum_3. destruct I3 as (N0 & N1 & N2). field. repeat split; try assumption; lra. }
    rewrite A1.
    assert (A2 : / 2 * Sum n (fun v => w v * (p v - 2 * cor_form n B w c zeta v x y z) ^ 2)
      = - Sum n (fun v => p v * gam v) + / 2 * Sum n (fun k => w k * p k ^ 2) + 2 * Sum n (fun v => w v * cor_form n B w c zeta v x y z ^ 2)).
    { replace (- Sum n (fun v => p v * gam v)) with (-1 * Sum n (fun v => p v * gam v)) by ring.
      rewrite <- !Rsum_scal, <- !Rsum_plus. apply sum_g. intros v Hv.
      replace (gam v) with (w v * (2 * cor_form n B w c zeta v x y z)) by (rewrite cor_eq by exact Hv; ring). field. }
    lra.
  Qed.
  (** *** in terms of the moment of inertia about one axis *)
  Let J2 : R := x ^ 2 + y ^ 2.
  Lemma asum_line v : (v < n)%nat -> asum v = a v 0%nat 0%nat * J2 / I0 ^ 2.
  Proof.
    intros Hv. unfold asum. rewrite !sum_3.
    rewrite (slope_axis v 0 1), (slope_axis v 0 2), (slope_axis v 1 0), (slope_axis v 1 1), (slope_axis v 1 2), (slope_axis v 2 0), (slope_axis v 2 1), (slope_axis v 2 2) by lia.
    cbn [Nat.eqb Nat.ltb Nat.leb andb]. unfold u, I, J, J2. cbn [xyz]. field. lra.
  Qed.
  Lemma au_line v d : (v < n)%nat -> (d < 3)%nat -> au v d = a v 0%nat 0%nat * J d / I0.
  Proof.
    intros Hv Hd. unfold au. rewrite !sum_3.
    destruct d as [|[|[|d]]]; [| | |lia].
    - rewrite (slope_axis v 0 1), (slope_axis v 0 2) by lia. cbn [Nat.eqb Nat.ltb Nat.leb andb]. unfold u, I. field. lra.
    - rewrite (slope_axis v 1 0), (slope_axis v 1 1), (slope_axis v 1 2) by lia. cbn [Nat.eqb Nat.ltb Nat.leb andb]. unfold u, I. field. lra.
    - rewrite (slope_axis v 2 0), (slope_axis v 2 1), (slope_axis v 2 2) by lia. cbn [Nat.eqb Nat.ltb Nat.leb andb]. unfold J, z. cbn [xyz]. unfold Rdiv. ring.
  Qed.
  Lemma cv_line v : (v < n)%nat -> cv v = line_shift v * J2.
  Proof.
    intros Hv. rewrite cv_eq, asum_line by exact Hv. unfold line_shift. rewrite p32_lam by exact Hv.
    assert (P1 : w v <> 0) by (pose proof (Hw v Hv); lra). assert (P2 : sqrt (w v) <> 0) by (pose proof (sqrt_lt_R0 _ (Hw v Hv)); lra).
    field. repeat split; try assumption; lra.
  Qed.
  Lemma quartic_line : quartic_form tau x y z = - line_D * J2 ^ 2.
  Proof.
    rewrite quartic_cv. rewrite (sum_g n _ (fun v => 2 * K ^ 3 * J2 ^ 2 / I0 ^ 4 * (a v 0%nat 0%nat ^ 2 / w v ^ 2))).
    - rewrite Rsum_scal. unfold line_D. field. lra.
    - intros v Hv. rewrite w_cv2, asum_line by exact Hv. assert (P1 : w v <> 0) by (pose proof (Hw v Hv); lra). field. repeat split; try assumption; lra.
  Qed.
  Lemma tau_line d : (d < 3)%nat -> tau_form tau d x y z = - 4 * line_D * J2 * J d.
  Proof.
    intros Hd. rewrite tau_form_eq by exact Hd.
    rewrite (sum_g n _ (fun v => J2 * J d / I0 ^ 4 * (a v 0%nat 0%nat ^ 2 / w v ^ 2))).
    - rewrite Rsum_scal. unfold line_D. field. lra.
    - intros v Hv. rewrite asum_line, au_line by assumption. unfold I. assert (P1 : w v <> 0) by (pose proof (Hw v Hv); lra). field. repeat split; try assumption; lra.
  Qed.
  Lemma sextic_line : sextic_form n B w tau c zeta f3 x y z
    = 3 * line_D ^ 2 / (K / I0) * J2 ^ 3 - 2 * Sum n (fun v => w v * cor_form n B w c zeta v x y z ^ 2)
      + / 6 * Sum n (fun i => Sum n (fun j => Sum n (fun k => f3 i j k * line_shift i * line_shift j * line_shift k))) * J2 ^ 3.
  Proof.
    unfold sextic_form.
    assert (A1 : 3 / 16 * FormFacts.sum3 (fun d => tau_form tau d x y z ^ 2 / (K / I d)) = 3 * line_D ^ 2 / (K / I0) * J2 ^ 3).
    { rewrite FormFacts.sum3_eq, !tau_line by lia. unfold I, J, J2, z. cbn [xyz]. field. split; lra. }
    rewrite A1. rewrite Rmult_assoc, <- Rsum_scal_r. do 2 f_equal. apply sum_g. intros i Hi.
    rewrite <- Rsum_scal_r. apply sum_g. intros j Hj. rewrite <- Rsum_scal_r. apply sum_g. intros k Hk.
    fold (cv i) (cv j) (cv k). rewrite !cv_line by assumption. ring.
  Qed.
  End Shape.
  (** *** there is such a motion *)
  Lemma cramer T Y : det3 T <> 0 -> exists W, forall d, (d < 3)%nat -> Sum 3 (fun e => T d e * W e) = Y d.
  Proof.
    intros D. set (rp := fun c => fun i j : nat => if (j =? c)%nat then Y i else T i j).
    exists (fun c => det3 (rp c) / det3 T). intros d Hd. rewrite sum_3. unfold rp, det3 in *. cbn [Nat.eqb].
    destruct d as [|[|[|d]]]; [| | |lia]; field; exact D.
  Qed.
  Lemma det_near X : exists d, 0 < d /\ forall e, Rabs e < d -> det3 (fun i j => kron i j * I i + e ^ 2 * X i j) <> 0.
  Proof.
    pose proof (HI 0%nat ltac:(lia)) as P0. pose proof (HI 1%nat ltac:(lia)) as I1. pose proof (HI 2%nat ltac:(lia)) as I2.
    set (D1 := I 1%nat * I 2%nat * X 0%nat 0%nat + I 0%nat * I 2%nat * X 1%nat 1%nat + I 0%nat * I 1%nat * X 2%nat 2%nat).
    set (D2 := I 0%nat * (X 1%nat 1%nat * X 2%nat 2%nat - X 1%nat 2%nat * X 2%nat 1%nat)
      + I 1%nat * (X 0%nat 0%nat * X 2%nat 2%nat - X 0%nat 2%nat * X 2%nat 0%nat)
      + I 2%nat * (X 0%nat 0%nat * X 1%nat 1%nat - X 0%nat 1%nat * X 1%nat 0%nat)).
    set (D3 := det3 X). set (S := Rabs D1 + Rabs D2 + Rabs D3 + 1). set (P := I 0%nat * I 1%nat * I 2%nat).
    assert (PP : 0 < P) by (unfold P; repeat apply Rmult_lt_0_compat; assumption).
    pose proof (Rabs_pos D1) as A1. pose proof (Rabs_pos D2) as A2. pose proof (Rabs_pos D3) as A3.
    exists (Rmin 1 (P / S)). assert (PS : 0 < P / S) by (apply Rdiv_lt_0_compat; unfold S; lra).
    split; [apply Rmin_glb_lt; lra|]. intros e He Z.
    assert (H1 : Rabs e < 1) by (eapply Rlt_le_trans; [exact He|apply Rmin_l]).
    assert (H2 : Rabs e * S < P).
    { apply (Rmult_lt_reg_r (/ S)); [apply Rinv_0_lt_compat; unfold S; lra|]. rewrite Rmult_assoc, Rinv_r, Rmult_1_r by (unfold S; lra).
      eapply Rlt_le_trans; [exact He|apply Rmin_r]. }
    assert (E : det3 (fun i j => kron i j * I i + e ^ 2 * X i j) = P + (e ^ 2 * D1 + e ^ 4 * D2 + e ^ 6 * D3)).
    { unfold D3, det3, D1, D2, P, kron. cbn [Nat.eqb]. ring. }
    rewrite E in Z. pose proof (Rabs_pos e) as E0.
    assert (T : Rabs (e ^ 2 * D1 + e ^ 4 * D2 + e ^ 6 * D3) <= Rabs e * (Rabs D1 + Rabs D2 + Rabs D3)).
    { eapply Rle_trans; [apply Rabs_triang|]. eapply Rle_trans; [apply Rplus_le_compat_r, Rabs_triang|].
      rewrite !Rabs_mult, <- !RPow_abs. set (t := Rabs e) in *.
      assert (T2 : t ^ 2 <= t) by nra. assert (T4 : t ^ 4 <= t) by (replace (t ^ 4) with (t ^ 2 * t ^ 2) by ring; nra).
      assert (T6 : t ^ 6 <= t). { replace (t ^ 6) with (t ^ 4 * t ^ 2) by ring. assert (0 <= t ^ 4) by (replace (t ^ 4) with ((t ^ 2) ^ 2) by ring; apply pow2_ge_0). nra. }
      pose proof (Rmult_le_compat_r _ _ _ A1 T2). pose proof (Rmult_le_compat_r _ _ _ A2 T4). pose proof (Rmult_le_compat_r _ _ _ A3 T6). lra. }
    replace (e ^ 2 * D1 + e ^ 4 * D2 + e ^ 6 * D3) with (- P) in T by lra. rewrite Rabs_Ropp, Rabs_pos_eq in T by lra.
    unfold S in H2. nra.
  Qed.

  Lemma motion_exists jx jy q p : let J := xyz jx jy 0 in exists d, 0 < d /\ forall e, Rabs e < d ->
    exists v, line_motion N n m geom lx w lam (e * jx) (e * jy) (fun k => e ^ 2 * q k) (fun k => e ^ 3 * p k) v.
  Proof.
    intros J. destruct (det_near (fun x y => / 2 * Xq q x y)) as (d & Pd & D). exists d. split; [exact Pd|]. intros e He.
    destruct (cramer _ (fun x => if (x <? 2)%nat then e * J x - e ^ 5 * piqp q p x else 0) (D e He)) as (W & HW). clear D.
    set (P := fun k => lam * sqrt (w k) * (e ^ 3 * p k)).
    set (v := fun i x => Sum n (fun k => P k * lx (3 * i + x)%nat k) + Sum 3 (fun d => W d * turnv d (3 * i + x))).
    pose proof (RotorMech.comb N n m geom lx P W : forall g, ip (flat v) g = _) as Cv.
    assert (V1 : forall x, (x < 3)%nat -> Sum N (fun i => m i * v i x) = 0).
    { intros x Hx. transitivity (ip (flat v) (fun b => kron (b mod 3) x)).
      - rewrite ip_shift by exact Hx. apply sum_g. intros i _. now rewrite flat_block.
      - rewrite Cv. rewrite (sum_g n _ (fun _ => 0)).
        2: { intros k Hk. rewrite (mode_shift k x Hk Hx). ring. }
        rewrite (sum_g 3 _ (fun _ => 0)).
        2: { intros b Hb. rewrite ip_com, (shift_turn x b Hx Hb). ring. }
        rewrite !Rsum_0 by reflexivity. ring. }
    assert (V2 : forall k, (k < n)%nat -> ip (flat v) (fun b => lx b k) = P k).
    { intros k Hk. rewrite Cv. rewrite (sum_g 3 _ (fun _ => 0)).
      2: { intros b Hb. rewrite ip_com, (mode_turn k b Hk Hb). ring. }
      rewrite (Rsum_0 _ (seq 0 3)) by reflexivity. rewrite (sum_g n _ (fun j => delta k j * P j)).
      - rewrite sum_delta by exact Hk. ring.
      - intros j Hj. destruct HF as (_ & _ & O & _). unfold ip. rewrite (O j k Hj Hk). unfold delta. rewrite (Nat.eqb_sym k j).
        destruct (j =? k)%nat; ring. }
    assert (V3 : forall x, (x < 2)%nat -> still v x = I x * W x).
    { intros x Hx. unfold RotorMech.still. rewrite Cv. rewrite (sum_g n _ (fun _ => 0)).
      2: { intros k Hk. rewrite (mode_turn k x Hk ltac:(lia)). ring. }
      rewrite (Rsum_0 _ (seq 0 n)) by reflexivity. rewrite (sum_g 3 _ (fun b => delta x b * (W b * I b))).
      - rewrite sum_delta by lia. ring.
      - intros b Hb. destruct (Nat.eq_dec b 2) as [->|Nb].
        + rewrite ip_com, turn_axis. unfold delta. destruct (Nat.eqb_spec x 2); [lia|ring].
        + rewrite (turn_turn b x) by lia. unfold delta, kron. rewrite (Nat.eqb_sym x b). destruct (b =? x)%nat; ring. }
    assert (V4 : forall k, (k < n)%nat -> Sum N (fun i => m i * Sum 3 (fun x => lx (3 * i + x)%nat k * v i x)) = lam * sqrt (w k) * (e ^ 3 * p k))
      by (intros k Hk; rewrite <- mode_momentum; now apply V2).
    assert (V5 : forall x, (x < 2)%nat -> turning (fun k => e ^ 2 * q k) v x = e * J x).
    { intros x Hx.
      pose proof (momentum (fun k => e ^ 2 * q k) (fun k => e ^ 3 * p k) v V1 V4 x ltac:(lia)) as E. cbv beta in E.
      rewrite piqp_scal, V3 in E by exact Hx.
      rewrite (sum_g 3 _ (fun y => e ^ 2 * (Xq q x y * W y))) in E.
      2: { intros y Hy. rewrite Xq_scal. destruct (Nat.eq_dec y 2) as [->|Ny].
        - rewrite (Xq_sym q x 2), Xq_axis by lia. unfold Rdiv. ring.
        - rewrite V3 by lia. pose proof (HI y Hy). field. lra. }
      specialize (HW x ltac:(lia)). cbv beta in HW. destruct (Nat.ltb_spec x 2) as [_|]; [|lia].
      rewrite (sum_g 3 _ (fun y => delta x y * (I x * W y) + / 2 * (e ^ 2 * (Xq q x y * W y)))) in HW
        by (intros y Hy; unfold delta, kron; ring).
      rewrite Rsum_plus, sum_delta, Rsum_scal in HW by lia. replace (e ^ 5) with (e ^ 2 * e ^ 3) in HW by ring. lra. }
    exists v. split; [exact V1|]. split; [exact (V5 0%nat ltac:(lia))|]. split; [exact (V5 1%nat ltac:(lia))|exact V4].
  Qed.
End Line.

(** the sextic constant *)
Definition line_H (N n : nat) (m : nat -> R) (I0 : R) (lx : nat -> nat -> R) (a : nat -> nat -> nat -> R) (w : nat -> R) (f3 : nat -> nat -> nat -> R) (K lam : R) : R :=
  let zeta := zeta_of N (fun b k => sqrt (m (b / 3)%nat) * lx b k) in
  let c := line_shift I0 a w lam in
  3 * line_D n I0 a w K ^ 2 / (K / I0)
  - 2 * Sum n (fun v => w v * cor_form n (fun _ => K / I0) w (shift_cl lam w (I I0) a) zeta v 1 0 0 ^ 2)
  + / 6 * Sum n (fun i => Sum n (fun j => Sum n (fun k => f3 i j k * c i * c j * c k))).

Lemma line_lemma (N n : nat) (m : nat -> R) (geom : nat -> R * R * R) (I0 : R) (lx : nat -> nat -> R)
  (a : nat -> nat -> nat -> R) (w : nat -> R) (f3 : nat -> nat -> nat -> R) (K lam : R) :
  (3 * N = n + 5)%nat -> (forall q, (q < N)%nat -> 0 < m q) -> 0 < I0 ->
  line_modes N n m geom I0 lx -> inertia_slope N n m geom lx a -> (forall k, (k < n)%nat -> 0 < w k) ->
  0 < lam -> 2 * K * lam ^ 2 = 1 ->
  let zeta := zeta_of N (fun b k => sqrt (m (b / 3)%nat) * lx b k) in
  let cor v x y := cor_form n (fun _ => K / I0) w (shift_cl lam w (I I0) a) zeta v x y 0 in
  (forall x y, Sum n (fun v => w v * cor v x y ^ 2) = Sum n (fun v => w v * cor v 1 0 ^ 2) * (x ^ 2 + y ^ 2) ^ 3) ->
  linear_energy N n m geom lx w f3 K lam (K / I0) (line_D n I0 a w K) (line_H N n m I0 lx a w f3 K lam).
Proof.
  intros Hn Hm HI HF Ha Hw Hl HK zeta cor Iso. exists (line_shift I0 a w lam), (fun x y v => 2 * cor v x y). intros V HV x y q p J2 moving E.
  set (J := xyz x y 0).
  destruct (energy_expand N n m geom I0 lx Hn Hm HI HF a Ha w lam K f3 V Hw Hl HK HV x y q p) as (C & d & P1 & P2 & P3 & H).
  fold J in H.
  set (cc := line_shift I0 a w lam). set (D := line_D n I0 a w K).
  assert (R2 : Sum 3 (fun d => K / I I0 d * J d ^ 2) = K / I0 * J2).
  { rewrite sum_3. unfold J, J2, I. cbn [xyz]. unfold Rdiv. ring. }
  assert (F4 : E4 n I0 a w lam K J q = - D * J2 ^ 2 + / 2 * Sum n (fun k => w k * (q k - cc k * J2) ^ 2)).
  { transitivity (quartic_form (tau_cl n K w (I I0) a) x y 0 + / 2 * Sum n (fun v => w v * (q v - c_form (shift_cl lam w (I I0) a) v x y 0) ^ 2)).
    - exact (E4_forms N n m I0 Hn Hm HI a w lam K Hw Hl HK x y q).
    - f_equal; [exact (quartic_line N n m geom I0 lx Hn Hm HI HF a Ha w lam K Hw Hl HK x y)|]. f_equal. apply sum_g. intros k Hk. do 2 f_equal. f_equal.
      exact (cv_line N n m geom I0 lx Hn Hm HI HF a Ha w lam K Hw Hl x y k Hk). }
  split; [|split].
  - exact (motion_exists N n m geom I0 lx Hn Hm HI HF a Ha w lam Hw x y q p).
  - exists (C + Rabs (E6 N n m I0 lx a w lam K f3 J q p)), d. split; [exact P1|]. intros e v He Mo.
    specialize (H e v He Mo). rewrite R2, F4 in H.
    set (T := - D * J2 ^ 2 + _) in *. set (F := E6 _ _ _ _ _ _ _ _ _ _ _ _ _) in *.
    fold (E e v) in H. replace (E e v - (e ^ 2 * (K / I0 * J2) + e ^ 4 * T)) with (E e v - (e ^ 2 * (K / I0 * J2) + e ^ 4 * T + e ^ 6 * F) + e ^ 6 * F) by ring.
    eapply Rle_trans; [apply Rabs_triang|]. rewrite Rabs_mult.
    assert (E2 : 0 <= e ^ 2 <= 1).
    { rewrite <- (pow2_abs e). pose proof (Rabs_pos e). nra. }
    assert (Z6 : 0 <= e ^ 6) by (replace (e ^ 6) with ((e ^ 3) ^ 2) by ring; apply pow2_ge_0).
    rewrite (Rabs_pos_eq (e ^ 6) Z6). replace (e ^ 8) with (e ^ 6 * e ^ 2) in H by ring.
    assert (C * (e ^ 6 * e ^ 2) <= C * e ^ 6) by (apply Rmult_le_compat_l; nra). lra.
  - intros Hq. exists C, d. split; [exact P1|]. intros e v He Mo. specialize (H e v He Mo).
    rewrite R2, F4 in H.
    rewrite (sum_g n (fun k => w k * (q k - cc k * J2) ^ 2) (fun _ => 0)) in H
      by (intros k Hk; rewrite Hq by exact Hk; unfold cc; ring).
    rewrite (Rsum_0 (fun _ => 0) (seq 0 n)), Rmult_0_r, Rplus_0_r in H by reflexivity.
    assert (F6 : E6 N n m I0 lx a w lam K f3 J q p = line_H N n m I0 lx a w f3 K lam * J2 ^ 3 + / 2 * Sum n (fun v => w v * (p v - 2 * cor v x y) ^ 2)).
    { transitivity (sextic_form n (fun d => K / I I0 d) w (tau_cl n K w (I I0) a) (shift_cl lam w (I I0) a) zeta f3 x y 0
        + / 2 * Sum n (fun v => w v * (p v - 2 * cor v x y) ^ 2)).
      - apply (E6_forms N n m geom I0 lx Hn Hm HI HF a Ha w lam K f3 Hw Hl HK x y q p). intros k Hk. rewrite Hq by exact Hk. symmetry. exact (cv_line N n m geom I0 lx Hn Hm HI HF a Ha w lam K Hw Hl x y k Hk).
      - f_equal. etransitivity; [exact (sextic_line N n m geom I0 lx Hn Hm HI HF a Ha w lam K f3 Hw Hl HK x y)|]. unfold line_H. fold zeta. fold J2.
        pose proof (Iso x y) as Q. unfold cor in Q. fold J2 in Q.
        change (fun d : nat => K / I I0 d) with (fun _ : nat => K / I0). rewrite Q. ring. }
    rewrite F6 in H. fold (E e v) in H.
    replace (e ^ 4 * (- D * J2 ^ 2)) with (- (e ^ 4 * (D * J2 ^ 2))) in H by ring. exact H.
Qed.
