(** Linear molecules: the distortion constants of a run. *)
From Coq Require Import Reals Lra List ZArith Arith Lia Bool Permutation Sorted FunctionalExtensionality.
From Verif Require Import Num Loops ListFacts Index LoadFacts Modes ModesFacts ResFacts
  StatesFacts IndexFacts Anharm AnharmFacts EnergyFacts VibRot Distort Transform TransformFacts
  RotFacts NormalFacts HarmFacts ModeFacts ZeroFacts DistortFacts SexticFacts FormFacts EckartFacts InertiaFacts SymAnharm
  Polyads Report OutputFacts VibRotFacts SymRotFacts Geom IrrepFacts Finish FinishFacts
  PerturbFacts PerturbLevels SymE0 SymExact VibPerturb SymVib SymPerturb SymLevels SymFacts RunFacts RunSecond RunRot TopRun AlignExact
  RotFiles SumRule RotorMech SexticFiles MechFiles Threefold ThreeForm ThreeModes ThreeRun ThreeRot ThreeConst LinearModes LinearRun LinearConst LinearMech.
Import ListNotations.
Open Scope nat_scope.
Local Open Scope R_scope.

(** ** the constants as computed *)
Lemma linear_de n (B J w : nat -> R) (wl : nat -> nat -> R) : exists q, quartic_new Linear n B J w wl = Some q /\ de q = - tau_spec n w J wl 0 0 0 0 / 4.
Proof.
  eexists; split; [reflexivity|]. cbn [de quartic_linear is_diatomic].
  unfold upd2; cbn [Nat.eqb andb nopp ndiv Rnum at3 fst snd]. rewrite nz_R, taup_R by lia. unfold taup_spec; cbn [Nat.eqb]; lra.
Qed.

Section Code.
  Variables (n nfreq : nat) (B J w : nat -> R) (wl : nat -> nat -> R) (zm f3 : nat -> nat -> nat -> R).

  Definition c_row2 (c : nat -> nat -> R) (i : nat) : nat -> nat -> R :=
      let cnst := npow32 (nmul (nmul SQLAM SQLAM) (w i)) in
      fold_left (fun c x => fold_left (fun c y =>
        let z := (ioff (x + 1) + y)%nat in
        let div := nmul (nmul (nmul (nz 2) (J x)) (J y)) cnst in
        upd2 c i z (ndiv (wl i z) div)) (range 0 (x + 1)%nat) c) (range 0 2) c.
  Lemma c_row2_other c i i' z : i' <> i -> c_row2 c i i' z = c i' z.
  Proof. intros Ne. unfold c_row2, upd2. cbn. destruct (Nat.eqb_spec i' i); [contradiction|]. reflexivity. Qed.
  Lemma c_mat2_R i : (i < n)%nat -> c_mat 2 n w J wl i 0%nat = c_spec J w wl i 0 0.
  Proof.
    intros Hi. unfold c_mat.
    change (fold_left _ (range 0 n) (fun _ _ : nat => nz 0))
      with (fold_left c_row2 (range 0 n) (fun _ _ : nat => nz 0 : R)).
    rewrite range_0. replace n with (i + S (n - i - 1))%nat by lia.
    rewrite seq_app, fold_left_app. cbn [seq fold_left].
    set (c := fold_left c_row2 (seq 0 i) _).
    assert (G : forall l k z, (forall j, In j l -> j <> i) -> fold_left c_row2 l k i z = k i z).
    { induction l as [|j l IH]; intros k z E; [reflexivity|]. cbn [fold_left].
      rewrite IH by (intros; apply E; cbn; auto). apply c_row2_other. intros ->. apply (E j); cbn; auto. }
    rewrite G by (intros j Hj; apply in_seq in Hj; lia).
    clearbody c. clear G. cbn [Nat.add]. unfold c_row2, c_spec, upd2, SQLAM, p32. cbn [acol].
    cbn [range seq Nat.sub Nat.add fold_left ioff Nat.div Nat.divmod fst snd Nat.mul Nat.pred].
    rewrite !Nat.eqb_refl; cbn [Nat.eqb andb].
    cbn [ndiv nmul npow32 nlit Rnum]; rewrite nz_R; cbn [pow]; rewrite ?Rmult_1_r. f_equal; ring.
  Qed.

  Lemma linear_he : nfreq <> 6%nat -> exists s, sextic_new Linear n nfreq B J w wl zm f3 = Some s /\
    he s = 3 / 16 * (tau_spec n w J wl 0 0 0 0 ^ 2 / B 0%nat + tau_spec n w J wl 1 0 0 0 ^ 2 / B 1%nat)
      - 2 * Sum n (fun v => w v * cc_spec n B J w wl zm v 0 ^ 2)
      + / 6 * Sum n (fun u => Sum n (fun v => Sum n (fun k => f3 u v k * c_spec J w wl u 0 0 * c_spec J w wl v 0 0 * c_spec J w wl k 0 0))).
  Proof.
    intros Hf. set (c := c_mat 2 n w J wl). set (tau := make_tau n w J wl). set (cc := cc_tensor n 2 w c zm B).
    exists (sextic_linear (scc 2 tau B n nfreq w cc f3 c Linear 0 0 0)). split; [reflexivity|]. cbn [he sextic_linear].
    assert (scc 2 tau B n nfreq w cc f3 c Linear 0 0 0 = scc_diag 2 tau B n nfreq w cc f3 c Linear 0) as ->.
    { unfold scc. cbv zeta. cbn [is_linear]. generalize (scc_diag 2 tau B n nfreq w cc f3 c Linear) as dg. intros dg. reflexivity. }
    unfold scc_diag. cbn [is_linear]. cbv zeta. change (wdiag1 (0 + 1)) with 0%nat.
    assert (SR : forall i, srot B nfreq i = B i).
    { intros i. unfold srot. destruct (Nat.eqb_spec nfreq 6); [contradiction|reflexivity]. }
    assert (CR : forall v, (v < n)%nat -> cc v 0%nat 0%nat 0%nat = cc_spec n B J w wl zm v 0).
    { intros v Hv. unfold cc. rewrite cc_diag_lemma by (auto || lia). unfold cc_diag, cc_spec. cbn [Nat.add Nat.sub].
      change (wdiag1 1) with 0%nat. rewrite nsum_R, range_0. cbn [ndiv nsqrt Rnum]. f_equal. apply sum_g. intros u Hu.
      unfold c. rewrite c_mat2_R by exact Hu. unfold cc_val1, nsq.
      cbn [ndiv nmul nadd npow32 Rnum]. rewrite !nz_R. cbn [pow]. rewrite !Rmult_1_r. reflexivity. }
    rewrite !nsum_R, !range_0, !nz_R. cbn [nadd nsub nmul ndiv Rnum].
    rewrite (fold3_R (fun i j k => f3 i j k * c i 0%nat * c j 0%nat * c k 0%nat)).
    assert (E1 : Rsum (seq 0 2) (fun y => nsq (tau y 0%nat 0%nat 0%nat) / srot B nfreq y)
      = tau_spec n w J wl 0 0 0 0 ^ 2 / B 0%nat + tau_spec n w J wl 1 0 0 0 ^ 2 / B 1%nat).
    { cbn [seq]. rewrite !Rsum_cons. cbn [Rsum map fold_right]. rewrite !SR. unfold tau. rewrite !make_tau_R by lia.
      unfold nsq. cbn [nmul Rnum pow]. rewrite !Rmult_1_r. unfold Rsum; cbn. ring. }
    assert (E2 : Sum n (fun i => w i * nsq (cc i 0%nat 0%nat 0%nat)) = Sum n (fun v => w v * cc_spec n B J w wl zm v 0 ^ 2)).
    { apply sum_g. intros v Hv. rewrite CR by exact Hv. unfold nsq. cbn [nmul Rnum pow]. now rewrite Rmult_1_r. }
    assert (E3 : Sum n (fun i => Sum n (fun j => Sum n (fun k => f3 i j k * c i 0%nat * c j 0%nat * c k 0%nat)))
      = Sum n (fun u => Sum n (fun v => Sum n (fun k => f3 u v k * c_spec J w wl u 0 0 * c_spec J w wl v 0 0 * c_spec J w wl k 0 0)))).
    { apply sum_g. intros u Hu. apply sum_g. intros v Hv. apply sum_g. intros k Hk. unfold c. rewrite !c_mat2_R by assumption. reflexivity. }
    rewrite E1, E2, E3. lra.
  Qed.
End Code.

(** ** the Coriolis terms do not depend on the direction of the angular momentum *)
Lemma linear_shape N (m : nat -> R) ns ts V :
  behaves (3 * N) (op stay (third (- (sqrt 3 / 2)))) (op stay flip) (sqrt 3 / 2) ns ts V ->
  (forall i, In i ns -> forall q, (q < N)%nat -> V (3 * q)%nat i = 0 /\ V (3 * q + 1)%nat i = 0) /\
  (forall i j, In (i, j) ts -> forall q, (q < N)%nat ->
     V (3 * q + 1)%nat i = 0 /\ V (3 * q + 2)%nat i = 0 /\
     V (3 * q)%nat j = 0 /\ V (3 * q + 2)%nat j = 0 /\ V (3 * q + 1)%nat j = - V (3 * q)%nat i).
Proof.
  intros BV. split.
  - intros i Hi q Hq. apply (LinearModes.still_axis N m (fun a => V a i) q Hq). intros b Hb.
    now apply (bh_single _ _ _ _ _ _ _ BV i).
  - intros i j Hd q Hq.
    destruct (bend_plane N m ns ts V BV i j q Hd Hq) as [Zi Zj].
    destruct (bh_pair _ _ _ _ _ _ _ BV i j Hd (3 * q)%nat ltac:(lia)) as (_ & _ & _ & M0).
    destruct (bh_pair _ _ _ _ _ _ _ BV i j Hd (3 * q + 1)%nat ltac:(lia)) as (P1 & _ & M1 & _).
    replace (3 * q)%nat with (3 * q + 0)%nat in M0 at 1 by lia.
    rewrite (mirror_at N m _ stay stay (linear_c3v N m)) in M0, M1 by (assumption || lia).
    change (3 * q + 1)%nat with (3 * stay q + 1)%nat in P1 at 1.
    rewrite (turn_to N m _ stay stay (linear_c3v N m)), sum_3 in P1 by (assumption || lia).
    unfold stay in M0, M1. rewrite Nat.add_0_r in M0, P1. cbn [flip third] in M0, M1, P1. pose proof h3_pos as H0. set (k := sqrt 3 / 2) in *.
    assert (Y : V (3 * q + 1)%nat i = 0) by lra. assert (X : V (3 * q)%nat j = 0) by lra.
    repeat split; try assumption. rewrite Y in P1. apply Rmult_eq_reg_l with k; lra.
Qed.

Lemma linear_zetas N (m : nat -> R) ns ts V :
  behaves (3 * N) (op stay (third (- (sqrt 3 / 2)))) (op stay flip) (sqrt 3 / 2) ns ts V ->
  (forall k k' x, In k ns -> In k' ns -> (x < 2)%nat -> zeta_of N V k k' x = 0) /\
  (forall k a b, In k ns -> In (a, b) ts -> zeta_of N V k a 0 = 0 /\ zeta_of N V k b 1 = 0 /\ zeta_of N V k b 0 = zeta_of N V k a 1).
Proof.
  intros BV. destruct (linear_shape N m ns ts V BV) as [Sn Sd]. split.
  - intros k k' x Hk Hk' Hx. unfold zeta_of. apply Rsum_0. intros q Hq%in_seq.
    destruct (Sn k Hk q ltac:(lia)) as [A0 A1], (Sn k' Hk' q ltac:(lia)) as [B0 B1].
    destruct x as [|[|x]]; try lia; rewrite ?A0, ?A1, ?B0, ?B1; ring.
  - intros k a b Hk Hab. unfold zeta_of.
    split; [|split]; [apply Rsum_0; intros q Hq%in_seq|apply Rsum_0; intros q Hq%in_seq|apply sum_g; intros q Hq];
      destruct (Sn k Hk q ltac:(lia)) as [A0 A1], (Sd a b Hab q ltac:(lia)) as (B1 & B2 & B3 & B4 & B5);
      rewrite ?A0, ?A1, ?B1, ?B2, ?B3, ?B4, ?B5; ring.
Qed.

Lemma cor_isotropic n ns ts (w : nat -> R) (cl zeta : nat -> nat -> nat -> R) b :
  Permutation (ns ++ flat_map (fun '(a, b) => [a; b]) ts) (seq 0 n) ->
  (forall i j, In (i, j) ts -> w i = w j) ->
  (forall k, In k ns -> cl k 0%nat 1%nat = 0 /\ cl k 1%nat 0%nat = 0 /\ cl k 1%nat 1%nat = cl k 0%nat 0%nat) ->
  (forall i j y z, In (i, j) ts -> (y < 3)%nat -> (z < 3)%nat -> cl i y z = 0 /\ cl j y z = 0) ->
  (forall k k' x, In k ns -> In k' ns -> (x < 2)%nat -> zeta k k' x = 0) ->
  (forall k i j, In k ns -> In (i, j) ts -> zeta k i 0%nat = 0 /\ zeta k j 1%nat = 0 /\ zeta k j 0%nat = zeta k i 1%nat) ->
  let cor v x y := cor_form n (fun _ => b) w cl zeta v x y 0 in
  forall x y, Sum n (fun v => w v * cor v x y ^ 2) = Sum n (fun v => w v * cor v 1 0 ^ 2) * (x ^ 2 + y ^ 2) ^ 3.
Proof.
  intros Hp Hw Hn Hd Zn Zd cor x y.
  assert (CE : forall v x y, cor v x y = Rsum ns (fun u => p32 (w u) * (1 / w u ^ 2 + 2 / w v ^ 2) * (cl u 0%nat 0%nat * (x ^ 2 + y ^ 2))
     * (b * (zeta u v 0%nat * x + zeta u v 1%nat * y))) / sqrt (w v)).
  { intros v x' y'. unfold cor, cor_form. rewrite (S_split n ns ts Hp). f_equal.
    assert (C0 : forall i j, In (i, j) ts -> c_form cl i x' y' 0 = 0 /\ c_form cl j x' y' 0 = 0).
    { intros i j Hij. split; unfold c_form, FormFacts.sum3; rewrite !sum_3;
        repeat match goal with |- context [cl i ?p ?q] => rewrite (proj1 (Hd i j p q Hij ltac:(lia) ltac:(lia))) end;
        repeat match goal with |- context [cl j ?p ?q] => rewrite (proj2 (Hd i j p q Hij ltac:(lia) ltac:(lia))) end; ring. }
    match goal with |- _ + ?a + ?c = _ => assert (E1 : a = 0); [|assert (E2 : c = 0); [|rewrite E1, E2, !Rplus_0_r]] end.
    { apply Rsum_0. intros [i j] Hij. cbn [fst]. rewrite (proj1 (C0 i j Hij)). ring. }
    { apply Rsum_0. intros [i j] Hij. cbn [snd]. rewrite (proj2 (C0 i j Hij)). ring. }
    apply Rsum_ext. intros k Hk. unfold c_form, FormFacts.sum3. rewrite !sum_3. cbn [xyz]. destruct (Hn k Hk) as (-> & -> & ->). ring. }
  set (g := fun v => b * Rsum ns (fun u => p32 (w u) * (1 / w u ^ 2 + 2 / w v ^ 2) * cl u 0%nat 0%nat * zeta u v 1%nat) / sqrt (w v)).
  assert (Cn : forall v x y, In v ns -> cor v x y = 0).
  { intros v x' y' Hv. rewrite CE. rewrite (Rsum_ext _ (fun _ => 0) ns); [rewrite Rsum_0 by reflexivity; unfold Rdiv; ring|].
    intros u Hu. rewrite (Zn u v 0%nat), (Zn u v 1%nat) by (assumption || lia). ring. }
  assert (Cd : forall i j x y, In (i, j) ts -> cor i x y = (x ^ 2 + y ^ 2) * y * g i /\ cor j x y = (x ^ 2 + y ^ 2) * x * g i).
  { intros i j x' y' Hij. rewrite !CE. unfold g. rewrite <- (Hw i j Hij). unfold Rdiv. split.
    - rewrite <- !Rmult_assoc. f_equal. rewrite <- Rsum_scal. apply Rsum_ext. intros u Hu. destruct (Zd u i j Hu Hij) as (-> & _ & _). ring.
    - rewrite <- !Rmult_assoc. f_equal. rewrite <- Rsum_scal. apply Rsum_ext. intros u Hu. destruct (Zd u i j Hu Hij) as (_ & -> & ->). ring. }
  rewrite !(S_split n ns ts Hp).
  rewrite (Rsum_ext (fun v => w v * cor v x y ^ 2) (fun _ => 0) ns), (Rsum_ext (fun v => w v * cor v 1 0 ^ 2) (fun _ => 0) ns)
    by (intros v Hv; rewrite Cn by exact Hv; ring).
  rewrite !Rsum_0 by reflexivity. rewrite !Rplus_0_l, <- !Rsum_plus, Rmult_comm, <- Rsum_scal.
  apply Rsum_ext. intros [i j] Hij. cbn [fst snd].
  destruct (Cd i j x y Hij) as [-> ->], (Cd i j 1 0 Hij) as [-> ->]. rewrite <- (Hw i j Hij). ring.
Qed.

(** ** the modes of the run are free of linear and angular momentum *)
Lemma modes_line N n axes fc2 (mass : nat -> R) geom I0 lx freq :
  let hess := fun a b => FACT2 * con2 (3 * N) (every_atom axes) fc2 a b in
  (n <= 3 * N)%nat -> (forall q, (q < N)%nat -> 0 < mass q) -> orth 3 axes ->
  translation_free N fc2 -> rotation_free N fc2 (input_position axes geom) ->
  (forall x, (x < 3)%nat -> Sum N (fun q => mass q * comp (geom q) x) = 0) ->
  on_axis N geom -> inertia N mass geom 0 0 = I0 ->
  (forall i j, (i < 3 * N)%nat -> (j < 3 * N)%nat ->
     Sum (3 * N) (fun a => mass (a / 3)%nat * lx a i * lx a j) = (if Nat.eqb i j then 1 else 0)) ->
  (forall i j, (i < 3 * N)%nat -> (j < 3 * N)%nat -> i <> j -> con2 (3 * N) lx hess i j = 0) ->
  (forall i, (i < 3 * N)%nat -> nth_error freq i = Some (to_wavenumber (con2 (3 * N) lx hess i i))) ->
  (forall i, (i < n)%nat -> 0 < nth i freq 0) ->
  line_modes N n mass geom I0 lx.
Proof.
  intros hess Hn Hm Ho Ft Fr C Ax In_ M1 M2 M3 Pw.
  assert (Nz : forall i, (i < n)%nat -> con2 (3 * N) lx hess i i <> 0).
  { intros i Hi Z. specialize (Pw i Hi). rewrite (nth_error_nth freq i 0 (M3 i ltac:(lia))) in Pw.
    rewrite (proj2 (wavenumber_0 _) Z) in Pw. lra. }
  assert (Ov : forall i e, (i < n)%nat -> null (3 * N) fc2 (EckartFacts.moved axes e) ->
    Sum N (fun q => mass q * Sum 3 (fun x => e q x * lx (3 * q + x)%nat i)) = 0).
  { intros i e Hi He. rewrite <- (mode_overlap N mass lx hess (fun b => e (b / 3)%nat (b mod 3)%nat) i Hm M1 M2 (Nz i Hi)
      (null_frame N axes fc2 FACT2 e He) ltac:(lia)).
    rewrite sum_blocks. apply sum_g. intros q _. rewrite <- Rsum_scal. apply sum_g. intros x Hx. rewrite div_block, mod_block by exact Hx. ring. }
  split; [exact C|]. split; [split; [exact Ax|exact In_]|]. split; [intros; apply M1; lia|]. split.
  - intros k x Hk Hx. rewrite <- (Ov k (fun _ y => kron y x) Hk).
    + apply sum_g. intros q _. f_equal. rewrite sum_3. unfold kron. destruct x as [|[|[|x]]]; [| | |lia]; cbn [Nat.eqb]; ring.
    + exact (shift_null N axes fc2 mass Hm (fun y => kron y x) Ft).
  - intros k x y Hk Hx Hy.
    set (G := fun c b : nat => kron c y * kron b x - kron c x * kron b y).
    rewrite <- (Ov k (fun q c => Sum 3 (fun b => G c b * comp (geom q) b)) Hk).
    + apply sum_g. intros q _. f_equal. rewrite !sum_3. unfold G, kron.
      destruct x as [|[|[|x]]]; [| | |lia]; (destruct y as [|[|[|y]]]; [| | |lia]); cbn [Nat.eqb]; ring.
    + apply turn_null; try assumption. intros j l. unfold G. ring.
Qed.

(** ** the whole run *)
Section RunDistort.
  Context {I : Type}.
  Variables (eig2 : R -> R -> R -> R * R * (R * R))
    (eig : (nat -> nat -> R) -> list R * (nat -> nat -> R))
    (label : (nat -> R * R * R) -> (nat -> nat -> R) -> nat -> R -> option I) (A : I).

  Lemma run_linear_distort m axes iatom order buddy fc2 f3x f4x freq l0 K :
    let N := m_natom m in
    let n := m_nvib m in
    let B := m_rotcon m in
    let J := m_primat m in
    let w := fun i => nth i freq 0 in
    let lam := 1722212503791076 / 10000000000000000 in
    let g2 := con2 (3 * N) (every_atom axes) fc2 in
    let g3 := con3 (3 * N) (every_atom axes) f3x in
    let g4 := con4 (3 * N) (every_atom axes) f4x in
    m_rotor m = Linear ->
    (2 < N)%nat -> (3 * N = n + 5)%nat ->
    (forall q, (q < N)%nat -> 0 < m_w m q) ->
    on_axis N (m_geom m) -> B 0%nat = B 1%nat ->
    (iatom < N)%nat ->
    sym2 (3 * N) fc2 -> tsym3 (3 * N) f3x -> tsym4 (3 * N) f4x ->
    axially_symmetric N g2 g3 g4 ->
    orth 3 axes -> translation_free N fc2 -> rotation_free N fc2 (input_position axes (m_geom m)) ->
    solves (3 * N) eig (secular N axes fc2 (m_w m)) ->
    harmonic N axes fc2 (m_w m) eig = Some (freq, l0) ->
    linear_modes N n iatom w l0 ->
    (forall i j k, (i < n)%nat -> (j < n)%nat -> (k < n)%nat -> w i + w j <> w k) ->
    (forall x, (x < 3)%nat -> Sum N (fun q => m_w m q * comp (m_geom m q) x) = 0) ->
    inertia N (m_w m) (m_geom m) 0 0 = J 0%nat ->
    2 * K * lam ^ 2 = 1 -> 0 < J 0%nat -> B 0%nat = K / J 0%nat ->
    exists fuel0 lx D H,
      let hess := fun a b => FACT2 * g2 a b in
      let F3 := cubic_spec (3 * N) g3 lx w in
      (forall i j, (i < 3 * N)%nat -> (j < 3 * N)%nat ->
         Sum (3 * N) (fun a => m_w m (a / 3)%nat * lx a i * lx a j) = (if Nat.eqb i j then 1 else 0)) /\
      (forall i j, (i < 3 * N)%nat -> (j < 3 * N)%nat -> i <> j -> con2 (3 * N) lx hess i j = 0) /\
      (forall i, (i < 3 * N)%nat -> nth_error freq i = Some (to_wavenumber (con2 (3 * N) lx hess i i))) /\
      StronglySorted Rge freq /\
      linear_energy N n (m_w m) (m_geom m) lx w F3 K lam (B 0%nat) D H /\
      forall fuel, (fuel0 <= fuel)%nat ->
      exists o, run eig2 eig label A fuel buddy false m axes iatom order (Quartic fc2 f3x f4x) = Some (FullResult o) /\
      let kappa := 3833384078 / 100000 / (2 * K) ^ 3 in
      de (out_quartic o) = kappa * D /\
      he (out_sextic o) = H + (kappa ^ 2 - 1) * (3 * D ^ 2 / B 0%nat).
  Proof.
    intros N n B J w lam g2 g3 g4 Hr HN2 Hn5 Hw Ax HB Hi S2 S3 S4 AS Ho Ht Hf Sv Eh TM Dw Hce Hin HK HJ BJ.
    assert (HN : (0 < N)%nat) by lia. assert (Hn : (0 < n <= 3 * N)%nat) by lia.
    assert (Hl : 0 < lam) by (unfold lam; lra).
    destruct (run_linear_core eig2 eig label A m axes iatom order buddy fc2 f3x f4x freq l0 Hr HN Hn Hw Ax HB Hi S2 S3 S4 AS Sv Eh TM Dw)
      as (f0 & lx & V & h & Q1 & Q2 & Q3 & Q4 & Lf & Ef & SA & ES & ESV & ML & Z & Q).
    assert (Pw : forall i, (i < n)%nat -> 0 < w i) by (intros i Hi'; pose proof (lm_w _ _ _ _ _ TM i Hi'); lra).
    assert (Eck : forall k, (k < n)%nat -> eckart N (m_geom m) (m_w m) V k).
    { intros k Hk. destruct (nth_error h k) as [x|] eqn:Ex.
      2:{ apply nth_error_None in Ex. rewrite <- Ef, map_length in Lf. lia. }
      apply (eigen_eckart N axes fc2 (m_w m) (m_geom m) h V S2 Hw Ho Hf ESV k x Ex).
      intros ->. pose proof (Pw k Hk) as P. unfold w in P. rewrite <- Ef in P.
      rewrite (nth_error_nth _ _ 0 (map_nth_error to_wavenumber _ _ Ex)) in P.
      assert (to_wavenumber 0 = 0) by now apply wavenumber_0. lra. }
    destruct (slope_exists N n (m_w m) (m_geom m) lx) as (a & Ha).
    assert (K0 : K <> 0) by (intros ->; lra).
    assert (LM : line_modes N n (m_w m) (m_geom m) (J 0%nat) lx)
      by exact (modes_line N n axes fc2 (m_w m) (m_geom m) (J 0%nat) lx freq (proj2 Hn) Hw Ho Ht Hf Hce Ax Hin Q1 Q2 Q3 Pw).
    assert (Wa : forall k y z, (k < n)%nat -> (y < 3)%nat -> (z < 3)%nat -> wila N (m_geom m) (m_w m) V k (acol y z) = a k y z).
    { intros k y z Hk Hy Hz. symmetry. apply (slope_wila N (m_w m) (m_geom m) V k lx y z); auto.
      intros b Hb. apply ML; lia. }
    pose proof (slope_axis N n (m_w m) (m_geom m) (J 0%nat) lx) as SX.
    set (F3 := cubic_spec (3 * N) g3 lx w) in *.
    set (zeta := zeta_of N (fun a i => sqrt (m_w m (a / 3)%nat) * lx a i)) in *.
    exists f0, lx, (line_D n (J 0%nat) a w K), (line_H N n (m_w m) (J 0%nat) lx a w F3 K lam). cbv zeta.
    split; [exact Q1|]. split; [exact Q2|]. split; [exact Q3|]. split; [exact Q4|].
    split.
    - rewrite BJ. apply line_lemma; try assumption. fold zeta.
      destruct (Q f0 (le_n f0)) as (o & f3l & f4l & irreps & Er & Eo & HD & HS & BV & X3 & X4 & Et & TF). clear Q.
      set (modes := rs_modes (out_resonances o)) in *.
      assert (Hp : Permutation (nondeg modes ++ flat_map (fun '(a, b) => [a; b]) (degs modes)) (seq 0 n)).
      { etransitivity; [|exact (tf_modes _ _ _ _ _ _ _ _ _ TF)]. apply modes_part. intros i j k. exact (tf_single _ _ _ _ _ _ _ _ _ TF i j k). }
      assert (Bn : forall k, In k (nondeg modes) -> (k < n)%nat) by (intros k Hk%HS; tauto).
      assert (Bt : forall i j, In (i, j) (degs modes) -> (i < n)%nat /\ (j < n)%nat) by (intros i j Hij%HD; lia).
      destruct (linear_zetas N (m_w m) _ _ V BV) as [Zn Zd].
      apply (cor_isotropic n (nondeg modes) (degs modes)); [exact Hp|intros i j Hij%HD; tauto| | | |].
      + intros k Hk%Bn. unfold shift_cl, LinearMech.I.
        rewrite (SX Hn5 Hw HJ LM a Ha k 0%nat 1%nat), (SX Hn5 Hw HJ LM a Ha k 1%nat 0%nat), (SX Hn5 Hw HJ LM a Ha k 1%nat 1%nat) by lia.
        cbn [Nat.eqb Nat.ltb Nat.leb andb]. unfold Rdiv. repeat split; ring.
      + intros i j y z Hij Hy Hz. destruct (Bt i j Hij) as [Hi' Hj]. unfold shift_cl.
        rewrite <- !Wa by assumption. destruct (linear_slope N (m_w m) _ _ V _ Ax BV i j (acol y z) Hij) as [-> ->]. unfold Rdiv. split; ring.
      + intros k k' x Hk Hk' Hx. rewrite <- Z by auto. now apply Zn.
      + intros k i j Hk Hij. destruct (Bt i j Hij) as [Hi' Hj]. rewrite <- !Z by auto. now apply Zd.
    - intros fuel Hfu. destruct (Q fuel Hfu) as (o & f3l & f4l & irreps & Er & Eo & HD & HS & BV & X3 & X4 & Et & TF). clear Q.
      exists o. split; [exact Er|].
      set (wl := wila N (m_geom m) (m_w m) V) in *.
      destruct (finish_inv _ _ _ _ _ _ _ _ _ Eo) as (sym & xm & g & e0 & lev & eng & rows & Eq & _ & _ & _ & _ & _ & _ & _ & _ & _ & Es & _).
      assert (Wf : (fun i => nth i freq (nz 0)) = w) by (unfold w; rewrite nz_R; reflexivity).
      rewrite Wf in Eq, Es. fold N n B J wl in Eq, Es. rewrite Hr in Eq, Es. rewrite Lf in Es.
      set (kappa := 3833384078 / 100000 / (2 * K) ^ 3).
      set (D := line_D n (J 0%nat) a w K).
      assert (J0 : J 0%nat <> 0) by lra.
      assert (T0 : tau_spec n w J wl 0 0 0 0 = - 4 * (kappa * D)).
      { unfold tau_spec, D, line_D, kappa.
        rewrite (sum_g n _ (fun v => / J 0%nat ^ 4 * (a v 0%nat 0%nat ^ 2 / w v ^ 2))).
        - rewrite Rsum_scal. field. auto.
        - intros v Hv. rewrite (Wa v 0%nat 0%nat) by lia. pose proof (Pw v Hv). field. split; lra. }
      assert (T1 : tau_spec n w J wl 1 0 0 0 = 0).
      { unfold tau_spec. rewrite (Rsum_0 _ (seq 0 n)); [ring|]. intros v Hv%in_seq.
        rewrite (Wa v 1%nat 0%nat) by lia. rewrite (SX Hn5 Hw HJ LM a Ha v 1%nat 0%nat) by lia. cbn [Nat.eqb andb]. unfold Rdiv. ring. }
      split.
      + destruct (linear_de n B J w wl) as (q & E1 & E2). rewrite Eq in E1. apply some_eq3 in E1. rewrite E1, E2, T0. lra.
      + match type of Es with sextic_new _ _ _ _ _ _ _ ?z ?f = _ => set (zm := z) in *; set (f3 := f) in * end.
        destruct (linear_he n (3 * N) B J w wl zm f3 ltac:(lia)) as (s & E1 & E2).
        pose proof (some_eq3 _ _ (eq_trans (eq_sym Es) E1)) as E3. rewrite E3, E2, T0, T1.
        clear E1 E2 E3. unfold line_H. fold zeta D. rewrite <- BJ.
        assert (CS : forall u, (u < n)%nat -> c_spec J w wl u 0 0 = line_shift (J 0%nat) a w lam u).
        { intros u Hu. unfold c_spec, line_shift. rewrite (Wa u 0%nat 0%nat) by lia. fold lam. f_equal. ring. }
        assert (E1 : Sum n (fun v => w v * cc_spec n B J w wl zm v 0 ^ 2)
          = Sum n (fun v => w v * cor_form n (fun _ => B 0%nat) w (shift_cl lam w (LinearMech.I (J 0%nat)) a) zeta v 1 0 0 ^ 2)).
        { apply sum_g. intros v Hv. do 2 f_equal. unfold cc_spec, cor_form. f_equal. apply sum_g. intros u Hu.
          rewrite CS by exact Hu. unfold c_form, FormFacts.sum3. rewrite !sum_3. cbn [xyz].
          assert (Ez : zm u v 0%nat = zeta u v 0%nat).
          { rewrite <- Z by assumption. unfold zm. apply zeta_of_zmat. }
          rewrite Ez. unfold line_shift, shift_cl, LinearMech.I.
          replace (2 * J 0%nat ^ 2 * p32 (lam ^ 2 * w u)) with (2 * J 0%nat * J 0%nat * p32 (lam ^ 2 * w u)) by ring. ring. }
        assert (E2 : Sum n (fun u => Sum n (fun v => Sum n (fun k => f3 u v k * c_spec J w wl u 0 0 * c_spec J w wl v 0 0 * c_spec J w wl k 0 0)))
          = Sum n (fun i => Sum n (fun j => Sum n (fun k => F3 i j k * line_shift (J 0%nat) a w lam i * line_shift (J 0%nat) a w lam j * line_shift (J 0%nat) a w lam k)))).
        { apply sum_g. intros i Hi'. apply sum_g. intros j Hj. apply sum_g. intros k Hk. rewrite !CS by assumption.
          assert (Ef3 : f3 i j k = F3 i j k).
          { rewrite X3 by assumption. unfold f3. rewrite ?nz_R. reflexivity. }
          rewrite Ef3. reflexivity. }
        rewrite E1, E2.
        match goal with |- _ = _ - 2 * ?a + / 6 * ?b + _ => generalize a b end. intros r1 r2.
        clearbody D kappa. unfold Rdiv. generalize (/ B 0%nat). generalize (/ B 1%nat). intros i1 i0. field.
  Qed.
End RunDistort.
