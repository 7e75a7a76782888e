(** Linear molecules: the normal modes the program uses. *)
From Coq Require Import Reals Lra List ZArith Arith Lia Bool Permutation Sorted.
From Verif Require Import Num Loops ListFacts AnharmFacts Transform TransformFacts RotFacts HarmFacts ModeFacts DistortFacts GeomFacts ZeroFacts
  Modes ModesFacts ResFacts VibRot VibRotFacts SymFacts SymE0 SymPerturb Geom AlignFacts AlignExact AlignSign Threefold ThreeForm ThreeModes.
Import ListNotations.
Open Scope nat_scope.
Local Open Scope R_scope.

(** ** specification *)

(** the turn about z by the angle [th]; every atom of a linear molecule stays where it is *)
Definition spin (th : R) (x y : nat) : R :=
  match x, y with
  | 0%nat, 0%nat => cos th | 0%nat, 1%nat => - sin th
  | 1%nat, 0%nat => sin th | 1%nat, 1%nat => cos th
  | 2%nat, 2%nat => 1
  | _, _ => 0
  end.
Definition stay (i : nat) : nat := i.
Definition turned_by (th : R) : nat -> nat -> R := op stay (spin th).
Definition mirrored : nat -> nat -> R := op stay flip.
Definition on_axis (N : nat) (geom : nat -> R * R * R) : Prop :=
  forall i, (i < N)%nat -> exists z, geom i = (0, 0, z).

(** The modes [V] with the frequencies [w] the eigenvalue solver has found; [c] is the atom the
    program aligns pairs of modes with.  Vibrations have the same frequency or are at least 1 apart, at
    most two have the same one, and atom [c] moves in a pair of modes: noticeably along x in the first
    mode, or not at all along x in the first and noticeably in the second. *)
Record linear_modes (N n c : nat) (w : nat -> R) (V : nat -> nat -> R) : Prop := {
  lm_w : forall i, (i < n)%nat -> 1 / 10 < w i;
  lm_apart : forall i j, (i < j)%nat -> (j < n)%nat -> w i = w j \/ 1 <= Rabs (w i - w j);
  lm_two : forall i j k, (i < j)%nat -> (j < k)%nat -> (k < n)%nat -> w i = w j -> w j = w k -> False;
  lm_rest : forall i k, (i < n)%nat -> (n <= k)%nat -> (k < 3 * N)%nat -> w k <> w i;
  lm_big : forall i j, (i < j)%nat -> (j < n)%nat -> w i = w j ->
    big (V (3 * c)%nat i) \/ V (3 * c)%nat i = 0 /\ big (V (3 * c)%nat j)
}.

(** ** the symmetry of a linear molecule contains that of a threefold axis *)
Lemma spin_third x y : spin (- (2 * (PI / 3))) x y = third (- (sqrt 3 / 2)) x y.
Proof.
  assert (Ec : cos (- (2 * (PI / 3))) = - (1 / 2)) by (rewrite cos_neg, cos_2PI3; lra).
  assert (Es : sin (- (2 * (PI / 3))) = - (sqrt 3 / 2)) by (rewrite sin_neg, sin_2PI3; reflexivity).
  unfold spin, third. destruct x as [|[|[|x]]], y as [|[|[|y]]]; rewrite ?Ec, ?Es; reflexivity.
Qed.
Lemma op_third a b : turned_by (- (2 * (PI / 3))) a b = op stay (third (- (sqrt 3 / 2))) a b.
Proof. unfold turned_by, op. destruct (_ =? _)%nat; [apply spin_third|reflexivity]. Qed.

Lemma same_third2 n f : same2 n (turned_by (- (2 * (PI / 3)))) f -> same2 n (op stay (third (- (sqrt 3 / 2)))) f.
Proof.
  intros H a b Ha Hb. rewrite <- (H a b Ha Hb). unfold con2, con1.
  apply sum_g. intros r _. rewrite op_third. f_equal. apply sum_g. intros t _. now rewrite op_third.
Qed.
Lemma same_third3 n f : same3 n (turned_by (- (2 * (PI / 3)))) f -> same3 n (op stay (third (- (sqrt 3 / 2)))) f.
Proof.
  intros H a b c Ha Hb Hc. rewrite <- (H a b c Ha Hb Hc). unfold con3, con2, con1.
  apply sum_g. intros r _. rewrite op_third. f_equal. apply sum_g. intros t _. rewrite op_third. f_equal.
  apply sum_g. intros u _. now rewrite op_third.
Qed.
Lemma same_third4 n f : same4 n (turned_by (- (2 * (PI / 3)))) f -> same4 n (op stay (third (- (sqrt 3 / 2)))) f.
Proof.
  intros H a b c d Ha Hb Hc Hd. rewrite <- (H a b c d Ha Hb Hc Hd). unfold con4, con3, con2, con1.
  apply sum_g. intros r _. rewrite op_third. f_equal. apply sum_g. intros t _. rewrite op_third. f_equal.
  apply sum_g. intros u _. rewrite op_third. f_equal. apply sum_g. intros v _. now rewrite op_third.
Qed.

Lemma h3_sq : sqrt 3 / 2 * (sqrt 3 / 2) = 3 / 4.
Proof. pose proof (sqrt_sqrt 3 ltac:(lra)). lra. Qed.
Lemma h3_pos : 0 < sqrt 3 / 2.
Proof. pose proof (sqrt_lt_R0 3 ltac:(lra)). lra. Qed.
Lemma linear_c3v N m : c3v N m (- (sqrt 3 / 2)) stay stay.
Proof.
  constructor; intros; try reflexivity; try assumption. pose proof h3_sq. lra.
Qed.
Lemma linear_placed N geom s : on_axis N geom -> placed N s stay stay geom.
Proof.
  intros H. constructor; intros i Hi; destruct (H i Hi) as (z & E); unfold stay; rewrite E;
    rewrite !pair_equal_spec; repeat split; lra.
Qed.

Lemma some_eq1 {A} (x y : A) : Some x = Some y -> x = y.
Proof. congruence. Qed.

(** ** one pair *)
Lemma pair_1 natom iatom order buddy w a b (l lx l' lx' : nat -> nat -> R) : (iatom < natom)%nat -> a <> b ->
  align_pair true natom iatom order buddy w a b (l, lx) = Some (l', lx') ->
  big (l (3 * iatom)%nat a) \/ l (3 * iatom)%nat a = 0 /\ big (l (3 * iatom)%nat b) ->
  exists c s g, turned (3 * natom) c s g (fun i => l i a) (fun i => l i b) (fun i => l' i a) (fun i => l' i b) /\
    l' (3 * iatom)%nat b = 0 /\ l' (3 * iatom)%nat a <> 0 /\ l' (3 * iatom)%nat a * l' (3 * iatom + 1)%nat b <= 0.
Proof.
  intros Hi Hab E HB.
  destruct (pair_R _ _ _ _ _ _ _ _ _ _ _ _ Hab E) as (th & g & Ea & HT).
  exists (cos th), (sin th), g. split; [exact HT|].
  assert (Bz : forall x, big x -> x <> 0).
  { intros x Hx ->. unfold big, toler in Hx. rewrite Rabs_R0 in Hx. lra. }
  assert (X0 : l (3 * iatom)%nat a <> 0 \/ l (3 * iatom)%nat b <> 0) by (destruct HB as [H|[_ H]]; [left|right]; now apply Bz).
  assert (B0 : l' (3 * iatom)%nat b = 0).
  { destruct HB as [HB|[HA HB]].
    - pose proof (angle_lemma true natom iatom l a b th g _ _ Hi Ea HT) as (HA & _). now apply HA.
    - destruct HT as (_ & Hg & HT). destruct (HT (3 * iatom)%nat ltac:(lia)) as [_ ->].
      unfold align_angle, izero4 in Ea. cbv zeta in Ea.
      assert (NA : ~ big (l (3 * iatom)%nat a)) by (intros H; now apply (Bz _ H)).
      rewrite (proj2 (small_R' _) NA), (proj2 (small_R _) HB) in Ea. cbn [andb negb] in Ea. injection Ea as <-.
      cbn [npi Rtrig ndiv nz nlit Rnum]. destruct cos_half as [-> ->]. rewrite HA. ring. }
  split; [exact B0|]. split.
  { destruct HT as (Hcs & Hg & HT). destruct (HT (3 * iatom)%nat ltac:(lia)) as [-> HBt]. intros Z.
    rewrite B0 in HBt.
    assert (Z2 : cos th * l (3 * iatom)%nat b - sin th * l (3 * iatom)%nat a = 0) by (destruct Hg as [-> | ->]; lra).
    destruct X0 as [X0|X0]; apply X0.
    - replace (l (3 * iatom)%nat a) with ((cos th * cos th + sin th * sin th) * l (3 * iatom)%nat a) by (rewrite Hcs; ring).
      transitivity (cos th * (cos th * l (3 * iatom)%nat a + sin th * l (3 * iatom)%nat b) - sin th * (cos th * l (3 * iatom)%nat b - sin th * l (3 * iatom)%nat a)); [ring|].
      rewrite Z, Z2. ring.
    - replace (l (3 * iatom)%nat b) with ((cos th * cos th + sin th * sin th) * l (3 * iatom)%nat b) by (rewrite Hcs; ring).
      transitivity (sin th * (cos th * l (3 * iatom)%nat a + sin th * l (3 * iatom)%nat b) + cos th * (cos th * l (3 * iatom)%nat b - sin th * l (3 * iatom)%nat a)); [ring|].
      rewrite Z, Z2. ring. }
  unfold align_pair in E. rewrite Ea in E. cbn [obind] in E. unfold relative_sign in E. cbn [obind] in E. apply some_eq1, pair_equal_spec in E as [E _].
  set (r := rotate_pair natom (ncos th) (nsin th) a b l) in *. rewrite <- E.
  unfold ngtb. rewrite nz_R. cbn [nltb nmul Rnum]. destruct (Rltb _ _) eqn:Et.
  - apply Rltb_true in Et. rewrite !negate_R, Nat.eqb_refl. destruct (Nat.eqb_spec a b); [contradiction|].
    rewrite andb_false_r. replace (3 * iatom + 1 <? 3 * natom)%nat with true by (symmetry; apply Nat.ltb_lt; lia). cbn [andb]. lra.
  - apply Rltb_false in Et. exact Et.
Qed.

Lemma pair_1_all natom nvib iatom order buddy freq w (lxm lx lxm' lx' : nat -> nat -> R) a b :
  (iatom < natom)%nat -> (a < b)%nat -> (b < nvib)%nat -> partners true freq a b ->
  (forall m, (m < nvib)%nat -> m <> a -> m <> b -> ~ partners true freq a m /\ ~ partners true freq b m) ->
  bdegnl true natom nvib iatom order buddy freq w lxm lx = Some (lxm', lx') ->
  big (lxm (3 * iatom)%nat a) \/ lxm (3 * iatom)%nat a = 0 /\ big (lxm (3 * iatom)%nat b) ->
  exists c s g, turned (3 * natom) c s g (fun i => lxm i a) (fun i => lxm i b) (fun i => lxm' i a) (fun i => lxm' i b) /\
    lxm' (3 * iatom)%nat b = 0 /\ lxm' (3 * iatom)%nat a <> 0 /\ lxm' (3 * iatom)%nat a * lxm' (3 * iatom + 1)%nat b <= 0.
Proof.
  intros Hi Hab Hb Hp Hiso E HB.
  apply (isolated_lemma (fun st => exists c s g, turned (3 * natom) c s g (fun i => lxm i a) (fun i => lxm i b) (fun i => fst st i a) (fun i => fst st i b) /\
    fst st (3 * iatom)%nat b = 0 /\ fst st (3 * iatom)%nat a <> 0 /\ fst st (3 * iatom)%nat a * fst st (3 * iatom + 1)%nat b <= 0)
    _ _ _ _ _ _ _ _ _ _ _ a b Hab Hb Hp Hiso) in E; [exact E| |].
  - intros l l' k k' (c & d & g & HT & HR) He. cbn [fst] in *. exists c, d, g. split.
    + eapply turned_ext; [..|exact HT]; intros i; cbv beta; try reflexivity; symmetry; apply He.
    + destruct (He (3 * iatom)%nat) as [-> ->], (He (3 * iatom + 1)%nat) as [_ ->]. exact HR.
  - intros l k [l' k'] He Ep. cbn [fst].
    destruct (pair_1 natom iatom order buddy w a b l k l' k' Hi (Nat.lt_neq _ _ Hab) Ep) as (c & d & g & HT & HR).
    { now rewrite (proj1 (He _)), (proj2 (He _)). }
    exists c, d, g. split; [|exact HR]. eapply turned_ext; [..|exact HT]; intros i; cbv beta; try reflexivity; apply He.
Qed.

Lemma partners_eq1 n w i j : (forall i j, (i < j)%nat -> (j < n)%nat -> w i = w j \/ 1 <= Rabs (w i - w j)) ->
  (i < n)%nat -> (j < n)%nat -> i <> j -> partners true w i j <-> w i = w j.
Proof.
  intros Ap Hi Hj Ne. unfold partners, align_tol. cbn [nltb nabs nsub nlit nz Rnum]. rewrite Rltb_true.
  destruct (Nat.lt_total i j) as [L|[E|L]]; [|congruence|].
  - rewrite Nat.min_l, Nat.max_r by lia. split.
    + intros H. destruct (Ap i j L Hj); [assumption|lra].
    + intros ->. rewrite Rminus_diag_eq, Rabs_R0 by reflexivity. lra.
  - rewrite Nat.min_r, Nat.max_l by lia. split.
    + intros H. destruct (Ap j i L Hi); [congruence|lra].
    + intros ->. rewrite Rminus_diag_eq, Rabs_R0 by reflexivity. lra.
Qed.

Lemma align_total1 natom nvib c order buddy (w : nat -> R) mw (lxm lx : nat -> nat -> R) : (0 < nvib)%nat -> (c < natom)%nat ->
  (forall i j, (i < j)%nat -> (j < nvib)%nat -> w i = w j \/ 1 <= Rabs (w i - w j)) ->
  (forall i j k, (i < j)%nat -> (j < k)%nat -> (k < nvib)%nat -> w i = w j -> w j = w k -> False) ->
  (forall i j, (i < j)%nat -> (j < nvib)%nat -> w i = w j -> big (lxm (3 * c)%nat i) \/ lxm (3 * c)%nat i = 0 /\ big (lxm (3 * c)%nat j)) ->
  exists lxm' lx', bdegnl true natom nvib c order buddy w mw lxm lx = Some (lxm', lx').
Proof.
  intros Hn Hc Ap Tw Hb. unfold bdegnl. destruct (Nat.eqb_spec nvib 0) as [|_]; [lia|].
  (* a pair is met once: its two columns are as given until the loops come to it *)
  set (kept := fun (a b : nat) (st : (nat -> nat -> R) * (nat -> nat -> R)) =>
    forall i j, (i < j)%nat -> (j < nvib)%nat -> w i = w j -> (a < i \/ a = i /\ b <= j)%nat ->
      forall x, fst st x i = lxm x i /\ fst st x j = lxm x j).
  assert (P : forall a b st, (a < b)%nat -> (b < nvib)%nat -> kept a b st ->
    exists st', (if nltb (nabs (nsub (w a) (w b))) (align_tol true) then align_pair true natom c order buddy mw a b st else Some st) = Some st' /\
      kept a (S b) st').
  { intros a b [l k] Hab Hbn K. destruct (nltb _ _) eqn:Et.
    2:{ exists (l, k). split; [reflexivity|]. intros i j H1 H2 Ew Ho. apply K; try assumption. lia. }
    assert (Pab : partners true w a b).
    { unfold partners. rewrite Nat.min_l, Nat.max_r by lia. exact Et. }
    apply (partners_eq1 nvib) in Pab; [|exact Ap|lia|lia|lia].
    destruct (align_pair true natom c order buddy mw a b (l, k)) as [[l' k']|] eqn:Ep.
    2:{ exfalso. destruct (K a b Hab Hbn Pab ltac:(lia) (3 * c)%nat) as [Ka Kb]. cbn [fst] in Ka, Kb.
        apply pair_panics in Ep as [(H1 & H2 & _)|(H2 & _)]; [|discriminate].
        rewrite Ka in H1. rewrite Kb in H2. destruct (Hb a b Hab Hbn Pab) as [H|[_ H]]; contradiction. }
    exists (l', k'). split; [reflexivity|]. intros i j Hij Hj Ew Ho x. cbn [fst].
    assert (Nab : a <> b) by lia.
    assert (D : i <> a /\ i <> b /\ j <> a /\ j <> b).
    { repeat split; intros ->; try lia.
      - destruct Ho as [Ho|[_ Ho]]; [lia|]. apply (Tw a b j); congruence || lia.
      - apply (Tw a b j); congruence || lia.
      - destruct Ho as [Ho|[_ Ho]]; [|lia]. apply (Tw a i b); congruence || lia. }
    destruct D as (D1 & D2 & D3 & D4).
    rewrite (proj1 (pair_other _ _ _ _ _ _ _ _ _ _ _ _ Nab Ep x i D1 D2)), (proj1 (pair_other _ _ _ _ _ _ _ _ _ _ _ _ Nab Ep x j D3 D4)).
    apply (K i j Hij Hj Ew). lia. }
  assert (R : forall a st len b, (a < b)%nat -> (b + len = nvib)%nat -> kept a b st ->
    exists st', ofold (fun st jj => if nltb (nabs (nsub (w a) (w jj))) (align_tol true) then align_pair true natom c order buddy mw a jj st else Some st)
      (seq b len) st = Some st' /\ kept a nvib st').
  { intros a st len. revert st. induction len as [|len IH]; intros st b Hab Hl K; cbn [seq ofold].
    - exists st. split; [reflexivity|]. now replace nvib with b by lia.
    - destruct (P a b st Hab ltac:(lia) K) as (st1 & E1 & K1). rewrite E1. cbn [obind]. apply IH; try assumption; lia. }
  assert (Q : forall len a st, (a + len = nvib - 1)%nat -> kept a (a + 1)%nat st ->
    exists st', ofold (fun st ii => ofold (fun st jj =>
        if nltb (nabs (nsub (w ii) (w jj))) (align_tol true) then align_pair true natom c order buddy mw ii jj st else Some st)
      (range (ii + 1) nvib) st) (seq a len) st = Some st').
  { induction len as [|len IH]; intros a st Hl K; cbn [seq ofold]; [eauto|].
    destruct (R a st (nvib - (a + 1))%nat (a + 1)%nat ltac:(lia) ltac:(lia) K) as (st1 & E1 & K1).
    change (range (a + 1) nvib) with (seq (a + 1) (nvib - (a + 1))). rewrite E1. cbn [obind]. apply IH; [lia|].
    intros i j H1 H2 Ew Ho. apply K1; try assumption. lia. }
  destruct (Q (nvib - 1)%nat 0%nat (lxm, lx)) as ([l k] & E); [lia| |exists l, k].
  - intros i j _ _ _ _ x. split; reflexivity.
  - unfold range in *. rewrite Nat.sub_0_r. exact E.
Qed.

(** a displacement that the turn leaves alone is along the axis *)
Lemma still_axis N (m : nat -> R) (u : nat -> R) i : (i < N)%nat -> (forall b, (b < 3 * N)%nat -> act (3 * N) (op stay (third (- (sqrt 3 / 2)))) u b = u b) ->
  u (3 * i)%nat = 0 /\ u (3 * i + 1)%nat = 0.
Proof.
  intros Hi H. pose proof (H (3 * i)%nat ltac:(lia)) as H0. pose proof (H (3 * i + 1)%nat ltac:(lia)) as H1.
  replace (3 * i)%nat with (3 * stay i + 0)%nat in H0 at 1 by (unfold stay; lia).
  change (3 * i + 1)%nat with (3 * stay i + 1)%nat in H1 at 1.
  rewrite (turn_to N m _ stay stay (linear_c3v N m)), sum_3 in H0, H1 by (assumption || lia). cbn [third] in H0, H1.
  rewrite Nat.add_0_r in H0, H1. pose proof h3_sq as S2. pose proof h3_pos as S0. set (q := sqrt 3 / 2) in *.
  set (x := u (3 * i)%nat) in *. set (y := u (3 * i + 1)%nat) in *.
  assert (X : 3 / 2 * x = q * y) by lra. assert (Y : 3 / 2 * y = - q * x) by lra.
  assert (9 / 4 * x = - (3 / 4) * x). { transitivity (3 / 2 * (q * y)); [lra|]. transitivity (q * (3 / 2 * y)); [ring|]. rewrite Y. rewrite <- S2. ring. }
  assert (x = 0) by lra. split; [assumption|]. assert (x * q = 0) by (rewrite H3; ring). lra.
Qed.

(** ** the modes after the alignment *)
Section After.
  Variables (N n c order : nat) (buddy : option nat) (m : nat -> R) (w : nat -> R) (h : list R) (A V lx V' lx' : nat -> nat -> R)
    (ns : list nat) (ts : list (nat * nat)).
  Let s := - (sqrt 3 / 2).
  Let C : c3v N m s stay stay := linear_c3v N m.
  Hypothesis Hn : (n <= 3 * N)%nat.
  Hypothesis Hc : (c < N)%nat.
  Hypothesis SA : sym2 (3 * N) A.
  Hypothesis PA : same2 (3 * N) (op stay (third s)) A.
  Hypothesis MA : same2 (3 * N) (op stay flip) A.
  Hypothesis ES : eigen_system (3 * N) A h V.
  Hypothesis Wh : forall i j, (i < 3 * N)%nat -> (j < 3 * N)%nat -> w i = w j <-> nth i h 0 = nth j h 0.
  Hypothesis LM : linear_modes N n c w V.
  Hypothesis E : bdegnl true N n c order buddy w m V lx = Some (V', lx').
  Hypothesis Hns : forall i, In i ns <-> (i < n)%nat /\ forall j, (j < n)%nat -> j <> i -> w j <> w i.
  Hypothesis Hts : forall i j, In (i, j) ts <-> (i < j < n)%nat /\ w i = w j.

  Lemma other_val1 i j : (i < n)%nat -> (j < 3 * N)%nat -> (forall k, (k < n)%nat -> k <> i -> k = j -> w k <> w i) -> j <> i -> nth j h 0 <> nth i h 0.
  Proof.
    intros Hi Hj H Ne E0. apply Wh in E0; [|assumption|lia].
    destruct (le_lt_dec n j) as [L|L]; [now apply (lm_rest _ _ _ _ _ LM i j)|now apply (H j)].
  Qed.

  Lemma after_eigen1 : eigen_system (3 * N) A h V'.
  Proof.
    refine (normal_kept _ _ _ _ _ _ _ _ _ _ _ _ A h Hn _ ES E).
    intros a b Ha Hb Hp. destruct (Nat.eq_dec a b) as [->|Ne]; [reflexivity|].
    apply (partners_eq1 n) in Hp; [|apply (lm_apart _ _ _ _ _ LM)|assumption|assumption|assumption].
    assert (L : length h = (3 * N)%nat) by apply ES.
    rewrite !(nth_error_nth' h 0) by lia. f_equal. apply Wh; lia || assumption.
  Qed.

  Lemma after_behaves1 : behaves (3 * N) (op stay (third s)) (op stay flip) (sqrt 3 / 2) ns ts V'.
  Proof.
    pose proof after_eigen1 as ES'.
    assert (Pe : forall i j, (i < n)%nat -> (j < n)%nat -> i <> j -> partners true w i j <-> w i = w j).
    { intros i j Hi Hj Ne. apply (partners_eq1 n); try assumption. apply (lm_apart _ _ _ _ _ LM). }
    constructor.
    - intros k (Hk & Hs)%Hns.
      assert (ST : forall b, (b < 3 * N)%nat -> act (3 * N) (op stay (third s)) (fun a => V' a k) b = V' b k).
      { apply (single_turn N m s stay stay C A h V' SA PA ES' k); [lia|].
        intros j Hj Ne. apply (other_val1 k j); try assumption. intros q Hq Nq _. now apply Hs. }
      intros b Hb. split; [now apply ST|].
      revert b Hb. apply (split_index N s stay stay). intros i x Hi Hx. rewrite (mirror_at N m s stay stay C) by assumption. unfold stay.
      destruct x as [|[|[|x]]]; try lia; cbn [flip]; [ring| |ring].
      destruct (still_axis N m (fun a => V' a k) i Hi ST) as [_ ->]. ring.
    - intros i j ((Hi & Hj) & Ew)%Hts b Hb.
      assert (Vij : nth i h 0 = nth j h 0) by (apply Wh; lia || assumption).
      assert (Iso : forall m', (m' < n)%nat -> m' <> i -> m' <> j -> w m' <> w i /\ w m' <> w j).
      { intros k Hk Ni Nj. rewrite Ew.
        assert (X : w k <> w j); [|now split]. intros E0.
        destruct (Nat.lt_total k i) as [L|[L|L]]; [|congruence|].
        - apply (lm_two _ _ _ _ _ LM k i j); congruence || lia.
        - destruct (Nat.lt_total k j) as [L2|[L2|L2]]; [|congruence|].
          + apply (lm_two _ _ _ _ _ LM i k j); congruence || lia.
          + apply (lm_two _ _ _ _ _ LM i j k); congruence || lia. }
      assert (Oth : forall k, (k < 3 * N)%nat -> k <> i -> k <> j -> nth k h 0 <> nth i h 0).
      { intros k Hk Ni Nj. apply other_val1; [lia|exact Hk| |exact Ni]. intros q Hq Nq ->. now apply Iso. }
      destruct (pair_1_all N n c order buddy w m V lx V' lx' i j Hc ltac:(lia) ltac:(lia)) as (cs & sn & g & HU & Xj & Xi & Sg).
      { apply Pe; lia || assumption. }
      { intros k Hk Ni Nj. rewrite !Pe by (lia || congruence). destruct (Iso k Hk Ni Nj). split; congruence. }
      { exact E. }
      { now apply (lm_big _ _ _ _ _ LM i j). }
      (* the new pair under the turn *)
      destruct (pair_turn N m s stay stay C A h V' SA PA ES' i j ltac:(lia) ltac:(lia) ltac:(lia) Vij Oth) as (p & Hq' & HT').
      { intros HV. apply Xi. now apply (still_axis N m (fun a => V' a i) c Hc). }
      assert (HM := pair_mirror N m s stay stay C A h V' SA MA ES' p i j c ltac:(lia) ltac:(lia) ltac:(lia) Vij Oth Hq' HT' Hc eq_refl Xi Xj).
      assert (Y : V' (3 * c + 1)%nat i = 0).
      { destruct (HM (3 * c + 1)%nat ltac:(lia)) as [M1 _]. rewrite (mirror_at N m s stay stay C) in M1 by (assumption || lia).
        unfold stay in M1. cbn [flip] in M1. lra. }
      assert (Sn : s * V' (3 * c)%nat i = p * V' (3 * c + 1)%nat j).
      { destruct (HT' (3 * c + 1)%nat ltac:(lia)) as [T1 _]. change (3 * c + 1)%nat with (3 * stay c + 1)%nat in T1 at 1.
        rewrite (turn_to N m s stay stay C), sum_3 in T1 by (assumption || lia). cbn [third] in T1. rewrite Nat.add_0_r, Y in T1. lra. }
      pose proof h3_sq as S3. pose proof h3_pos as S0.
      assert (P1 : p = sqrt 3 / 2).
      { unfold s in Sn. set (h3 := sqrt 3 / 2) in *. set (x := V' (3 * c)%nat i) in *. set (y := V' (3 * c + 1)%nat j) in *.
        assert (0 < x * x) by (destruct (Rtotal_order x 0) as [?|[?|?]]; [nra|contradiction|nra]).
        assert (Q : p * (x * y) = - (h3 * (x * x))).
        { transitivity (x * (p * y)); [ring|]. rewrite <- Sn. ring. }
        assert (0 < h3 * (x * x)) by (apply Rmult_lt_0_compat; assumption).
        assert (P0 : 0 < p). { destruct (Rlt_or_le 0 p); [assumption|]. exfalso. assert (0 <= p * (x * y)) by nra. lra. }
        assert ((p - h3) * (p + h3) = 0) by lra. destruct (Rmult_integral _ _ H1); lra. }
      rewrite <- P1. destruct (HT' b Hb) as [T1 T2]. destruct (HM b Hb) as [M1 M2].
      repeat split; assumption.
  Qed.
End After.
