(** Linear molecules: the whole run. *)
From Coq Require Import Reals Lra List ZArith Arith Lia Bool Permutation Sorted.
From Verif Require Import Num Loops ListFacts Index LoadFacts Modes ModesFacts ResFacts ResWitness
  StatesFacts IndexFacts Anharm AnharmFacts EnergyFacts VibRot Distort Transform TransformFacts
  RotFacts NormalFacts HarmFacts ModeFacts DistortFacts GeomFacts ZeroFacts SymAnharm
  Polyads Report OutputFacts VibRotFacts SymRotFacts Geom AlignFacts AlignExact IrrepFacts Finish FinishFacts
  PerturbFacts PerturbSum PerturbLevels SymE0 SymExact SymVib SameRun SymPerturb SymLevels SymFacts RunFacts RunSecond RunRot TopRun
  Threefold ThreeForm ThreeModes ThreeRun LinearModes.
Import ListNotations.
Open Scope nat_scope.
Local Open Scope R_scope.

(** ** specification *)

(** the force field does not change when the displacements of all atoms are turned about z by any
    angle, or mirrored *)
Definition axially_symmetric (N : nat) (g2 : nat -> nat -> R) (g3 : nat -> nat -> nat -> R) (g4 : nat -> nat -> nat -> nat -> R) : Prop :=
  ((forall th, same2 (3 * N) (turned_by th) g2) /\ same2 (3 * N) mirrored g2) /\
  ((forall th, same3 (3 * N) (turned_by th) g3) /\ same3 (3 * N) mirrored g3) /\
  ((forall th, same4 (3 * N) (turned_by th) g4) /\ same4 (3 * N) mirrored g4).

(** ** no cubic force constant couples three bending modes *)
Section Bends.
  Variables (N : nat) (m : nat -> R) (ns : list nat) (ts : list (nat * nat)) (L : nat -> nat -> R) (g3 : nat -> nat -> nat -> R).
  Let s := - (sqrt 3 / 2).
  Hypothesis BL : behaves (3 * N) (op stay (third s)) (op stay flip) (sqrt 3 / 2) ns ts L.
  Hypothesis T3 : same3 (3 * N) (turned_by PI) g3.

  (** the atoms do not move along the axis in a pair of modes *)
  Lemma bend_plane i j q : In (i, j) ts -> (q < N)%nat -> L (3 * q + 2)%nat i = 0 /\ L (3 * q + 2)%nat j = 0.
  Proof.
    intros Hij Hq. destruct (bh_pair _ _ _ _ _ _ _ BL i j Hij (3 * q + 2)%nat ltac:(lia)) as (P1 & P2 & _).
    change (3 * q + 2)%nat with (3 * stay q + 2)%nat in P1 at 1, P2 at 1.
    rewrite (turn_to N m s stay stay (linear_c3v N m)), sum_3 in P1, P2 by (assumption || lia). cbn [third] in P1, P2.
    pose proof h3_sq as S2. set (h := sqrt 3 / 2) in *. set (x := L (3 * q + 2)%nat i) in *. set (y := L (3 * q + 2)%nat j) in *.
    assert (X : 3 / 2 * x = h * y) by lra. assert (Y : 3 / 2 * y = - h * x) by lra.
    assert (9 / 4 * x = - (3 / 4) * x). { transitivity (3 / 2 * (h * y)); [lra|]. transitivity (h * (3 / 2 * y)); [ring|]. rewrite Y. rewrite <- S2. ring. }
    assert (X0 : x = 0) by lra. split; [exact X0|]. rewrite X0 in Y. lra.
  Qed.
  Lemma half_turn i : In i (map fst ts) -> par (3 * N) (turned_by PI) L i (-1).
  Proof.
    intros ([a b] & <- & Hab)%in_map_iff. cbn [fst]. unfold par, comb. apply (split_index N s stay stay). intros q x Hq Hx.
    change (mprod (3 * N) (turned_by PI) L (3 * q + x) a) with (act (3 * N) (op stay (spin PI)) (fun r => L r a) (3 * q + x)).
    rewrite (act_at N stay stay) by (auto || reflexivity). rewrite sum_3. unfold stay.
    destruct (bend_plane a b q Hab Hq) as [Z _].
    destruct x as [|[|[|x]]]; try lia; cbn [spin]; rewrite ?cos_PI, ?sin_PI, ?Z; ring.
  Qed.
  Lemma cubic_three i j k : In i (map fst ts) -> In j (map fst ts) -> In k (map fst ts) -> con3 (3 * N) L g3 i j k = 0.
  Proof.
    intros Hi Hj Hk. apply (odd3 (3 * N) (turned_by PI) L g3 T3 i j k (-1) (-1) (-1)); [now apply half_turn..|ring].
  Qed.
End Bends.

Section RunLinear.
  Context {I : Type}.
  Variables (eig2 : R -> R -> R -> R * R * (R * R))
    (eig : (nat -> nat -> R) -> list R * (nat -> nat -> R))
    (label : (nat -> R * R * R) -> (nat -> nat -> R) -> nat -> R -> option I) (A : I).

  Lemma run_linear_core m axes iatom order buddy fc2 f3x f4x freq l0 :
    let N := m_natom m in
    let n := m_nvib m in
    let B := m_rotcon m in
    let w := fun i => nth i freq 0 in
    let turn := op stay (third (- (sqrt 3 / 2))) in
    let mirror := op stay flip in
    let g2 := con2 (3 * N) (every_atom axes) fc2 in
    let g3 := con3 (3 * N) (every_atom axes) f3x in
    let g4 := con4 (3 * N) (every_atom axes) f4x in
    m_rotor m = Linear ->
    (0 < N)%nat -> (0 < n <= 3 * N)%nat ->
    (forall q, (q < N)%nat -> 0 < m_w m q) ->
    on_axis N (m_geom m) -> B 0%nat = B 1%nat ->
    (iatom < N)%nat ->
    sym2 (3 * N) fc2 -> tsym3 (3 * N) f3x -> tsym4 (3 * N) f4x ->
    axially_symmetric N g2 g3 g4 ->
    solves (3 * N) eig (secular N axes fc2 (m_w m)) ->
    harmonic N axes fc2 (m_w m) eig = Some (freq, l0) ->
    linear_modes N n iatom w l0 ->
    (forall i j k, (i < n)%nat -> (j < n)%nat -> (k < n)%nat -> w i + w j <> w k) ->
    exists fuel0 lx V h,
      let hess := fun a b => FACT2 * g2 a b in
      let F3 := cubic_spec (3 * N) g3 lx w in
      let F4 := quartic_spec (3 * N) g4 lx w in
      let zeta := zeta_of N (fun a i => sqrt (m_w m (a / 3)%nat) * lx a i) in
      (forall i j, (i < 3 * N)%nat -> (j < 3 * N)%nat ->
         Sum (3 * N) (fun a => m_w m (a / 3)%nat * lx a i * lx a j) = (if Nat.eqb i j then 1 else 0)) /\
      (forall i j, (i < 3 * N)%nat -> (j < 3 * N)%nat -> i <> j -> con2 (3 * N) lx hess i j = 0) /\
      (forall i, (i < 3 * N)%nat -> nth_error freq i = Some (to_wavenumber (con2 (3 * N) lx hess i i))) /\
      StronglySorted Rge freq /\
      length freq = (3 * N)%nat /\ map to_wavenumber h = freq /\ sym2 (3 * N) (secular N axes fc2 (m_w m)) /\
      eigen_system (3 * N) (secular N axes fc2 (m_w m)) h l0 /\ eigen_system (3 * N) (secular N axes fc2 (m_w m)) h V /\
      mass_weighted N (m_w m) V lx /\
      (forall i j a, (i < n)%nat -> (j < n)%nat -> zeta_of N V i j a = zeta i j a) /\
      forall fuel, (fuel0 <= fuel)%nat ->
      exists o f3l f4l irreps,
      run eig2 eig label A fuel buddy false m axes iatom order (Quartic fc2 f3x f4x) = Some (FullResult o) /\
      finish eig2 false m freq f3l f4l irreps V lx = Some o /\
      let modes := rs_modes (out_resonances o) in
      let f3 := fun i j k => nth (find3 i j k) f3l 0 in
      let f4 := fun i j k l => nth (find4 i j k l) f4l 0 in
      (forall i j, In (i, j) (degs modes) <-> (i < j < n)%nat /\ w i = w j) /\
      (forall i, In i (nondeg modes) <-> (i < n)%nat /\ forall j, (j < n)%nat -> j <> i -> w j <> w i) /\
      behaves (3 * N) turn mirror (sqrt 3 / 2) (nondeg modes) (degs modes) V /\
      (forall i j k, (i < n)%nat -> (j < n)%nat -> (k < n)%nat -> F3 i j k = f3 i j k) /\
      (forall i j k l, (i < n)%nat -> (j < n)%nat -> (k < n)%nat -> (l < n)%nat -> F4 i j k l = f4 i j k l) /\
      restst_tables n (ioff (n + 1)) modes = Some (rs_tables (out_resonances o)) /\
      top_field n modes w f3 f4 (zeta_of N V) B (m_rotor m) (wila N (m_geom m) (m_w m) V).
  Proof.
    intros N n B w turn mirror g2 g3 g4 Hr HN Hn Hw Ax HB Hi S2 S3 S4 ((T2a & M2) & (T3a & M3) & (T4a & M4)) Sv Eh TM Dw.
    set (s := - (sqrt 3 / 2)) in *. set (sg := stay) in *. set (mu := stay) in *.
    assert (C : c3v N (m_w m) s sg mu) by apply linear_c3v.
    assert (G : placed N s sg mu (m_geom m)) by now apply linear_placed.
    assert (T2 : same2 (3 * N) turn g2) by apply same_third2, T2a.
    assert (T3 : same3 (3 * N) turn g3) by apply same_third3, T3a.
    assert (T4 : same4 (3 * N) turn g4) by apply same_third4, T4a.
    assert (Hs : is_sym_top (m_rotor m) = Some true) by (rewrite Hr; reflexivity).
    assert (Hl : is_linear (m_rotor m) = true) by (rewrite Hr; reflexivity).
    assert (Hq1 : m_rotor m <> SphericalTop) by (rewrite Hr; discriminate).
    assert (Hq2 : m_rotor m <> NoRotor) by (rewrite Hr; discriminate).
    assert (Ap : forall i j, (i < j)%nat -> (j < n)%nat -> w i = w j \/ 1 / 10 <= Rabs (w i - w j)).
    { intros i j H1 H2. destruct (lm_apart _ _ _ _ _ TM i j H1 H2); [now left|right; lra]. }
    destruct labels_end_R as (f0 & Hf0).
    destruct (harmonic_run N axes fc2 (m_w m) eig Sv) as (h & l0' & Eh' & ES & Hsrt).
    pose proof Eh as Eh2. rewrite Eh' in Eh2. apply some_eq3, pair_equal_spec in Eh2 as [Efr El]. subst l0'.
    pose proof ES as (Lh & _ & _).
    assert (Lf : length freq = (3 * N)%nat) by (rewrite <- Efr, map_length; exact Lh).
    assert (Wf : (fun i => nth i freq (nz 0)) = w) by (unfold w; rewrite nz_R; reflexivity).
    assert (Wv : forall i, (i < 3 * N)%nat -> w i = to_wavenumber (nth i h 0)).
    { intros i Hi'. unfold w. rewrite <- Efr. rewrite (nth_indep _ 0 (to_wavenumber 0)) by (rewrite map_length; lia). apply map_nth. }
    assert (Wh : forall i j, (i < 3 * N)%nat -> (j < 3 * N)%nat -> w i = w j <-> nth i h 0 = nth j h 0).
    { intros i j Hi' Hj. rewrite !Wv by assumption. split; [|now intros ->]. intros E0.
      destruct (Rtotal_order (nth i h 0) (nth j h 0)) as [L|[L|L]]; [|exact L|]; apply wavenumber_lemma in L; lra. }
    set (sec := secular N axes fc2 (m_w m)) in *.
    assert (Sg2 : sym2 (3 * N) g2) by (intros a b Ha Hb; now apply con2_sym).
    assert (Sec : forall a b, (a < 3 * N)%nat -> (b < 3 * N)%nat -> sec a b = weighted (m_w m) g2 a b) by (intros; now apply secular_R).
    assert (SA : sym2 (3 * N) sec).
    { intros a b Ha Hb. rewrite !Sec by assumption. unfold weighted. rewrite (Sg2 a b) by assumption. f_equal. apply Rmult_comm. }
    assert (Ssame : forall Q, same2 (3 * N) Q (weighted (m_w m) g2) -> same2 (3 * N) Q sec).
    { intros Q HQ a b Ha Hb. rewrite Sec, <- HQ by assumption. apply con2_g. intros. now apply Sec. }
    assert (PA : same2 (3 * N) turn sec).
    { apply Ssame, weighted_same; [apply (c3_msg _ _ _ _ _ C)|exact T2]. }
    assert (MA : same2 (3 * N) mirror sec).
    { apply Ssame, weighted_same; [apply (c3_mmu _ _ _ _ _ C)|exact M2]. }
    set (lx0 := make_lx (3 * N) (make_sqm (m_w m)) l0).
    destruct (align_total1 N n iatom order buddy w (m_w m) l0 lx0 (proj1 Hn) Hi (lm_apart _ _ _ _ _ TM) (lm_two _ _ _ _ _ TM) (lm_big _ _ _ _ _ TM))
      as (V & lx & Ea).
    destruct (three_modes n w (lm_w _ _ _ _ _ TM) Ap (lm_two _ _ _ _ _ TM) (m_rotor m) Hs)
      as (modes & Ed & Hp & N3 & Hf & HD & HS).
    pose proof (after_eigen1 N n iatom order buddy (m_w m) w h sec l0 lx0 V lx (nondeg modes) (degs modes) (proj2 Hn) Hi ES Wh TM Ea HS HD) as ESV.
    pose proof (after_behaves1 N n iatom order buddy (m_w m) w h sec l0 lx0 V lx (nondeg modes) (degs modes) (proj2 Hn) Hi SA PA MA ES Wh TM Ea HS HD) as BV.
    assert (ML : mass_weighted N (m_w m) V lx) by (apply (weighted_kept _ _ _ _ _ _ _ _ _ _ _ _ (make_lx_weighted _ _ _) Ea)).
    assert (Bn : forall k, In k (nondeg modes) -> (k < n)%nat) by (intros k Hk%HS; tauto).
    assert (Bt : forall i j, In (i, j) (degs modes) -> (i < n)%nat /\ (j < n)%nat) by (intros i j Hij%HD; lia).
    assert (BL : behaves (3 * N) turn mirror (sqrt 3 / 2) (nondeg modes) (degs modes) lx).
    { apply (behaves_mass N (m_w m) s sg mu) with (V := V); try assumption.
      - intros k Hk%Bn. lia.
      - intros i j Hij%Bt. lia. }
    destruct (eigen_normal N axes fc2 (m_w m) h V lx S2 Hw ESV ML) as (Q1 & Q2 & Q3). rewrite Efr in Q3.
    exists f0, lx, V, h. cbv zeta. split; [exact Q1|]. split; [exact Q2|]. split; [exact Q3|].
    split.
    { rewrite <- Efr. clear - Hsrt. induction Hsrt as [|x l Hl IH Hx]; cbn [map]; constructor; [exact IH|].
      apply Forall_map. eapply Forall_impl; [|exact Hx]. intros y Hy. cbv beta.
      destruct (Rle_lt_or_eq_dec y x (Rge_le _ _ Hy)) as [L|E]; [apply wavenumber_lemma in L; lra|rewrite E; lra]. }
    split; [exact Lf|]. split; [exact Efr|]. split; [exact SA|]. split; [exact ES|]. split; [exact ESV|]. split; [exact ML|].
    set (F3 := cubic_spec (3 * N) g3 lx w). set (F4 := quartic_spec (3 * N) g4 lx w).
    set (zeta := zeta_of N (fun a i => sqrt (m_w m (a / 3)%nat) * lx a i)) in *.
    assert (Z : forall i j a, (i < n)%nat -> (j < n)%nat -> zeta_of N V i j a = zeta i j a).
    { intros i j a Hi' Hj.
      assert (L : forall a i, (a < 3 * N)%nat -> (i < n)%nat -> V a i = sqrt (m_w m (a / 3)%nat) * lx a i).
      { intros a' i' Ha' Hi2. rewrite ML by lia.
        assert (0 < sqrt (m_w m (a' / 3)%nat)).
        { apply sqrt_lt_R0, Hw. apply Nat.div_lt_upper_bound; lia. }
        field. lra. }
      unfold zeta, zeta_of. apply Rsum_ext. intros q Hq%in_seq.
      rewrite (L (3 * q)%nat i), (L (3 * q + 1)%nat i), (L (3 * q + 2)%nat i),
        (L (3 * q)%nat j), (L (3 * q + 1)%nat j), (L (3 * q + 2)%nat j) by lia. reflexivity. }
    split; [exact Z|].
    intros fuel Hfu.
    destruct (run_prefix eig2 eig label A fuel buddy false m axes iatom order (Quartic fc2 f3x f4x)
      freq l0 V lx) as (irreps & Li & _ & Er).
    { exact Hq1. } { exact Hq2. } { now apply Hf0. } { exact Eh. }
    { unfold aligned. rewrite Hl, Wf, Hr. exact Ea. }
    rewrite Wf in Er.
    destruct (force3_lemma (3 * N) (rot3rd N (3 * N) axes f3x) lx n w (proj1 Hn) (proj1 (proj2 (rot_sym_lemma N axes)) f3x S3))
      as (f3l & E3 & _ & G3).
    destruct (force4_lemma (3 * N) (rot4th N (3 * N) axes f4x) lx n w (proj1 Hn) (proj2 (proj2 (rot_sym_lemma N axes)) f4x S4))
      as (f4l & E4 & _ & G4).
    fold N n in Er. rewrite E3 in Er. cbn [obind] in Er. rewrite E4 in Er. cbn [obind] in Er.
    destruct (finish_total_lemma eig2 m freq f3l f4l irreps V lx modes) as (o & Eo & Em & _); try assumption.
    { fold n. rewrite Wf. exact Ed. } { apply comparable_R. } { fold n. lia. } { intros Ha. congruence. }
    rewrite Eo in Er. cbn [obind] in Er. exists o, f3l, f4l, irreps. split; [exact Er|]. split; [exact Eo|].
    rewrite Em. split; [exact HD|]. split; [exact HS|]. split; [exact BV|].
    set (f3 := fun i j k => nth (find3 i j k) f3l 0). set (f4 := fun i j k l => nth (find4 i j k l) f4l 0).
    assert (X3 : forall i j k, (i < n)%nat -> (j < n)%nat -> (k < n)%nat -> F3 i j k = f3 i j k).
    { intros i j k Hi' Hj Hk. unfold f3. pose proof (G3 i j k Hi' Hj Hk) as G3'. unfold f3qcm_get in G3'. rewrite (nth_error_nth _ _ 0 G3').
      unfold F3, cubic_spec. f_equal. apply con3_g. intros. symmetry. now apply rot3rd_lemma. }
    assert (X4 : forall i j k l, (i < n)%nat -> (j < n)%nat -> (k < n)%nat -> (l < n)%nat -> F4 i j k l = f4 i j k l).
    { intros i j k l Hi' Hj Hk Hl'. unfold f4. pose proof (G4 i j k l Hi' Hj Hk Hl') as G4'. unfold f4qcm_get in G4'. rewrite (nth_error_nth _ _ 0 G4').
      unfold F4, quartic_spec. f_equal. apply con4_g. intros. symmetry. now apply rot4th_lemma. }
    assert (Ws : forall a b, In (a, b) (degs modes) -> w a = w b) by (intros a b Hab%HD; tauto).
    assert (TF : top_field n modes w f3 f4 (zeta_of N V) B (m_rotor m) (wila N (m_geom m) (m_w m) V)).
    { constructor.
      - exact Hp.
      - exact N3.
      - exact Hf.
      - intros i Hi'. pose proof (lm_w _ _ _ _ _ TM i Hi'). lra.
      - intros i j k Hi' Hj Hk E0. apply (Dw i j k Hi' Hj Hk). lra.
      - intros; unfold f3; f_equal; apply find3_perm, perm_swap.
      - intros; unfold f3; f_equal; apply find3_perm, perm_skip, perm_swap.
      - intros; unfold f4; f_equal; apply find4_perm, perm_swap.
      - intros; unfold f4; f_equal; apply find4_perm, perm_skip, perm_swap.
      - intros; unfold f4; f_equal; apply find4_perm, perm_skip, perm_skip, perm_swap.
      - intros. apply zeta_of_anti.
      - exists 1%nat. split.
        + now apply (cor_axis_3 N (m_w m) s sg mu C (m_geom m) G (sqrt 3 / 2) (nondeg modes) (degs modes) V h3 BV).
        + apply (axial_ext n _ _ _ F3 f3 F4 f4 _ _ _ Bn Bt X3 X4).
          apply (axial_three N (m_w m) s sg mu (nondeg modes) (degs modes) w B V lx g3 g4); try assumption.
          intros a b c d _ _ _ _. repeat split; [apply con4_12|apply con4_23|apply con4_34]; intros; now apply S4. }
    split; [exact X3|]. split; [exact X4|]. split; [|exact TF].
    destruct (finish_inv _ _ _ _ _ _ _ _ _ Eo) as (sym & x & g & e0 & lev & eng & rows & _ & Ers & _).
      destruct (restst_total (m_rotor m) (m_nvib m) (zmat (m_natom m) V) (fun i j k => nth (find3 i j k) f3l (nz 0)) (fun i => nth i freq (nz 0)) modes)
        as (rs & Ers' & _ & Ert & _); try assumption.
      { fold n. rewrite Wf. exact Ed. } { apply comparable_R. }
      rewrite Ers in Ers'. apply some_eq3 in Ers'. rewrite Ers'. exact Ert.
  Qed.

  Lemma run_linear_lemma m axes iatom order buddy fc2 f3x f4x freq l0 :
    let N := m_natom m in
    let n := m_nvib m in
    let B := m_rotcon m in
    let w := fun i => nth i freq 0 in
    let g2 := con2 (3 * N) (every_atom axes) fc2 in
    let g3 := con3 (3 * N) (every_atom axes) f3x in
    let g4 := con4 (3 * N) (every_atom axes) f4x in
    m_rotor m = Linear ->
    (0 < N)%nat -> (0 < n <= 3 * N)%nat ->
    (forall q, (q < N)%nat -> 0 < m_w m q) ->
    on_axis N (m_geom m) -> B 0%nat = B 1%nat -> B 2%nat = 0 ->
    (iatom < N)%nat ->
    sym2 (3 * N) fc2 -> tsym3 (3 * N) f3x -> tsym4 (3 * N) f4x ->
    axially_symmetric N g2 g3 g4 ->
    solves (3 * N) eig (secular N axes fc2 (m_w m)) ->
    harmonic N axes fc2 (m_w m) eig = Some (freq, l0) ->
    linear_modes N n iatom w l0 ->
    (forall i j k, (i < n)%nat -> (j < n)%nat -> (k < n)%nat -> w i + w j <> w k) ->
    exists fuel0 lx,
      let hess := fun a b => FACT2 * g2 a b in
      let F3 := cubic_spec (3 * N) g3 lx w in
      let F4 := quartic_spec (3 * N) g4 lx w in
      let zeta := zeta_of N (fun a i => sqrt (m_w m (a / 3)%nat) * lx a i) in
      (forall i j, (i < 3 * N)%nat -> (j < 3 * N)%nat ->
         Sum (3 * N) (fun a => m_w m (a / 3)%nat * lx a i * lx a j) = (if Nat.eqb i j then 1 else 0)) /\
      (forall i j, (i < 3 * N)%nat -> (j < 3 * N)%nat -> i <> j -> con2 (3 * N) lx hess i j = 0) /\
      (forall i, (i < 3 * N)%nat -> nth_error freq i = Some (to_wavenumber (con2 (3 * N) lx hess i i))) /\
      StronglySorted Rge freq /\
      forall fuel, (fuel0 <= fuel)%nat ->
      exists o, run eig2 eig label A fuel buddy false m axes iatom order (Quartic fc2 f3x f4x) = Some (FullResult o) /\
      let modes := rs_modes (out_resonances o) in
      (forall i j, In (i, j) (degs modes) <-> (i < j < n)%nat /\ w i = w j) /\
      (forall i, In i (nondeg modes) <-> (i < n)%nat /\ forall j, (j < n)%nat -> j <> i -> w j <> w i) /\
      (rs_fermi1 (out_resonances o) = [] -> rs_fermi2 (out_resonances o) = [] ->
       let listed := nondeg modes ++ firsts modes in
       o_harms (out_lists o) = map w listed /\ o_funds (out_lists o) = o_corrs (out_lists o) /\
       length (o_corrs (out_lists o)) = length listed /\
       forall us0, intermediate n F3 ground us0 ->
         out_zpt o = perturbed n w F3 F4 zeta B none ground us0 + angular_shift n zeta B
           + Rsum (firsts modes) (se_ddn w F3 none (nondeg modes) (firsts modes)) /\
         (length (degs modes) = 1%nat ->
          out_zpt o = perturbed n w F3 F4 zeta B none ground us0 + angular_shift n zeta B) /\
         forall p k us, nth_error listed p = Some k -> intermediate n F3 (one k) us ->
           nth_error (o_corrs (out_lists o)) p
           = Some (perturbed n w F3 F4 zeta B none (one k) us - perturbed n w F3 F4 zeta B none ground us0)).
  Proof.
    intros N n B w g2 g3 g4 Hr HN Hn Hw Ax HB HB2 Hi S2 S3 S4 AS Sv Eh TM Dw.
    destruct (run_linear_core m axes iatom order buddy fc2 f3x f4x freq l0 Hr HN Hn Hw Ax HB Hi S2 S3 S4 AS Sv Eh TM Dw)
      as (f0 & lx & V & h & Q1 & Q2 & Q3 & Q4 & _ & _ & _ & _ & _ & ML & Z & Q).
    exists f0, lx. cbv zeta. split; [exact Q1|]. split; [exact Q2|]. split; [exact Q3|]. split; [exact Q4|].
    intros fuel Hfu. destruct (Q fuel Hfu) as (o & f3l & f4l & irreps & Er & Eo & HD & HS & BV & X3 & X4 & Et & TF). clear Q.
    exists o. split; [exact Er|]. split; [exact HD|]. split; [exact HS|]. intros N1 N2.
    assert (Hs : is_sym_top (m_rotor m) = Some true) by (rewrite Hr; reflexivity).
    set (modes := rs_modes (out_resonances o)) in *.
    assert (Bn : forall k, In k (nondeg modes) -> (k < n)%nat) by (intros k Hk%HS; tauto).
    assert (Bt : forall i j, In (i, j) (degs modes) -> (i < n)%nat /\ (j < n)%nat) by (intros i j Hij%HD; lia).
    set (F3 := cubic_spec (3 * N) g3 lx w) in *. set (F4 := quartic_spec (3 * N) g4 lx w) in *.
    set (zeta := zeta_of N (fun a i => sqrt (m_w m (a / 3)%nat) * lx a i)) in *.
    set (f3 := fun i j k => nth (find3 i j k) f3l 0) in *. set (f4 := fun i j k l => nth (find4 i j k l) f4l 0) in *.
    destruct (finish_top eig2 m freq f3l f4l irreps V lx o Hs Eo Et TF N1 N2) as (R1 & R2 & R3 & R4).
    fold modes in R1, R2, R3, R4. change (OutputFacts.listed modes) with (nondeg modes ++ firsts modes) in *.
    split; [exact R1|]. split; [exact R2|]. split; [exact R3|].
    intros us0 H0. destruct (R4 us0) as [R5 R6].
    { apply (intermediate_ext n F3); assumption. }
    fold N n w B f3 f4 in R5, R6.
    rewrite !(perturbed_ext n w f3 F3 f4 F4), (perturbed_zeta n w F3 F4 _ zeta), (angular_shift_ext n _ zeta) in R5
      by (exact Z || (intros; symmetry; now apply X3) || (intros; symmetry; now apply X4)).
    assert (BL : behaves (3 * N) (op stay (third (- (sqrt 3 / 2)))) (op stay flip) (sqrt 3 / 2) (nondeg modes) (degs modes) lx).
    { apply (behaves_mass N (m_w m) (- (sqrt 3 / 2)) stay stay) with (V := V); try assumption.
      - apply linear_c3v.
      - intros k Hk%Bn. lia.
      - intros i j Hij%Bt. lia. }
    assert (Bf : forall k, In k (firsts modes) -> (k < n)%nat).
    { intros k ([i j] & <- & Hij)%in_map_iff. now apply (Bt i j). }
    assert (V3 : forall i j k, In i (firsts modes) -> In j (firsts modes) -> In k (firsts modes) -> f3 i j k = 0).
    { intros i j k Hi' Hj Hk. transitivity (F3 i j k); [symmetry; apply X3; now apply Bf|]. unfold F3, cubic_spec.
      rewrite (cubic_three N (m_w m) (nondeg modes) (degs modes) lx g3 BL (proj1 (proj1 (proj2 AS)) PI) i j k Hi' Hj Hk).
      unfold Rdiv. ring. }
    assert (Bb : forall k q, In k (below q (firsts modes)) -> In k (firsts modes)) by (intros k q [Hk _]%filter_In; exact Hk).
    assert (Gap : e0_gap (m_rotor m) modes w f3 = Rsum (firsts modes) (se_ddn w F3 none (nondeg modes) (firsts modes))).
    { unfold e0_gap. rewrite Hr. cbn [is_linear].
      replace (se_ddd w f3 none (firsts modes)) with 0.
      2:{ unfold se_ddd. symmetry. apply Rsum_0. intros a Ha. apply Rsum_0. intros b Hb%Bb. apply Rsum_0. intros d Hd%Bb.
          rewrite V3 by assumption. unfold Rsqr. ring. }
      replace (se_dd w f3 none (firsts modes)) with 0.
      2:{ unfold se_dd. symmetry. apply Rsum_0. intros a Ha. apply Rsum_0. intros b [Hb _]%filter_In.
          rewrite V3 by assumption. unfold Rsqr. unfold Rdiv. ring. }
      rewrite Rplus_0_r, Rminus_0_r. apply Rsum_ext. intros k Hk. unfold se_ddn. apply Rsum_ext. intros l Hl%Bb. apply Rsum_ext.
      intros p Hp%Bn. apply Bf in Hk, Hl. pose proof (X3 k l p Hk Hl Hp) as Q. cbv beta. do 3 f_equal. symmetry. exact Q. }
    assert (R7 : out_zpt o = perturbed n w F3 F4 zeta B none ground us0 + angular_shift n zeta B
      + Rsum (firsts modes) (se_ddn w F3 none (nondeg modes) (firsts modes))).
    { rewrite R5, Gap. replace (Rsum (degs modes) _) with 0; [ring|]. symmetry. apply Rsum_0. intros. rewrite HB2. ring. }
    split; [exact R7|]. split.
    - intros L1. rewrite R7. replace (Rsum (firsts modes) _) with 0; [ring|].
      unfold firsts. destruct (degs modes) as [|[a b] [|p l]]; cbn in L1; try discriminate. cbn [map fst].
      unfold se_ddn, below. cbn [Rsum fold_right filter]. rewrite Nat.ltb_irrefl. cbn. ring.
    - intros p k us Hpk Hu. rewrite (R6 p k us Hpk) by (apply (intermediate_ext n F3); assumption).
      rewrite !(perturbed_ext n w f3 F3 f4 F4), !(perturbed_zeta n w F3 F4 (zeta_of N V) zeta)
        by (exact Z || (intros; symmetry; now apply X3) || (intros; symmetry; now apply X4)). reflexivity.
  Qed.
End RunLinear.

(** the modes after the alignment, atom by atom *)
Lemma alignment_linear_lemma N n c order buddy m w h A V lx V' lx' :
  (n <= 3 * N)%nat -> (c < N)%nat ->
  sym2 (3 * N) A -> (forall th, same2 (3 * N) (turned_by th) A) -> same2 (3 * N) mirrored A ->
  eigen_system (3 * N) A h V ->
  (forall i j, (i < 3 * N)%nat -> (j < 3 * N)%nat -> w i = w j <-> nth i h 0 = nth j h 0) ->
  linear_modes N n c w V ->
  bdegnl true N n c order buddy w m V lx = Some (V', lx') ->
  (forall i, (i < n)%nat -> (forall j, (j < n)%nat -> j <> i -> w j <> w i) -> forall q, (q < N)%nat ->
     V' (3 * q)%nat i = 0 /\ V' (3 * q + 1)%nat i = 0) /\
  (forall i j, (i < j < n)%nat -> w i = w j -> forall q, (q < N)%nat ->
     V' (3 * q + 1)%nat i = 0 /\ V' (3 * q + 2)%nat i = 0 /\
     V' (3 * q)%nat j = 0 /\ V' (3 * q + 2)%nat j = 0 /\ V' (3 * q + 1)%nat j = - V' (3 * q)%nat i).
Proof.
  intros Hn Hc SA TA MA ES Wh TM E.
  assert (Ap : forall i j, (i < j)%nat -> (j < n)%nat -> w i = w j \/ 1 / 10 <= Rabs (w i - w j)).
  { intros i j H1 H2. destruct (lm_apart _ _ _ _ _ TM i j H1 H2); [now left|right; lra]. }
  destruct (three_modes n w (lm_w _ _ _ _ _ TM) Ap (lm_two _ _ _ _ _ TM) Linear eq_refl)
    as (modes & _ & _ & _ & _ & HD & HS).
  assert (PA : same2 (3 * N) (op stay (third (- (sqrt 3 / 2)))) A) by apply same_third2, TA.
  pose proof (after_behaves1 N n c order buddy m w h A V lx V' lx' (nondeg modes) (degs modes) Hn Hc SA PA MA ES Wh TM E HS HD) as BV.
  split.
  - intros i Hi Hs q Hq. apply (still_axis N m (fun a => V' a i) q Hq). intros b Hb.
    apply (bh_single _ _ _ _ _ _ _ BV i); [|exact Hb]. apply HS. auto.
  - intros i j Hij Ew q Hq. assert (Hd : In (i, j) (degs modes)) by (apply HD; auto).
    destruct (bend_plane N m (nondeg modes) (degs modes) V' BV i j q Hd Hq) as [Zi Zj].
    destruct (bh_pair _ _ _ _ _ _ _ BV i j Hd (3 * q)%nat ltac:(lia)) as (_ & _ & _ & M0).
    destruct (bh_pair _ _ _ _ _ _ _ BV i j Hd (3 * q + 1)%nat ltac:(lia)) as (P1 & _ & M1 & _).
    replace (3 * q)%nat with (3 * q + 0)%nat in M0 at 1 by lia.
    rewrite (mirror_at N m _ stay stay (linear_c3v N m)) in M0, M1 by (assumption || lia).
    change (3 * q + 1)%nat with (3 * stay q + 1)%nat in P1 at 1.
    rewrite (turn_to N m _ stay stay (linear_c3v N m)), sum_3 in P1 by (assumption || lia).
    unfold stay in M0, M1. rewrite Nat.add_0_r in M0, P1. cbn [flip third] in M0, M1, P1. pose proof h3_pos as H0. set (k := sqrt 3 / 2) in *.
    assert (Y : V' (3 * q + 1)%nat i = 0) by lra. assert (X : V' (3 * q)%nat j = 0) by lra.
    repeat split; try assumption. rewrite Y in P1. apply Rmult_eq_reg_l with k; lra.
Qed.
