(** Molecules with a threefold axis and a mirror plane: the rotational constants of a run. *)
From Coq Require Import Reals Lra List ZArith Arith Lia Bool Permutation Sorted FunctionalExtensionality.
From Verif Require Import Num Loops ListFacts Index LoadFacts Modes ModesFacts ResFacts
  StatesFacts IndexFacts Anharm AnharmFacts EnergyFacts VibRot Distort Transform TransformFacts
  RotFacts NormalFacts HarmFacts ModeFacts ZeroFacts DistortFacts EckartFacts InertiaFacts SymAnharm
  Polyads Report OutputFacts VibRotFacts SymRotFacts Geom IrrepFacts Finish FinishFacts
  PerturbFacts PerturbLevels SymE0 SymExact VibPerturb SymVib SymPerturb SymLevels SymFacts RunFacts RunSecond RunRot TopRun AlignExact
  Threefold ThreeForm ThreeModes ThreeRun ThreeRot.
Import ListNotations.
Open Scope nat_scope.
Local Open Scope R_scope.

(** eigenvectors of nonzero frequency do not turn the molecule *)
Lemma eigen_eckart N axes f (w : nat -> R) (geom : nat -> R * R * R) h V :
  sym2 (3 * N) f -> (forall q, (q < N)%nat -> 0 < w q) -> orth 3 axes ->
  rotation_free N f (input_position axes geom) ->
  eigen_system (3 * N) (secular N axes f w) h V ->
  forall i x, nth_error h i = Some x -> x <> 0 -> eckart N geom w V i.
Proof.
  intros Sy Hw HO Hf ES i x Ex Nx a b Ha Hb.
  set (G := fun x c : nat => delta x b * delta c a - delta x a * delta c b).
  set (e := fun q x => Sum 3 (fun c => G x c * comp (geom q) c)).
  assert (Nd : null (3 * N) f (moved axes e)) by (apply turn_null; try assumption; intros j k; unfold G; ring).
  assert (ES' : eigen_system (3 * N) (weighted w f) h (mprod (3 * N) (every_atom axes) V)).
  { eapply eigen_turn; [apply every_atom_orth, HO|]. eapply eigen_system_ext; [|exact ES].
    intros c d Hc Hd. rewrite secular_R by assumption. now apply weighted_turn. }
  pose proof (null_overlap _ _ _ _ _ _ _ (weighted_sym N w f Sy) ES' (weighted_null N f w Hw _ Nd) Ex Nx) as Q.
  rewrite <- Q.
  transitivity (Sum (3 * N) (fun c => V c i * sqrt (w (c / 3)%nat) * con1 (3 * N) (every_atom axes) (moved axes e) c)).
  - rewrite sum_blocks. apply sum_g. intros q Hq.
    transitivity (Sum 3 (fun x => sqrt (w q) * e q x * V (3 * q + x)%nat i)).
    + unfold e, G. rewrite !sum_3.
      destruct a as [|[|[|a]]]; try lia; destruct b as [|[|[|b]]]; try lia; unfold delta; cbn [Nat.eqb]; ring_simplify;
        rewrite ?Nat.add_0_r; ring.
    + apply sum_g. intros y Hy. rewrite (moved_back N axes w geom Hw HO e q y Hq Hy), div_block by exact Hy. ring.
  - transitivity (Sum (3 * N) (fun c => Sum (3 * N) (fun r => every_atom axes r c * moved axes e r * sqrt (w (r / 3)%nat) * V c i))).
    + apply sum_g. intros c Hc. unfold con1. rewrite <- Rsum_scal. apply sum_g. intros r Hr. unfold every_atom.
      destruct (Nat.eqb_spec (r / 3) (c / 3)) as [->|]; ring.
    + rewrite Rsum_swap. apply sum_g. intros r Hr. unfold mprod. rewrite <- Rsum_scal. apply sum_g. intros. ring.
Qed.

(** the vibrations excited in the state at position [p] of the report *)
Definition excited (l : list nat) (p : nat) : occ := match p with O => ground | S q => one (nth q l 0%nat) end.

(** the states of the table and the vibrations they excite *)
Section Excited.
  Variables (n : nat) (modes : list mode) (w : nat -> R) (f3 : nat -> nat -> nat -> R)
    (f4 : nat -> nat -> nat -> nat -> R) (zeta : nat -> nat -> nat -> R) (B : nat -> R)
    (r : rotor) (wl : nat -> nat -> R).
  Hypothesis TF : top_field n modes w f3 f4 zeta B r wl.

  Lemma excited_filled p st :
    nth_error (I1st (repeat 0%nat n)
      :: map (fun p => I1st (unit1 n p 1)) (seq 0 (length (nondeg modes)))
      ++ map (fun p => I2st (punit1 n p (1, 1)%nat)) (seq 0 (length (degs modes)))) p = Some st ->
    filled modes st (excited (nondeg modes ++ firsts modes) p).
  Proof.
    pose proof (Hpart n modes w f3 f4 zeta B r wl TF) as HP.
    pose proof (tf_modes _ _ _ _ _ _ _ _ _ TF) as Hm.
    assert (Nn : NoDup (nondeg modes ++ flat_map (fun '(a, b) => [a; b]) (degs modes))).
    { eapply Permutation_NoDup; [symmetry; exact HP|apply seq_NoDup]. }
    pose proof (NoDup_app_inv _ _ Nn) as (ND1 & ND2 & DJ).
    assert (L1 : (length (nondeg modes) <= n)%nat /\ (length (degs modes) <= n)%nat).
    { pose proof (part_counts n modes Hm) as Hc. rewrite n1dm_len, n2dm_len in Hc. lia. }
    destruct L1 as [L1 L2].
    assert (UN : forall i q y, (i < n)%nat -> nth i (unit1 n q y) 0%nat = if (i =? q)%nat then y else 0%nat).
    { intros i q y Hi. unfold unit1. now rewrite (nth_map_seq (fun a => if (a =? q)%nat then y else 0%nat)). }
    assert (PN : forall i q y, (i < n)%nat -> nth i (punit1 n q y) (0, 0)%nat = if (i =? q)%nat then y else (0, 0)%nat).
    { intros i q y Hi. unfold punit1. now rewrite (nth_map_seq (fun a => if (a =? q)%nat then y else (0, 0)%nat)). }
    pose proof (sorted_nodup _ (tf_sorted _ _ _ _ _ _ _ _ _ TF)) as NDf.
    assert (PD : forall i a b, nth_error (degs modes) i = Some (a, b) -> forall j c d, nth_error (degs modes) j = Some (c, d) ->
      (a = c \/ b = c) -> i = j /\ a = c).
    { intros i a b Hi j c' d Hj Hor.
      pose proof (nth_error_In _ _ Hi) as Ii. pose proof (nth_error_In _ _ Hj) as Ij.
      destruct Hor as [->| ->].
      - split; [|reflexivity]. apply (NoDup_nth_eq (firsts modes) i j c' NDf); unfold firsts; rewrite nth_error_map; [rewrite Hi|rewrite Hj]; reflexivity.
      - exfalso. exact (proj1 (pair_facts (degs modes) (c', d) (a, c') ND2 Ij Ii) eq_refl). }
    destruct p as [|p].
    { cbn [nth_error]. intros E. injection E as <-. split.
      - intros p k _. cbn [state_i1 excited]. now rewrite nth_repeat_0.
      - intros p s t _. cbn [state_i2 excited]. rewrite nth_repeat_00. reflexivity. }
    cbn [nth_error excited]. intros E.
    destruct (Nat.lt_ge_cases p (length (nondeg modes))) as [C|C].
    - rewrite nth_error_app1 in E by (rewrite map_length, seq_length; lia).
      rewrite nth_error_map_seq in E by exact C. injection E as <-.
      rewrite app_nth1 by exact C.
      assert (Hk : nth_error (nondeg modes) p = Some (nth p (nondeg modes) 0%nat)) by (apply nth_error_nth'; lia).
      set (k := nth p (nondeg modes) 0%nat) in *. split.
      + intros i k' Hi. cbn [state_i1].
        assert (i < length (nondeg modes))%nat by (apply nth_error_Some; congruence).
        rewrite UN by lia. unfold one. destruct (Nat.eqb_spec i p) as [->|Ni].
        * assert (k' = k) as -> by congruence. now rewrite Nat.eqb_refl.
        * destruct (Nat.eqb_spec k' k) as [->|]; [|reflexivity]. elim Ni. exact (NoDup_nth_eq _ _ _ _ ND1 Hi Hk).
      + intros i a b Hi. cbn [state_i2]. rewrite nth_repeat_00.
        cbn [fst]. unfold one. apply nth_error_In in Hi. apply nth_error_In in Hk.
        destruct (Nat.eqb_spec a k) as [->|]; [|destruct (Nat.eqb_spec b k) as [->|]; [|reflexivity]];
          elim (DJ k Hk); apply in_flat_map; eexists; (split; [exact Hi|]); cbn; auto.
    - rewrite nth_error_app2 in E by (rewrite map_length, seq_length; lia).
      rewrite map_length, seq_length in E. rewrite app_nth2 by exact C.
      set (q := (p - length (nondeg modes))%nat) in *.
      assert (Hq' : (q < length (degs modes))%nat).
      { assert (Q : nth_error (map (fun p => I2st (punit1 n p (1%nat, 1%nat))) (seq 0 (length (degs modes)))) q <> None) by congruence.
        apply nth_error_Some in Q. now rewrite map_length, seq_length in Q. }
      rewrite nth_error_map_seq in E by exact Hq'. injection E as <-.
      destruct (nth_error (degs modes) q) as [[k k2]|] eqn:Hq; [|apply nth_error_None in Hq; lia].
      pose proof (nth_error_In _ _ Hq) as Iq.
      replace (nth q (firsts modes) 0%nat) with k.
      2:{ symmetry. apply nth_error_nth. unfold firsts. now rewrite nth_error_map, Hq. }
      split.
      + intros i k' Hi. cbn [state_i1]. rewrite nth_repeat_0.
        unfold one. destruct (Nat.eqb_spec k' k) as [->|]; [|reflexivity].
        apply nth_error_In in Hi. elim (DJ k Hi). apply in_flat_map. exists (k, k2). cbn. auto.
      + intros i a b Hi. cbn [state_i2].
        assert (i < length (degs modes))%nat by (apply nth_error_Some; congruence).
        rewrite PN by lia. unfold one. destruct (Nat.eqb_spec i q) as [->|Ni].
        * assert (a = k /\ b = k2) as [-> ->] by (split; congruence). rewrite Nat.eqb_refl.
          destruct (Nat.eqb_spec k2 k) as [->|]; [|reflexivity].
          exfalso. exact (proj1 (pair_facts (degs modes) (k, k) (k, k) ND2 Iq Iq) eq_refl).
        * destruct (Nat.eqb_spec a k) as [->|]; [elim Ni; exact (proj1 (PD i k b Hi q k k2 Hq (or_introl eq_refl)))|].
          destruct (Nat.eqb_spec b k) as [->|]; [elim Ni; exact (proj1 (PD i a k Hi q k k2 Hq (or_intror eq_refl)))|]. reflexivity.
  Qed.
End Excited.

(** what the code for oblate tops loses: the terms of the derivatives of the element xz of the inertia tensor *)
Definition lost_about (w B J : nat -> R) (a : nat -> nat -> nat -> R) (ts : list (nat * nat)) (x : nat) (v : occ) : R :=
  per_pair ts (fun s => match x with
    | 2%nat => 2 * B 2%nat ^ 2 / w s * (3 / 4 * (a s 0%nat 2%nat ^ 2 / J 1%nat))
    | _ => 2 * B 1%nat ^ 2 / w s * (3 / 8 * (a s 0%nat 2%nat ^ 2 / J 2%nat))
    end) v.

Section Consts.
  Context {I : Type}.
  Variable eig2 : R -> R -> R -> R * R * (R * R).

  Lemma finish_rot_top m freql f3l f4l (irreps : list I) lxm lx o K lam rep :
    let n := m_nvib m in
    let w := fun i => nth i freql 0 in
    let zeta := zeta_of (m_natom m) lxm in
    let wl := wila (m_natom m) (m_geom m) (m_w m) lxm in
    let B := m_rotcon m in
    let J := m_primat m in
    let q := out_quartic o in
    let modes := rs_modes (out_resonances o) in
    let f3 := fun i j k => nth (find3 i j k) f3l 0 in
    let f4 := fun i j k l => nth (find4 i j k l) f4l 0 in
    let listed := nondeg modes ++ firsts modes in
    m_rotor m = OblateSymmTop \/ m_rotor m = ProlateSymmTop ->
    finish eig2 false m freql f3l f4l irreps lxm lx = Some o ->
    restst_tables n (ioff (n + 1)) modes = Some (rs_tables (out_resonances o)) ->
    top_field n modes w f3 f4 zeta B (m_rotor m) wl ->
    axial_inertia (nondeg modes) (degs modes) wl J 0 ->
    (forall i j, (i < n)%nat -> (j < n)%nat -> i <> j -> ~ In (i, j) (degs modes) -> ~ In (j, i) (degs modes) -> w i <> w j) ->
    rs_coriolis (out_resonances o) = [] ->
    2 * K * lam ^ 2 = 1 -> (forall y, (y < 3)%nat -> 0 < J y) -> (forall y, (y < 3)%nat -> B y = K / J y) ->
    (forall i j, rep i j = true <-> In (i, j) (degs modes) \/ In (j, i) (degs modes)) ->
    let a := fun k y z => wl k (acol y z) in
    let change := fun v x => rot_const n w f3 zeta a J K lam rep x v - B x + rounding_term n B w a f3 lam x v in
    let across := fun v => / 2 * (change v 0%nat + change v 1%nat) in
    map rot_state (out_rots o) =
      I1st (repeat 0%nat n)
      :: map (fun p => I1st (unit1 n p 1)) (seq 0 (length (nondeg modes)))
      ++ map (fun p => I2st (punit1 n p (1, 1)%nat)) (seq 0 (length (firsts modes))) /\
    forall p c, nth_error (out_rots o) p = Some c ->
      let v := excited listed p in
      (m_rotor m = OblateSymmTop ->
         rot_a c = bys q + across v - lost_about w B J a (degs modes) 0 v /\
         rot_b c = bxs q + across v - lost_about w B J a (degs modes) 1 v /\
         rot_c c = bzs q + change v 2%nat - lost_about w B J a (degs modes) 2 v) /\
      (m_rotor m = ProlateSymmTop ->
         rot_a c = bys q + change v 2%nat /\ rot_b c = bxs q + across v /\ rot_c c = bzs q + across v).
  Proof.
    intros n w zeta wl B J q modes f3 f4 listed Hr E Et TF AI apart Hc HK HJ HB Hrep a change across.
    destruct (finish_inv _ _ _ _ _ _ _ _ _ E) as (sym & xm & g & e0 & lev & eng & rows & _ & _ & Es & _ & _ & _ & _ & _ & Ea & Eo & _).
    assert (Hs : is_sym_top (m_rotor m) = Some true) by (destruct Hr as [-> | ->]; reflexivity).
    assert (Hsp : is_spherical_top (m_rotor m) = false) by (destruct Hr as [-> | ->]; reflexivity).
    rewrite Hs in Es. injection Es as <-. cbn [orb] in Ea, Eo. rewrite Hsp in Eo.
    assert (Wf : (fun i => nth i freql (nz 0)) = w) by (unfold w; rewrite nz_R; reflexivity).
    assert (F3 : (fun i j k => nth (find3 i j k) f3l (nz 0)) = f3) by (unfold f3; rewrite nz_R; reflexivity).
    assert (Z : zmat (m_natom m) lxm = zeta).
    { unfold zeta. extensionality i. extensionality j. extensionality b. apply zeta_of_zmat. }
    rewrite Wf, F3, Z, Hc in Ea. fold modes B J wl in Ea, Eo.
    destruct (rots_lemma n modes (m_rotor m) B J w wl zeta f3 [] (bxs q) (bys q) (bzs q)
      (tf_modes _ _ _ _ _ _ _ _ _ TF)) as (t & rows' & out & gg & Et' & Ea' & Eo' & St & Cs & _).
    { destruct Hr as [-> | ->]; discriminate. } { destruct Hr as [-> | ->]; discriminate. }
    assert (t = rs_tables (out_resonances o)) as -> by congruence.
    rewrite Ea in Ea'. apply some_eq3 in Ea'. subst rows'.
    fold q in Eo. rewrite Eo in Eo'. apply some_eq3 in Eo'. rewrite <- Eo' in St, Cs.
    split. { rewrite St. unfold firsts. now rewrite map_length. }
    intros p c Hp v.
    assert (Hst : nth_error (map rot_state (out_rots o)) p = Some (rot_state c)) by (rewrite nth_error_map, Hp; reflexivity).
    rewrite St in Hst.
    pose proof (excited_filled n modes w f3 f4 zeta B (m_rotor m) wl TF p _ Hst) as Fi.
    fold listed in Fi. fold v in Fi.
    destruct (states_gap n modes w f3 f4 zeta B J (m_rotor m) wl Hr TF AI apart K lam rep HK HJ HB Hrep _ _ Fi) as [G1 G2].
    destruct (Cs c (nth_error_In _ _ Hp)) as (C1 & C2 & C3).
    destruct (tf_axial _ _ _ _ _ _ _ _ _ TF) as (ax & _ & Ax). pose proof (axial_b _ _ _ _ _ _ _ _ Ax) as B01.
    cbv beta in G1, G2. fold a in G1, G2.
    assert (RO : forall x, rounding n B w wl f3 lam x v = rounding_term n B w a f3 lam x v) by reflexivity.
    rewrite (RO 0%nat), (RO 1%nat) in G1. rewrite (RO 2%nat) in G2.
    cbv zeta in C1, C2, C3. rewrite G1 in C1, C2, C3. rewrite G2 in C2, C3.
    unfold across, change.
    split; intros Er; rewrite Er in *; cbn [is_prolate] in *.
    - destruct (C2 eq_refl) as [Ca Cc]. rewrite Ca, Cc, C1.
      assert (P1 : forall x, (x < 2)%nat -> lost_about w B J a (degs modes) x v = per_pair (degs modes) (lost_perp w B J wl) v).
      { intros [|[|x]] Hx; [reflexivity..|lia]. }
      rewrite !P1 by lia. change (lost_about w B J a (degs modes) 2 v) with (per_pair (degs modes) (lost_axis w B J wl) v).
      repeat split; lra.
    - destruct (C3 eq_refl) as [Ca Cc]. rewrite Ca, Cc, C1. repeat split; lra.
  Qed.
End Consts.

(** no Coriolis resonance between frequencies more than 200 apart *)
Lemma cor_test_far (freq : nat -> R) zm i j ax l : 200 < Rabs (freq i - freq j) -> cor_test freq zm i j ax l = [].
Proof.
  intros H. unfold cor_test. cbn [nleb nabs nsub Rnum].
  replace (Rleb (Rabs (freq i - freq j)) CTOL) with false; [reflexivity|].
  symmetry. apply Bool.not_true_is_false. intros E. apply Rleb_true in E. unfold CTOL in E. rewrite ?nz_R in E. lra.
Qed.
Section Far.
  Context {I : Type}.
  Variable eig2 : R -> R -> R -> R * R * (R * R).
  Lemma finish_far_any m freql f3l f4l (irreps : list I) lxm lx o :
    let n := m_nvib m in
    let w := fun i => nth i freql 0 in
    let modes := rs_modes (out_resonances o) in
    m_rotor m = OblateSymmTop \/ m_rotor m = ProlateSymmTop \/ m_rotor m = Linear ->
    finish eig2 false m freql f3l f4l irreps lxm lx = Some o ->
    top_field n modes w (fun i j k => nth (find3 i j k) f3l 0) (fun i j k l => nth (find4 i j k l) f4l 0)
      (zeta_of (m_natom m) lxm) (m_rotcon m) (m_rotor m) (wila (m_natom m) (m_geom m) (m_w m) lxm) ->
    (forall i j, In (i, j) (degs modes) <-> (i < j < n)%nat /\ w i = w j) ->
    (forall i j, (i < n)%nat -> (j < n)%nat -> w i = w j \/ 200 < Rabs (w i - w j)) ->
    rs_coriolis (out_resonances o) = [].
  Proof.
    intros n w modes Hr E TF HD Fw.
    destruct (finish_inv _ _ _ _ _ _ _ _ _ E) as (sym & xm & g & e0 & lev & eng & rows & _ & Er & _).
    assert (Wf : (fun i => nth i freql (nz 0)) = w) by (unfold w; rewrite nz_R; reflexivity).
    rewrite Wf in Er. fold n in Er.
    assert (Ec : coriolis (m_rotor m) modes w (zmat (m_natom m) lxm) = Some (rs_coriolis (out_resonances o))).
    { unfold restst_new in Er. destruct (deg_modes (m_rotor m) n w) as [md|] eqn:Ed; [|discriminate]. cbn [obind] in Er.
      destruct (coriolis (m_rotor m) md w (zmat (m_natom m) lxm)) as [cor|] eqn:Q; [|discriminate]. cbn [obind] in Er.
      do 4 (match type of Er with obind ?a _ = _ => destruct a; [|discriminate] end; cbn [obind] in Er).
      apply some_eq3 in Er. unfold modes. rewrite <- Er. cbn [rs_modes rs_coriolis]. exact Q. }
    pose proof (tf_modes _ _ _ _ _ _ _ _ _ TF) as Hm.
    pose proof (Hpart _ _ _ _ _ _ _ _ _ TF) as HP.
    assert (Nn : NoDup (nondeg modes ++ flat_map (fun '(a, b) => [a; b]) (degs modes))).
    { eapply Permutation_NoDup; [symmetry; exact HP|apply seq_NoDup]. }
    pose proof (NoDup_app_inv _ _ Nn) as (ND1 & ND2 & DJ).
    assert (I2 : forall k, (k < n2dm modes)%nat -> In (m2 modes k) (degs modes)) by (intros; now apply (m2_in modes)).
    assert (I1 : forall k, (k < n1dm modes)%nat -> In (m1 modes k) (nondeg modes)) by (intros; now apply (m1_in modes)).
    assert (Fl : forall p, In p (degs modes) -> In (fst p) (flat_map (fun '(a, b) => [a; b]) (degs modes)) /\ In (snd p) (flat_map (fun '(a, b) => [a; b]) (degs modes))).
    { intros [a b] Hp. split; apply in_flat_map; exists (a, b); cbn; auto. }
    assert (B1 : forall k, In k (nondeg modes) -> (k < n)%nat).
    { intros k Hk. assert (Q : In k (seq 0 n)) by (eapply Permutation_in; [exact HP|apply in_or_app; auto]). apply in_seq in Q. lia. }
    assert (B2 : forall k, In k (flat_map (fun '(a, b) => [a; b]) (degs modes)) -> (k < n)%nat).
    { intros k Hk. assert (Q : In k (seq 0 n)) by (eapply Permutation_in; [exact HP|apply in_or_app; auto]). apply in_seq in Q. lia. }
    (* a frequency of a pair is that of no other mode *)
    assert (U : forall i j, (i < n)%nat -> (j < n)%nat -> i <> j -> ~ In (i, j) (degs modes) -> ~ In (j, i) (degs modes) -> 200 < Rabs (w i - w j)).
    { intros i j Hi Hj Ne N1 N2. destruct (Fw i j Hi Hj) as [Ew|L]; [|exact L]. exfalso.
      destruct (Nat.lt_trichotomy i j) as [L|[L|L]]; [apply N1, HD; auto|contradiction|apply N2, HD; auto]. }
    assert (U1 : forall i j, In i (nondeg modes) -> (j < n)%nat -> i <> j -> 200 < Rabs (w i - w j)).
    { intros i j Hi Hj Ne. apply U; auto; intros Q; apply Fl in Q as [Q1 Q2]; cbn in Q1, Q2; eauto. }
    assert (U1' : forall i j, In i (nondeg modes) -> (j < n)%nat -> i <> j -> 200 < Rabs (w j - w i)).
    { intros i j Hi Hj Ne. rewrite Rabs_minus_sym. now apply U1. }
    assert (Ne1 : forall a b, In a (nondeg modes) -> In b (flat_map (fun '(a, b) => [a; b]) (degs modes)) -> a <> b).
    { intros a b Ha Hb ->. eauto. }
    assert (PI : forall ii jj, (ii < n2dm modes)%nat -> (jj < n2dm modes)%nat -> m2 modes ii = m2 modes jj -> ii = jj).
    { intros ii jj Hi Hj Q. apply (m2_inj n modes Hm ii jj Hi Hj). now rewrite Q. }
    assert (U2 : forall ii jj, (ii < n2dm modes)%nat -> (jj < n2dm modes)%nat -> ii <> jj ->
      200 < Rabs (w (fst (m2 modes ii)) - w (fst (m2 modes jj))) /\ 200 < Rabs (w (fst (m2 modes ii)) - w (snd (m2 modes jj)))).
    { intros ii jj Hi Hj Ne. pose proof (I2 ii Hi) as Pi. pose proof (I2 jj Hj) as Pj.
      destruct (Fl _ Pi) as [Fi Si], (Fl _ Pj) as [Fj Sj].
      assert (F2 : fst (m2 modes ii) <> fst (m2 modes jj)) by (intros Q; apply Ne, (m2_inj n modes Hm ii jj Hi Hj Q)).
      split; apply U; auto.
      - intros Q. exact (proj1 (pair_facts _ _ _ ND2 Pj Q) eq_refl).
      - intros Q. exact (proj1 (pair_facts _ _ _ ND2 Pi Q) eq_refl).
      - intros Q. exact (proj1 (pair_facts _ _ _ ND2 Pi Pj) Q).
      - intros Q. apply F2. pose proof (proj2 (pair_facts _ _ _ ND2 Q Pj) eq_refl) as Q2. rewrite <- Q2. reflexivity.
      - intros Q. exact (proj1 (pair_facts _ _ _ ND2 Pi Q) eq_refl). }
    assert (C0 : exists a b c, Some (
          collect (range 0 (n1dm modes)) (fun ii =>
            let i := m1 modes ii in
            collect (range 0 (n1dm modes)) (fun jj =>
              let j := m1 modes jj in
              if Nat.eqb ii jj then [] else cor_test w (zmat (m_natom m) lxm) i j 2 a)
            ++
            collect (range 0 (n2dm modes)) (fun jj =>
              let j := fst (m2 modes jj) in
              cor_test w (zmat (m_natom m) lxm) i j 1 b ++ cor_test w (zmat (m_natom m) lxm) i j 0 c))
          ++
          collect (range 0 (n2dm modes)) (fun ii =>
            let i := fst (m2 modes ii) in
            collect (range 0 (n2dm modes)) (fun jj =>
              if Nat.eqb ii jj then [] else
              let j := snd (m2 modes jj) in
              cor_test w (zmat (m_natom m) lxm) i j 2 a)
            ++
            collect (range 0 (n1dm modes)) (fun jj =>
              let j := m1 modes jj in
              cor_test w (zmat (m_natom m) lxm) i j 1 b ++ cor_test w (zmat (m_natom m) lxm) i j 0 c)
            ++
            collect (range 0 (n2dm modes)) (fun jj =>
              if Nat.eqb ii jj then [] else
              let j := fst (m2 modes jj) in
              cor_test w (zmat (m_natom m) lxm) i j 1 b ++ cor_test w (zmat (m_natom m) lxm) i j 0 c)))
        = Some (rs_coriolis (out_resonances o))).
    { rewrite <- Ec. destruct Hr as [-> | [-> | ->]]; cbn [coriolis is_prolate]; do 3 eexists; reflexivity. }
    destruct C0 as (ca & cb & cc & C0). apply some_eq3 in C0. rewrite <- C0. cbv zeta.
    rewrite (collect_none (range 0 (n1dm modes))), (collect_none (range 0 (n2dm modes))); [reflexivity|..].
    - intros ii Hi. apply in_seq in Hi. assert (Li : (ii < n2dm modes)%nat) by lia.
      destruct (Fl _ (I2 ii Li)) as [Fi _].
      rewrite !(collect_none (range 0 (n2dm modes))), (collect_none (range 0 (n1dm modes))); [reflexivity|..].
      + intros jj Hj. apply in_seq in Hj. assert (Lj : (jj < n1dm modes)%nat) by lia.
        rewrite !cor_test_far; [reflexivity|..]; apply U1'; auto.
      + intros jj Hj. apply in_seq in Hj. assert (Lj : (jj < n2dm modes)%nat) by lia.
        destruct (Nat.eqb_spec ii jj) as [|Ne]; [reflexivity|]. rewrite !cor_test_far; [reflexivity|..]; now apply U2.
      + intros jj Hj. apply in_seq in Hj. assert (Lj : (jj < n2dm modes)%nat) by lia.
        destruct (Nat.eqb_spec ii jj) as [|Ne]; [reflexivity|]. apply cor_test_far. now apply U2.
    - intros ii Hi. apply in_seq in Hi. assert (Li : (ii < n1dm modes)%nat) by lia.
      rewrite !(collect_none (range 0 (n2dm modes))), (collect_none (range 0 (n1dm modes))); [reflexivity|..].
      + intros jj Hj. apply in_seq in Hj. assert (Lj : (jj < n1dm modes)%nat) by lia.
        destruct (Nat.eqb_spec ii jj) as [|Ne]; [reflexivity|]. apply cor_test_far. apply U1; auto.
        intros Q. apply Ne. exact (m1_inj n modes Hm ii jj Li Lj Q).
      + intros jj Hj. apply in_seq in Hj. assert (Lj : (jj < n2dm modes)%nat) by lia.
        destruct (Fl _ (I2 jj Lj)) as [Fj _]. rewrite !cor_test_far; [reflexivity|..]; apply U1; auto.
  Qed.
  Lemma finish_far m freql f3l f4l (irreps : list I) lxm lx o :
    let n := m_nvib m in
    let w := fun i => nth i freql 0 in
    let modes := rs_modes (out_resonances o) in
    m_rotor m = OblateSymmTop \/ m_rotor m = ProlateSymmTop ->
    finish eig2 false m freql f3l f4l irreps lxm lx = Some o ->
    top_field n modes w (fun i j k => nth (find3 i j k) f3l 0) (fun i j k l => nth (find4 i j k l) f4l 0)
      (zeta_of (m_natom m) lxm) (m_rotcon m) (m_rotor m) (wila (m_natom m) (m_geom m) (m_w m) lxm) ->
    (forall i j, In (i, j) (degs modes) <-> (i < j < n)%nat /\ w i = w j) ->
    (forall i j, (i < n)%nat -> (j < n)%nat -> w i = w j \/ 200 < Rabs (w i - w j)) ->
    rs_coriolis (out_resonances o) = [].
  Proof.
    intros n w modes Hr. apply finish_far_any. tauto.
  Qed.
End Far.

(** ** the whole run *)
Section RunConst.
  Context {I : Type}.
  Variables (eig2 : R -> R -> R -> R * R * (R * R))
    (eig : (nat -> nat -> R) -> list R * (nat -> nat -> R))
    (label : (nat -> R * R * R) -> (nat -> nat -> R) -> nat -> R -> option I) (A : I).

  Lemma run_three_const_core m axes iatom s sg mu fc2 f3x f4x freq l0 K lam rep :
    let N := m_natom m in
    let n := m_nvib m in
    let B := m_rotcon m in
    let J := m_primat m in
    let w := fun i => nth i freq 0 in
    let turn := op sg (third s) in
    let mirror := op mu flip in
    let g2 := con2 (3 * N) (every_atom axes) fc2 in
    let g3 := con3 (3 * N) (every_atom axes) f3x in
    let g4 := con4 (3 * N) (every_atom axes) f4x in
    m_rotor m = OblateSymmTop \/ m_rotor m = ProlateSymmTop ->
    (0 < N)%nat -> (0 < n <= 3 * N)%nat ->
    (forall q, (q < N)%nat -> 0 < m_w m q) ->
    c3v N (m_w m) s sg mu -> placed N s sg mu (m_geom m) -> B 0%nat = B 1%nat ->
    (iatom < N)%nat -> mu iatom = iatom ->
    sym2 (3 * N) fc2 -> tsym3 (3 * N) f3x -> tsym4 (3 * N) f4x ->
    same2 (3 * N) turn g2 -> same2 (3 * N) mirror g2 ->
    same3 (3 * N) turn g3 -> same3 (3 * N) mirror g3 ->
    same4 (3 * N) turn g4 -> same4 (3 * N) mirror g4 ->
    orth 3 axes -> rotation_free N fc2 (input_position axes (m_geom m)) ->
    solves (3 * N) eig (secular N axes fc2 (m_w m)) ->
    harmonic N axes fc2 (m_w m) eig = Some (freq, l0) ->
    threefold_modes N n iatom s sg mu w l0 ->
    (forall i j k, (i < n)%nat -> (j < n)%nat -> (k < n)%nat -> w i + w j <> w k) ->
    2 * K * lam ^ 2 = 1 -> (forall y, (y < 3)%nat -> 0 < J y) -> (forall y, (y < 3)%nat -> B y = K / J y) ->
    (forall i j, rep i j = true <-> (i < n)%nat /\ (j < n)%nat /\ i <> j /\ w i = w j) ->
    exists fuel0 lx V h,
      let hess := fun a b => FACT2 * g2 a b in
      let F3 := cubic_spec (3 * N) g3 lx w in
      let zeta := zeta_of N (fun a i => sqrt (m_w m (a / 3)%nat) * lx a i) in
      (forall i j, (i < 3 * N)%nat -> (j < 3 * N)%nat ->
         Sum (3 * N) (fun a => m_w m (a / 3)%nat * lx a i * lx a j) = (if Nat.eqb i j then 1 else 0)) /\
      (forall i j, (i < 3 * N)%nat -> (j < 3 * N)%nat -> i <> j -> con2 (3 * N) lx hess i j = 0) /\
      (forall i, (i < 3 * N)%nat -> nth_error freq i = Some (to_wavenumber (con2 (3 * N) lx hess i i))) /\
      StronglySorted Rge freq /\
      map to_wavenumber h = freq /\ sym2 (3 * N) (secular N axes fc2 (m_w m)) /\
      eigen_system (3 * N) (secular N axes fc2 (m_w m)) h l0 /\ eigen_system (3 * N) (secular N axes fc2 (m_w m)) h V /\
      mass_weighted N (m_w m) V lx /\ (forall k, (k < n)%nat -> eckart N (m_geom m) (m_w m) V k) /\
      forall fuel, (fuel0 <= fuel)%nat ->
      exists o, run eig2 eig label A fuel (Some (sg iatom)) false m axes iatom 3 (Quartic fc2 f3x f4x) = Some (FullResult o) /\
      let modes := rs_modes (out_resonances o) in
      let q := out_quartic o in
      (forall i j, In (i, j) (degs modes) <-> (i < j < n)%nat /\ w i = w j) /\
      (forall i, In i (nondeg modes) <-> (i < n)%nat /\ forall j, (j < n)%nat -> j <> i -> w j <> w i) /\
      behaves (3 * N) turn mirror (sqrt 3 / 2) (nondeg modes) (degs modes) V /\
      ((forall i j, (i < n)%nat -> (j < n)%nat -> w i = w j \/ 200 < Rabs (w i - w j)) -> rs_coriolis (out_resonances o) = []) /\
      (rs_coriolis (out_resonances o) = [] ->
       forall a, inertia_slope N n (m_w m) (m_geom m) lx a ->
       let change := fun v x => rot_const n w F3 zeta a J K lam rep x v - B x + rounding_term n B w a F3 lam x v in
       let across := fun v => / 2 * (change v 0%nat + change v 1%nat) in
       map rot_state (out_rots o) =
         I1st (repeat 0%nat n)
         :: map (fun p => I1st (unit1 n p 1)) (seq 0 (length (nondeg modes)))
         ++ map (fun p => I2st (punit1 n p (1, 1)%nat)) (seq 0 (length (firsts modes))) /\
       forall p c, nth_error (out_rots o) p = Some c ->
         let v := excited (nondeg modes ++ firsts modes) p in
         (m_rotor m = OblateSymmTop ->
            rot_a c = bys q + across v - lost_about w B J a (degs modes) 0 v /\
            rot_b c = bxs q + across v - lost_about w B J a (degs modes) 1 v /\
            rot_c c = bzs q + change v 2%nat - lost_about w B J a (degs modes) 2 v) /\
         (m_rotor m = ProlateSymmTop ->
            rot_a c = bys q + change v 2%nat /\ rot_b c = bxs q + across v /\ rot_c c = bzs q + across v)).
  Proof.
    intros N n B J w turn mirror g2 g3 g4 Hr HN Hn Hw C G HB Hi Mi S2 S3 S4 T2 M2 T3 M3 T4 M4 Ho Hf Sv Eh TM Dw HK HJ BJ Hrep.
    destruct (run_three_core eig2 eig label A m axes iatom s sg mu fc2 f3x f4x freq l0 Hr HN Hn Hw C G HB Hi Mi S2 S3 S4 T2 M2 T3 M3 T4 M4 Sv Eh TM Dw)
      as (f0 & lx & V & h & Q1 & Q2 & Q3 & Q4 & Lf & Ef & SA & ES & ESV & ML & Z & Q).
    assert (Pw : forall i, (i < n)%nat -> 0 < w i) by (intros i Hi'; pose proof (tm_w _ _ _ _ _ _ _ _ TM i Hi'); lra).
    assert (Eck : forall k, (k < n)%nat -> eckart N (m_geom m) (m_w m) V k).
    { intros k Hk. destruct (nth_error h k) as [x|] eqn:Ex.
      2:{ apply nth_error_None in Ex. rewrite <- Ef, map_length in Lf. lia. }
      apply (eigen_eckart N axes fc2 (m_w m) (m_geom m) h V S2 Hw Ho Hf ESV k x Ex).
      intros ->. pose proof (Pw k Hk) as P. unfold w in P. rewrite <- Ef in P.
      rewrite (nth_error_nth _ _ 0 (map_nth_error to_wavenumber _ _ Ex)) in P.
      assert (to_wavenumber 0 = 0) by now apply wavenumber_0. lra. }
    exists f0, lx, V, h. cbv zeta. split; [exact Q1|]. split; [exact Q2|]. split; [exact Q3|]. split; [exact Q4|].
    split; [exact Ef|]. split; [exact SA|]. split; [exact ES|]. split; [exact ESV|]. split; [exact ML|]. split; [exact Eck|].
    intros fuel Hfu. destruct (Q fuel Hfu) as (o & f3l & f4l & irreps & Er & Eo & HD & HS & BV & X3 & X4 & Et & TF). clear Q.
    exists o. split; [exact Er|]. split; [exact HD|]. split; [exact HS|]. split; [exact BV|].
    split. { exact (finish_far eig2 m freq f3l f4l irreps V lx o Hr Eo TF HD). }
    intros Nc a Ha.
    set (modes := rs_modes (out_resonances o)) in *.
    set (F3 := cubic_spec (3 * N) g3 lx w) in *.
    set (zeta := zeta_of N (fun a i => sqrt (m_w m (a / 3)%nat) * lx a i)) in *.
    assert (K0 : K <> 0) by (intros ->; lra).
    assert (J01 : J 0%nat = J 1%nat).
    { pose proof (BJ 0%nat ltac:(lia)) as E0. pose proof (BJ 1%nat ltac:(lia)) as E1. pose proof (HJ 0%nat ltac:(lia)). pose proof (HJ 1%nat ltac:(lia)).
      rewrite HB, E1 in E0. apply (f_equal Rinv) in E0. unfold Rdiv in E0. rewrite !Rinv_mult, !Rinv_inv in E0.
      apply Rmult_eq_reg_l in E0; [congruence|now apply Rinv_neq_0_compat]. }
    pose proof (axial_inertia_3 N (m_w m) s sg mu C (m_geom m) G (sqrt 3 / 2) (nondeg modes) (degs modes) V h3 BV J J01) as AI.
    assert (Wa : forall k y z, (k < n)%nat -> (y < 3)%nat -> (z < 3)%nat -> wila N (m_geom m) (m_w m) V k (acol y z) = a k y z).
    { intros k y z Hk Hy Hz. symmetry. apply (slope_wila N (m_w m) (m_geom m) V k lx y z); auto.
      intros b Hb. apply ML; lia. }
    assert (Hap : forall i j, (i < n)%nat -> (j < n)%nat -> i <> j -> ~ In (i, j) (degs modes) -> ~ In (j, i) (degs modes) -> w i <> w j).
    { intros i j Hi' Hj Ne N1 N2 Ew. destruct (Nat.lt_trichotomy i j) as [L|[L|L]]; [apply N1, HD; auto|contradiction|apply N2, HD; auto]. }
    assert (Hr2 : forall i j, rep i j = true <-> In (i, j) (degs modes) \/ In (j, i) (degs modes)).
    { intros i j. rewrite Hrep, !HD. split.
      - intros (Hi' & Hj & Ne & Ew). destruct (Nat.lt_trichotomy i j) as [L|[L|L]]; [left; auto|contradiction|right; auto].
      - intros [[L E]|[L E]]; repeat split; auto; lia. }
    destruct (finish_rot_top eig2 m freq f3l f4l irreps V lx o K lam rep Hr Eo Et TF AI Hap Nc HK HJ BJ Hr2) as [St Cs].
    fold modes n in St. split; [exact St|].
    intros p c Hp. destruct (Cs p c Hp) as [C1 C2]. fold modes N n w B J in C1, C2.
    set (v := excited (nondeg modes ++ firsts modes) p) in *.
    assert (RC : forall x, (x < 3)%nat ->
      rot_const n w (fun i j k => nth (find3 i j k) f3l 0) (zeta_of N V) (fun k y z => wila N (m_geom m) (m_w m) V k (acol y z)) J K lam rep x v
      = rot_const n w F3 zeta a J K lam rep x v).
    { intros x Hx. apply rot_const_ext; auto. intros. symmetry. now apply X3. }
    assert (RT : forall x, (x < 3)%nat ->
      rounding_term n B w (fun k y z => wila N (m_geom m) (m_w m) V k (acol y z)) (fun i j k => nth (find3 i j k) f3l 0) lam x v
      = rounding_term n B w a F3 lam x v).
    { intros x Hx. unfold rounding_term. f_equal. apply Rsum_ext. intros i Hi'%in_seq. apply Rsum_ext. intros l Hl%in_seq.
      rewrite Wa by lia. rewrite X3 by lia. reflexivity. }
    assert (LA : forall x, lost_about w B J (fun k y z => wila N (m_geom m) (m_w m) V k (acol y z)) (degs modes) x v
      = lost_about w B J a (degs modes) x v).
    { intros x. unfold lost_about, per_pair. apply Rsum_ext. intros [i j] Hij%HD. cbn [fst snd]. rewrite Wa by lia. reflexivity. }
    split; intros Ro; [specialize (C1 Ro)|specialize (C2 Ro)].
    - rewrite !LA, !RC, !RT in C1 by lia. exact C1.
    - rewrite !RC, !RT in C2 by lia. exact C2.
  Qed.

  Lemma run_three_const m axes iatom s sg mu fc2 f3x f4x freq l0 K lam rep :
    let N := m_natom m in
    let n := m_nvib m in
    let B := m_rotcon m in
    let J := m_primat m in
    let w := fun i => nth i freq 0 in
    let turn := op sg (third s) in
    let mirror := op mu flip in
    let g2 := con2 (3 * N) (every_atom axes) fc2 in
    let g3 := con3 (3 * N) (every_atom axes) f3x in
    let g4 := con4 (3 * N) (every_atom axes) f4x in
    m_rotor m = OblateSymmTop \/ m_rotor m = ProlateSymmTop ->
    (0 < N)%nat -> (0 < n <= 3 * N)%nat ->
    (forall q, (q < N)%nat -> 0 < m_w m q) ->
    c3v N (m_w m) s sg mu -> placed N s sg mu (m_geom m) -> B 0%nat = B 1%nat ->
    (iatom < N)%nat -> mu iatom = iatom ->
    sym2 (3 * N) fc2 -> tsym3 (3 * N) f3x -> tsym4 (3 * N) f4x ->
    same2 (3 * N) turn g2 -> same2 (3 * N) mirror g2 ->
    same3 (3 * N) turn g3 -> same3 (3 * N) mirror g3 ->
    same4 (3 * N) turn g4 -> same4 (3 * N) mirror g4 ->
    orth 3 axes -> rotation_free N fc2 (input_position axes (m_geom m)) ->
    solves (3 * N) eig (secular N axes fc2 (m_w m)) ->
    harmonic N axes fc2 (m_w m) eig = Some (freq, l0) ->
    threefold_modes N n iatom s sg mu w l0 ->
    (forall i j k, (i < n)%nat -> (j < n)%nat -> (k < n)%nat -> w i + w j <> w k) ->
    2 * K * lam ^ 2 = 1 -> (forall y, (y < 3)%nat -> 0 < J y) -> (forall y, (y < 3)%nat -> B y = K / J y) ->
    (forall i j, rep i j = true <-> (i < n)%nat /\ (j < n)%nat /\ i <> j /\ w i = w j) ->
    exists fuel0 lx,
      let hess := fun a b => FACT2 * g2 a b in
      let F3 := cubic_spec (3 * N) g3 lx w in
      let zeta := zeta_of N (fun a i => sqrt (m_w m (a / 3)%nat) * lx a i) in
      (forall i j, (i < 3 * N)%nat -> (j < 3 * N)%nat ->
         Sum (3 * N) (fun a => m_w m (a / 3)%nat * lx a i * lx a j) = (if Nat.eqb i j then 1 else 0)) /\
      (forall i j, (i < 3 * N)%nat -> (j < 3 * N)%nat -> i <> j -> con2 (3 * N) lx hess i j = 0) /\
      (forall i, (i < 3 * N)%nat -> nth_error freq i = Some (to_wavenumber (con2 (3 * N) lx hess i i))) /\
      StronglySorted Rge freq /\
      forall fuel, (fuel0 <= fuel)%nat ->
      exists o, run eig2 eig label A fuel (Some (sg iatom)) false m axes iatom 3 (Quartic fc2 f3x f4x) = Some (FullResult o) /\
      let modes := rs_modes (out_resonances o) in
      let q := out_quartic o in
      (forall i j, In (i, j) (degs modes) <-> (i < j < n)%nat /\ w i = w j) /\
      (forall i, In i (nondeg modes) <-> (i < n)%nat /\ forall j, (j < n)%nat -> j <> i -> w j <> w i) /\
      (rs_coriolis (out_resonances o) = [] ->
       forall a, inertia_slope N n (m_w m) (m_geom m) lx a ->
       let change := fun v x => rot_const n w F3 zeta a J K lam rep x v - B x + rounding_term n B w a F3 lam x v in
       let across := fun v => / 2 * (change v 0%nat + change v 1%nat) in
       map rot_state (out_rots o) =
         I1st (repeat 0%nat n)
         :: map (fun p => I1st (unit1 n p 1)) (seq 0 (length (nondeg modes)))
         ++ map (fun p => I2st (punit1 n p (1, 1)%nat)) (seq 0 (length (firsts modes))) /\
       forall p c, nth_error (out_rots o) p = Some c ->
         let v := excited (nondeg modes ++ firsts modes) p in
         (m_rotor m = OblateSymmTop ->
            rot_a c = bys q + across v - lost_about w B J a (degs modes) 0 v /\
            rot_b c = bxs q + across v - lost_about w B J a (degs modes) 1 v /\
            rot_c c = bzs q + change v 2%nat - lost_about w B J a (degs modes) 2 v) /\
         (m_rotor m = ProlateSymmTop ->
            rot_a c = bys q + change v 2%nat /\ rot_b c = bxs q + across v /\ rot_c c = bzs q + across v)).
  Proof.
    intros N n B J w turn mirror g2 g3 g4 Hr HN Hn Hw C G HB Hi Mi S2 S3 S4 T2 M2 T3 M3 T4 M4 Ho Hf Sv Eh TM Dw HK HJ BJ Hrep.
    destruct (run_three_const_core m axes iatom s sg mu fc2 f3x f4x freq l0 K lam rep Hr HN Hn Hw C G HB Hi Mi S2 S3 S4 T2 M2 T3 M3 T4 M4 Ho Hf Sv Eh TM Dw HK HJ BJ Hrep)
      as (f0 & lx & V & h & Q1 & Q2 & Q3 & Q4 & _ & _ & _ & _ & _ & _ & Q).
    exists f0, lx. cbv zeta. split; [exact Q1|]. split; [exact Q2|]. split; [exact Q3|]. split; [exact Q4|].
    intros fuel Hfu. destruct (Q fuel Hfu) as (o & Er & HD & HS & _ & _ & Q5).
    exists o. split; [exact Er|]. split; [exact HD|]. split; [exact HS|exact Q5].
  Qed.
End RunConst.
