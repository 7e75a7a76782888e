(** Property C122: the rotational constants of molecules with a threefold axis and a mirror plane. *)
From Coq Require Import Reals Lra List ZArith Arith Lia Bool Sorted.
From Verif Require Import Num Loops Modes StatesFacts IndexFacts AnharmFacts SymAnharm Transform TransformFacts RotFacts NormalFacts HarmFacts ModeFacts ReportFacts
  Report VibRot VibRotFacts Distort Geom AlignExact Finish PerturbFacts PerturbLevels VibPerturb SymE0 SymPerturb EckartFacts InertiaFacts RunSecond RunRot
  Threefold ThreeForm ThreeModes ThreeRun ThreeRot ThreeConst ThreeWitness PyramidWitness PyramidRun.
Import ListNotations.
Open Scope nat_scope.
Local Open Scope R_scope.

(** C122: the rotational constants of the states of a molecule with a threefold axis.  For a prolate
    top they are those of second order perturbation theory; those of an oblate top lack, for every
    degenerate pair, the terms of the derivative of the xz moment of inertia *)
Theorem run_threefold_rot :
  forall (I : Type) eig2 eig (label : (nat -> R * R * R) -> (nat -> nat -> R) -> nat -> R -> option I) A
    m axes iatom s sg mu fc2 f3x f4x freq l0 K lam rep,
  let N := m_natom m in
  let n := m_nvib m in
  let B := m_rotcon m in
  let J := m_primat m in
  let w := fun i => nth i freq 0 in
  let turn := op sg (third s) in
  let mirror := op mu flip in
  let g2 := con2 (3 * N) (every_atom axes) fc2 in
  let g3 := con3 (3 * N) (every_atom axes) f3x in
  let g4 := con4 (3 * N) (every_atom axes) f4x in
  m_rotor m = OblateSymmTop \/ m_rotor m = ProlateSymmTop ->
  (0 < N)%nat -> (0 < n <= 3 * N)%nat ->
  (forall q, (q < N)%nat -> 0 < m_w m q) ->
  c3v N (m_w m) s sg mu -> placed N s sg mu (m_geom m) -> B 0%nat = B 1%nat ->
  (iatom < N)%nat -> mu iatom = iatom ->
  sym2 (3 * N) fc2 -> tsym3 (3 * N) f3x -> tsym4 (3 * N) f4x ->
  same2 (3 * N) turn g2 -> same2 (3 * N) mirror g2 ->
  same3 (3 * N) turn g3 -> same3 (3 * N) mirror g3 ->
  same4 (3 * N) turn g4 -> same4 (3 * N) mirror g4 ->
  orth 3 axes -> rotation_free N fc2 (input_position axes (m_geom m)) ->
  solves (3 * N) eig (secular N axes fc2 (m_w m)) ->
  harmonic N axes fc2 (m_w m) eig = Some (freq, l0) ->
  threefold_modes N n iatom s sg mu w l0 ->
  (forall i j k, (i < n)%nat -> (j < n)%nat -> (k < n)%nat -> w i + w j <> w k) ->
  2 * K * lam ^ 2 = 1 -> (forall y, (y < 3)%nat -> 0 < J y) -> (forall y, (y < 3)%nat -> B y = K / J y) ->
  (forall i j, rep i j = true <-> (i < n)%nat /\ (j < n)%nat /\ i <> j /\ w i = w j) ->
  exists fuel0 lx,
    let hess := fun a b => FACT2 * g2 a b in
    let F3 := cubic_spec (3 * N) g3 lx w in
    let zeta := zeta_of N (fun a i => sqrt (m_w m (a / 3)%nat) * lx a i) in
    (forall i j, (i < 3 * N)%nat -> (j < 3 * N)%nat ->
       Sum (3 * N) (fun a => m_w m (a / 3)%nat * lx a i * lx a j) = (if Nat.eqb i j then 1 else 0)) /\
    (forall i j, (i < 3 * N)%nat -> (j < 3 * N)%nat -> i <> j -> con2 (3 * N) lx hess i j = 0) /\
    (forall i, (i < 3 * N)%nat -> nth_error freq i = Some (to_wavenumber (con2 (3 * N) lx hess i i))) /\
    StronglySorted Rge freq /\
    forall fuel, (fuel0 <= fuel)%nat ->
    exists o, run eig2 eig label A fuel (Some (sg iatom)) false m axes iatom 3 (Quartic fc2 f3x f4x) = Some (FullResult o) /\
    let modes := rs_modes (out_resonances o) in
    let q := out_quartic o in
    (forall i j, In (i, j) (degs modes) <-> (i < j < n)%nat /\ w i = w j) /\
    (forall i, In i (nondeg modes) <-> (i < n)%nat /\ forall j, (j < n)%nat -> j <> i -> w j <> w i) /\
    (rs_coriolis (out_resonances o) = [] ->
     forall a, inertia_slope N n (m_w m) (m_geom m) lx a ->
     let change := fun v x => VibPerturb.rot_const n w F3 zeta a J K lam rep x v - B x + rounding_term n B w a F3 lam x v in
     let across := fun v => / 2 * (change v 0%nat + change v 1%nat) in
     map rot_state (out_rots o) =
       I1st (repeat 0%nat n)
       :: map (fun p => I1st (unit1 n p 1)) (seq 0 (length (nondeg modes)))
       ++ map (fun p => I2st (punit1 n p (1, 1)%nat)) (seq 0 (length (firsts modes))) /\
     forall p c, nth_error (out_rots o) p = Some c ->
       let v := excited (nondeg modes ++ firsts modes) p in
       (m_rotor m = OblateSymmTop ->
          rot_a c = bys q + across v - lost_about w B J a (degs modes) 0 v /\
          rot_b c = bxs q + across v - lost_about w B J a (degs modes) 1 v /\
          rot_c c = bzs q + change v 2%nat - lost_about w B J a (degs modes) 2 v) /\
       (m_rotor m = ProlateSymmTop ->
          rot_a c = bys q + change v 2%nat /\ rot_b c = bxs q + across v /\ rot_c c = bzs q + across v)).
Proof. exact @run_three_const. Qed.

Example run_threefold_rot_ex : exists l0,
  (forall a i, (i < 12)%nat -> l0 a i = pyr_V a i) /\
  let m := pyr_mol in
  let w := fun i => nth i pyr_freq 0 in
  m_rotor m = OblateSymmTop /\ (0 < m_nvib m <= 3 * m_natom m)%nat /\ (forall q, (q < m_natom m)%nat -> 0 < m_w m q) /\
  c3v (m_natom m) (m_w m) s3 pyr_sg pyr_mu /\ placed (m_natom m) s3 pyr_sg pyr_mu (m_geom m) /\ m_rotcon m 0%nat = m_rotcon m 1%nat /\
  (0 < m_natom m)%nat /\ pyr_mu 0 = 0%nat /\ sym2 12 pyr_f2 /\ tsym3 12 pyr_f3 /\ tsym4 12 pyr_f4 /\
  same2 12 (op pyr_sg (third s3)) (con2 12 (every_atom delta) pyr_f2) /\ same2 12 (op pyr_mu flip) (con2 12 (every_atom delta) pyr_f2) /\
  same3 12 (op pyr_sg (third s3)) (con3 12 (every_atom delta) pyr_f3) /\ same3 12 (op pyr_mu flip) (con3 12 (every_atom delta) pyr_f3) /\
  same4 12 (op pyr_sg (third s3)) (con4 12 (every_atom delta) pyr_f4) /\ same4 12 (op pyr_mu flip) (con4 12 (every_atom delta) pyr_f4) /\
  orth 3 delta /\ rotation_free 4 pyr_f2 (input_position delta (m_geom m)) /\
  solves 12 pyr_eig (secular 4 delta pyr_f2 (m_w m)) /\
  harmonic 4 delta pyr_f2 (m_w m) pyr_eig = Some (pyr_freq, l0) /\
  threefold_modes 4 (m_nvib m) 0 s3 pyr_sg pyr_mu w l0 /\
  (forall i j k, (i < m_nvib m)%nat -> (j < m_nvib m)%nat -> (k < m_nvib m)%nat -> w i + w j <> w k) /\
  2 * pyr_K * pyr_lam ^ 2 = 1 /\ (forall y, (y < 3)%nat -> 0 < m_primat m y) /\
  (forall y, (y < 3)%nat -> m_rotcon m y = pyr_K / m_primat m y) /\
  (forall i j, pyr_rep i j = true <-> (i < m_nvib m)%nat /\ (j < m_nvib m)%nat /\ i <> j /\ w i = w j).
Proof. exact pyr_hyps. Qed.
Print Assumptions run_threefold_rot.

(** C122 refuted as claimed for oblate tops: a pyramid for which all three reported constants of the
    ground state are too small *)
Theorem run_threefold_rot_refuted :
  forall (I : Type) eig2 (label : (nat -> R * R * R) -> (nat -> nat -> R) -> nat -> R -> option I) A,
  (exists l0, let m := pyr_mol in
    let w := fun i => nth i pyr_freq 0 in
    m_rotor m = OblateSymmTop /\ (0 < m_nvib m <= 3 * m_natom m)%nat /\ (forall q, (q < m_natom m)%nat -> 0 < m_w m q) /\
    c3v (m_natom m) (m_w m) s3 pyr_sg pyr_mu /\ placed (m_natom m) s3 pyr_sg pyr_mu (m_geom m) /\ m_rotcon m 0%nat = m_rotcon m 1%nat /\
    (0 < m_natom m)%nat /\ pyr_mu 0 = 0%nat /\ sym2 12 pyr_f2 /\ tsym3 12 pyr_f3 /\ tsym4 12 pyr_f4 /\
    same2 12 (op pyr_sg (third s3)) (con2 12 (every_atom delta) pyr_f2) /\ same2 12 (op pyr_mu flip) (con2 12 (every_atom delta) pyr_f2) /\
    same3 12 (op pyr_sg (third s3)) (con3 12 (every_atom delta) pyr_f3) /\ same3 12 (op pyr_mu flip) (con3 12 (every_atom delta) pyr_f3) /\
    same4 12 (op pyr_sg (third s3)) (con4 12 (every_atom delta) pyr_f4) /\ same4 12 (op pyr_mu flip) (con4 12 (every_atom delta) pyr_f4) /\
    orth 3 delta /\ rotation_free 4 pyr_f2 (input_position delta (m_geom m)) /\
    solves 12 pyr_eig (secular 4 delta pyr_f2 (m_w m)) /\
    harmonic 4 delta pyr_f2 (m_w m) pyr_eig = Some (pyr_freq, l0) /\
    threefold_modes 4 (m_nvib m) 0 s3 pyr_sg pyr_mu w l0 /\
    (forall i j k, (i < m_nvib m)%nat -> (j < m_nvib m)%nat -> (k < m_nvib m)%nat -> w i + w j <> w k) /\
    2 * pyr_K * pyr_lam ^ 2 = 1 /\ (forall y, (y < 3)%nat -> 0 < m_primat m y) /\
    (forall y, (y < 3)%nat -> m_rotcon m y = pyr_K / m_primat m y) /\
    (forall i j, pyr_rep i j = true <-> (i < m_nvib m)%nat /\ (j < m_nvib m)%nat /\ i <> j /\ w i = w j)) /\
  exists fuel0 lx,
    let m := pyr_mol in
    let B := m_rotcon m in
    let w := fun i => nth i pyr_freq 0 in
    let g2 := con2 12 (every_atom delta) pyr_f2 in
    let g3 := con3 12 (every_atom delta) pyr_f3 in
    let hess := fun a b => FACT2 * g2 a b in
    let F3 := cubic_spec 12 g3 lx w in
    let zeta := zeta_of 4 (fun a i => sqrt (m_w m (a / 3)%nat) * lx a i) in
    (forall i j, (i < 12)%nat -> (j < 12)%nat ->
       Sum 12 (fun a => m_w m (a / 3)%nat * lx a i * lx a j) = (if Nat.eqb i j then 1 else 0)) /\
    (forall i j, (i < 12)%nat -> (j < 12)%nat -> i <> j -> con2 12 lx hess i j = 0) /\
    (forall i, (i < 12)%nat -> nth_error pyr_freq i = Some (to_wavenumber (con2 12 lx hess i i))) /\
    forall fuel, (fuel0 <= fuel)%nat ->
    exists o a c,
      run eig2 pyr_eig label A fuel (Some (pyr_sg 0)) false m delta 0 3 (Quartic pyr_f2 pyr_f3 pyr_f4) = Some (FullResult o) /\
      rs_coriolis (out_resonances o) = [] /\
      inertia_slope 4 6 (m_w m) (m_geom m) lx a /\
      nth_error (out_rots o) 0 = Some c /\ rot_state c = I1st (repeat 0%nat 6) /\
      let q := out_quartic o in
      let change := fun x => VibPerturb.rot_const 6 w F3 zeta a pyr_J pyr_K pyr_lam pyr_rep x ground - B x + rounding_term 6 B w a F3 pyr_lam x ground in
      rot_a c < bys q + / 2 * (change 0%nat + change 1%nat) /\
      rot_b c < bxs q + / 2 * (change 0%nat + change 1%nat) /\
      rot_c c < bzs q + change 2%nat.
Proof. exact @pyr_refuted. Qed.
Print Assumptions run_threefold_rot_refuted.
