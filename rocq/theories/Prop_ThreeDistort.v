(** Property C126: the quartic constants of molecules with a threefold axis and a mirror plane. *)
From Coq Require Import Reals Lra List ZArith Arith Lia Bool Sorted.
From Verif Require Import Num Loops Modes StatesFacts IndexFacts AnharmFacts SymAnharm Transform TransformFacts RotFacts NormalFacts HarmFacts ModeFacts ZeroFacts ReportFacts
  Report VibRot VibRotFacts Distort Geom AlignExact Finish FormFacts SymTopFacts EckartFacts InertiaFacts RunSecond RunRot SumRule RotorMech
  Threefold ThreeForm ThreeModes ThreeDistort ThreeWitness PyramidWitness PyramidRun PyramidDistort.
Import ListNotations.
Open Scope nat_scope.
Local Open Scope R_scope.

(** C126: the energy of the rotating atoms of C119 has the quartic form of [tau0].  Times the factor
    [kappa] of the code's units it is the form of Wilson's constants DJ, DJK, DK of the run plus a
    multiple of z (x^3 - 3 x y^2), which is odd in z; for oblate tops Nielsen's constants are the same
    three and his other three vanish *)
Theorem run_threefold_distortion :
  forall (I : Type) eig2 eig (label : (nat -> R * R * R) -> (nat -> nat -> R) -> nat -> R -> option I) A
    m axes iatom s sg mu fc2 f3x f4x freq l0 K lam,
  let N := m_natom m in
  let n := m_nvib m in
  let B := m_rotcon m in
  let J := m_primat m in
  let w := fun i => nth i freq 0 in
  let turn := op sg (third s) in
  let mirror := op mu flip in
  let g2 := con2 (3 * N) (every_atom axes) fc2 in
  let g3 := con3 (3 * N) (every_atom axes) f3x in
  let g4 := con4 (3 * N) (every_atom axes) f4x in
  m_rotor m = OblateSymmTop /\ B 2%nat < B 0%nat \/ m_rotor m = ProlateSymmTop /\ B 0%nat < B 2%nat ->
  (3 * N = n + 6)%nat -> (0 < n)%nat ->
  (forall q, (q < N)%nat -> 0 < m_w m q) ->
  c3v N (m_w m) s sg mu -> placed N s sg mu (m_geom m) -> B 0%nat = B 1%nat ->
  (iatom < N)%nat -> mu iatom = iatom ->
  sym2 (3 * N) fc2 -> tsym3 (3 * N) f3x -> tsym4 (3 * N) f4x ->
  same2 (3 * N) turn g2 -> same2 (3 * N) mirror g2 ->
  same3 (3 * N) turn g3 -> same3 (3 * N) mirror g3 ->
  same4 (3 * N) turn g4 -> same4 (3 * N) mirror g4 ->
  orth 3 axes -> translation_free N fc2 -> rotation_free N fc2 (input_position axes (m_geom m)) ->
  solves (3 * N) eig (secular N axes fc2 (m_w m)) ->
  harmonic N axes fc2 (m_w m) eig = Some (freq, l0) ->
  threefold_modes N n iatom s sg mu w l0 ->
  (forall i j k, (i < n)%nat -> (j < n)%nat -> (k < n)%nat -> w i + w j <> w k) ->
  (forall x, (x < 3)%nat -> Sum N (fun q => m_w m q * comp (m_geom m q) x) = 0) ->
  (forall x y, (x < 3)%nat -> (y < 3)%nat -> inertia N (m_w m) (m_geom m) x y = kron x y * J x) ->
  0 < lam -> 2 * K * lam ^ 2 = 1 -> (forall y, (y < 3)%nat -> 0 < J y) -> (forall y, (y < 3)%nat -> B y = K / J y) ->
  exists fuel0 lx,
    let hess := fun a b => FACT2 * g2 a b in
    let F3 := cubic_spec (3 * N) g3 lx w in
    (forall i j, (i < 3 * N)%nat -> (j < 3 * N)%nat ->
       Sum (3 * N) (fun a => m_w m (a / 3)%nat * lx a i * lx a j) = (if Nat.eqb i j then 1 else 0)) /\
    (forall i j, (i < 3 * N)%nat -> (j < 3 * N)%nat -> i <> j -> con2 (3 * N) lx hess i j = 0) /\
    (forall i, (i < 3 * N)%nat -> nth_error freq i = Some (to_wavenumber (con2 (3 * N) lx hess i i))) /\
    StronglySorted Rge freq /\
    forall a, inertia_slope N n (m_w m) (m_geom m) lx a ->
    let tau0 := tau_cl n K w J a in
    rotor_energy N n (m_w m) (m_geom m) J lx w F3 K lam tau0 (shift_cl lam w J a) /\
    forall fuel, (fuel0 <= fuel)%nat ->
    exists o, run eig2 eig label A fuel (Some (sg iatom)) false m axes iatom 3 (Quartic fc2 f3x f4x) = Some (FullResult o) /\
    let q := out_quartic o in
    let kappa := 3833384078 / 100000 / (2 * K) ^ 3 in
    (exists t, forall x y z,
      kappa * quartic_form tau0 x y z = top4 (djw q) (djkw q) (dkw q) x y z + t * (z * (x ^ 3 - 3 * x * y ^ 2))) /\
    (m_rotor m = OblateSymmTop ->
      djn q = djw q /\ djkn q = djkw q /\ dkn q = dkw q /\ sdjn q = 0 /\ r5 q = 0 /\ r6 q = 0).
Proof. exact @run_three_distort. Qed.

Example run_threefold_distortion_ex : (exists l0,
  (forall a i, (i < 12)%nat -> l0 a i = pyr_V a i) /\
  let m := pyr_mol in
  let w := fun i => nth i pyr_freq 0 in
  m_rotor m = OblateSymmTop /\ (0 < m_nvib m <= 3 * m_natom m)%nat /\ (forall q, (q < m_natom m)%nat -> 0 < m_w m q) /\
  c3v (m_natom m) (m_w m) s3 pyr_sg pyr_mu /\ placed (m_natom m) s3 pyr_sg pyr_mu (m_geom m) /\ m_rotcon m 0%nat = m_rotcon m 1%nat /\
  (0 < m_natom m)%nat /\ pyr_mu 0 = 0%nat /\ sym2 12 pyr_f2 /\ tsym3 12 pyr_f3 /\ tsym4 12 pyr_f4 /\
  same2 12 (op pyr_sg (third s3)) (con2 12 (every_atom delta) pyr_f2) /\ same2 12 (op pyr_mu flip) (con2 12 (every_atom delta) pyr_f2) /\
  same3 12 (op pyr_sg (third s3)) (con3 12 (every_atom delta) pyr_f3) /\ same3 12 (op pyr_mu flip) (con3 12 (every_atom delta) pyr_f3) /\
  same4 12 (op pyr_sg (third s3)) (con4 12 (every_atom delta) pyr_f4) /\ same4 12 (op pyr_mu flip) (con4 12 (every_atom delta) pyr_f4) /\
  orth 3 delta /\ rotation_free 4 pyr_f2 (input_position delta (m_geom m)) /\
  solves 12 pyr_eig (secular 4 delta pyr_f2 (m_w m)) /\
  harmonic 4 delta pyr_f2 (m_w m) pyr_eig = Some (pyr_freq, l0) /\
  threefold_modes 4 (m_nvib m) 0 s3 pyr_sg pyr_mu w l0 /\
  (forall i j k, (i < m_nvib m)%nat -> (j < m_nvib m)%nat -> (k < m_nvib m)%nat -> w i + w j <> w k) /\
  2 * pyr_K * pyr_lam ^ 2 = 1 /\ (forall y, (y < 3)%nat -> 0 < m_primat m y) /\
  (forall y, (y < 3)%nat -> m_rotcon m y = pyr_K / m_primat m y) /\
  (forall i j, pyr_rep i j = true <-> (i < m_nvib m)%nat /\ (j < m_nvib m)%nat /\ i <> j /\ w i = w j)) /\
  let m := pyr_mol in
  m_rotor m = OblateSymmTop /\ m_rotcon m 2%nat < m_rotcon m 0%nat /\ (3 * m_natom m = m_nvib m + 6)%nat /\
  translation_free 4 pyr_f2 /\
  (forall x, (x < 3)%nat -> Sum 4 (fun q => m_w m q * comp (m_geom m q) x) = 0) /\
  (forall x y, (x < 3)%nat -> (y < 3)%nat -> inertia 4 (m_w m) (m_geom m) x y = kron x y * m_primat m x) /\
  0 < pyr_lam.
Proof. split; [exact pyr_hyps|exact pyr_more]. Qed.
Print Assumptions run_threefold_distortion.
