(** Property C127: the distortion constants of linear molecules. *)
From Coq Require Import Reals Lra List ZArith Arith Lia Bool Sorted.
From Verif Require Import Num Loops Modes StatesFacts IndexFacts AnharmFacts SymAnharm Transform TransformFacts RotFacts NormalFacts HarmFacts ModeFacts ZeroFacts ReportFacts
  Report VibRot VibRotFacts Distort Geom AlignExact Finish FormFacts EckartFacts InertiaFacts RunSecond RunRot SumRule RotorMech
  Threefold ThreeForm ThreeModes ThreeWitness LinearModes LinearRun LinearMech LinearUnique LinearDistort LinearWitness LinearDistortWitness.
Import ListNotations.
Open Scope nat_scope.
Local Open Scope R_scope.

(** C127: the least energy of the atoms of a linear molecule that rotate with angular momentum J is
    B J^2 - D J^4 + H J^6; the run prints [kappa] D, and H up to a multiple of [kappa^2 - 1], where
    [kappa] is the quotient of two values of the same constant of nature in the code *)
Theorem run_linear_distortion :
  forall (I : Type) eig2 eig (label : (nat -> R * R * R) -> (nat -> nat -> R) -> nat -> R -> option I) A
    m axes iatom order buddy fc2 f3x f4x freq l0 K,
  let N := m_natom m in
  let n := m_nvib m in
  let B := m_rotcon m in
  let J := m_primat m in
  let w := fun i => nth i freq 0 in
  let lam := 1722212503791076 / 10000000000000000 in
  let g2 := con2 (3 * N) (every_atom axes) fc2 in
  let g3 := con3 (3 * N) (every_atom axes) f3x in
  let g4 := con4 (3 * N) (every_atom axes) f4x in
  m_rotor m = Linear ->
  (2 < N)%nat -> (3 * N = n + 5)%nat ->
  (forall q, (q < N)%nat -> 0 < m_w m q) ->
  on_axis N (m_geom m) -> B 0%nat = B 1%nat ->
  (iatom < N)%nat ->
  sym2 (3 * N) fc2 -> tsym3 (3 * N) f3x -> tsym4 (3 * N) f4x ->
  axially_symmetric N g2 g3 g4 ->
  orth 3 axes -> translation_free N fc2 -> rotation_free N fc2 (input_position axes (m_geom m)) ->
  solves (3 * N) eig (secular N axes fc2 (m_w m)) ->
  harmonic N axes fc2 (m_w m) eig = Some (freq, l0) ->
  linear_modes N n iatom w l0 ->
  (forall i j k, (i < n)%nat -> (j < n)%nat -> (k < n)%nat -> w i + w j <> w k) ->
  (forall x, (x < 3)%nat -> Sum N (fun q => m_w m q * comp (m_geom m q) x) = 0) ->
  inertia N (m_w m) (m_geom m) 0 0 = J 0%nat ->
  2 * K * lam ^ 2 = 1 -> 0 < J 0%nat -> B 0%nat = K / J 0%nat ->
  exists fuel0 lx D H,
    let hess := fun a b => FACT2 * g2 a b in
    let F3 := cubic_spec (3 * N) g3 lx w in
    (forall i j, (i < 3 * N)%nat -> (j < 3 * N)%nat ->
       Sum (3 * N) (fun a => m_w m (a / 3)%nat * lx a i * lx a j) = (if Nat.eqb i j then 1 else 0)) /\
    (forall i j, (i < 3 * N)%nat -> (j < 3 * N)%nat -> i <> j -> con2 (3 * N) lx hess i j = 0) /\
    (forall i, (i < 3 * N)%nat -> nth_error freq i = Some (to_wavenumber (con2 (3 * N) lx hess i i))) /\
    StronglySorted Rge freq /\
    linear_energy N n (m_w m) (m_geom m) lx w F3 K lam (B 0%nat) D H /\
    forall fuel, (fuel0 <= fuel)%nat ->
    exists o, run eig2 eig label A fuel buddy false m axes iatom order (Quartic fc2 f3x f4x) = Some (FullResult o) /\
    let kappa := 3833384078 / 100000 / (2 * K) ^ 3 in
    de (out_quartic o) = kappa * D /\
    he (out_sextic o) = H + (kappa ^ 2 - 1) * (3 * D ^ 2 / B 0%nat).
Proof. exact @run_linear_distort. Qed.

Example linear_distortion_ex : exists l0,
  let m := lin_mol6 in
  let w := fun i => nth i lin_freq 0 in
  m_rotor m = Linear /\ (2 < m_natom m)%nat /\ (3 * m_natom m = m_nvib m + 5)%nat /\ (forall q, (q < m_natom m)%nat -> 0 < m_w m q) /\
  on_axis (m_natom m) (m_geom m) /\ m_rotcon m 0%nat = m_rotcon m 1%nat /\
  sym2 9 lin_f2 /\ tsym3 9 lin_f3 /\ tsym4 9 lin_f4 /\
  axially_symmetric 3 (con2 9 (every_atom delta) lin_f2) (con3 9 (every_atom delta) lin_f3) (con4 9 (every_atom delta) lin_f4) /\
  orth 3 delta /\ translation_free 3 lin_f2 /\ rotation_free 3 lin_f2 (input_position delta (m_geom m)) /\
  solves 9 lin_eig (secular 3 delta lin_f2 (m_w m)) /\
  harmonic 3 delta lin_f2 (m_w m) lin_eig = Some (lin_freq, l0) /\
  linear_modes 3 (m_nvib m) 0 w l0 /\
  (forall i j k, (i < m_nvib m)%nat -> (j < m_nvib m)%nat -> (k < m_nvib m)%nat -> w i + w j <> w k) /\
  (forall x, (x < 3)%nat -> Sum 3 (fun q => m_w m q * comp (m_geom m q) x) = 0) /\
  inertia 3 (m_w m) (m_geom m) 0 0 = m_primat m 0%nat /\
  2 * lin_K * (1722212503791076 / 10000000000000000) ^ 2 = 1 /\ 0 < m_primat m 0%nat /\ m_rotcon m 0%nat = lin_K / m_primat m 0%nat.
Proof. exact lin_distort. Qed.
Print Assumptions run_linear_distortion.

(** the energies of the rotating atoms determine D and H *)
Theorem linear_energy_unique : forall N n m geom lx w f3 K lam B D H D' H',
  (forall k, (k < n)%nat -> 0 < w k) ->
  linear_energy N n m geom lx w f3 K lam B D H -> linear_energy N n m geom lx w f3 K lam B D' H' -> D = D' /\ H = H'.
Proof. exact linear_unique. Qed.
Print Assumptions linear_energy_unique.
