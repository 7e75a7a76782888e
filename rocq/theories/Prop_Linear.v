(** Properties C123 to C125: linear molecules. *)
From Coq Require Import Reals Lra List ZArith Arith Lia Bool Sorted.
From Verif Require Import Num Loops Modes StatesFacts IndexFacts AnharmFacts SymAnharm Transform TransformFacts RotFacts NormalFacts HarmFacts ModeFacts ReportFacts
  Report VibRot VibRotFacts Distort Geom AlignExact Finish PerturbFacts PerturbSum PerturbLevels VibPerturb SymE0 SymPerturb SymLevels EckartFacts InertiaFacts RunSecond RunRot
  Threefold ThreeForm ThreeModes ThreeConst LinearModes LinearRun LinearConst LinearWitness.
Import ListNotations.
Open Scope nat_scope.
Local Open Scope R_scope.

(** C123: after the alignment the stretching modes of a linear molecule move the atoms along z only;
    of every pair of bending modes the first moves them along x only and the second along y only,
    by the opposite amounts *)
Theorem alignment_linear : forall N n c order buddy m w h A V lx V' lx',
  (n <= 3 * N)%nat -> (c < N)%nat ->
  sym2 (3 * N) A -> (forall th, same2 (3 * N) (turned_by th) A) -> same2 (3 * N) mirrored A ->
  eigen_system (3 * N) A h V ->
  (forall i j, (i < 3 * N)%nat -> (j < 3 * N)%nat -> w i = w j <-> nth i h 0 = nth j h 0) ->
  linear_modes N n c w V ->
  bdegnl true N n c order buddy w m V lx = Some (V', lx') ->
  (forall i, (i < n)%nat -> (forall j, (j < n)%nat -> j <> i -> w j <> w i) -> forall q, (q < N)%nat ->
     V' (3 * q)%nat i = 0 /\ V' (3 * q + 1)%nat i = 0) /\
  (forall i j, (i < j < n)%nat -> w i = w j -> forall q, (q < N)%nat ->
     V' (3 * q + 1)%nat i = 0 /\ V' (3 * q + 2)%nat i = 0 /\
     V' (3 * q)%nat j = 0 /\ V' (3 * q + 2)%nat j = 0 /\ V' (3 * q + 1)%nat j = - V' (3 * q)%nat i).
Proof. exact alignment_linear_lemma. Qed.

Example alignment_linear_ex : exists V lx V' lx',
  let A := secular 3 delta lin_f2 lin_w in
  let w := fun i => nth i lin_freq 0 in
  sym2 9 A /\ (forall th, same2 9 (turned_by th) A) /\ same2 9 mirrored A /\ eigen_system 9 A lin_vals V /\
  (forall i j, (i < 9)%nat -> (j < 9)%nat -> w i = w j <-> nth i lin_vals 0 = nth j lin_vals 0) /\
  linear_modes 3 4 0 w V /\
  bdegnl true 3 4 0 0 None w lin_w V lx = Some (V', lx') /\
  V 1%nat 2%nat <> 0 /\ V 0%nat 3%nat <> 0.
Proof. exact lin_alignment. Qed.
Print Assumptions alignment_linear.

(** C124: for a linear molecule, whose force constants are the same after every turn about the axis
    and after a mirroring, the fundamentals of the whole run are those of second order perturbation
    theory in the normal coordinates; so is the zero point energy with one pair of bends, and with
    several pairs it differs by the terms that couple two pairs with a stretch *)
Theorem run_linear :
  forall (I : Type) eig2 eig (label : (nat -> R * R * R) -> (nat -> nat -> R) -> nat -> R -> option I) A
    m axes iatom order buddy fc2 f3x f4x freq l0,
  let N := m_natom m in
  let n := m_nvib m in
  let B := m_rotcon m in
  let w := fun i => nth i freq 0 in
  let g2 := con2 (3 * N) (every_atom axes) fc2 in
  let g3 := con3 (3 * N) (every_atom axes) f3x in
  let g4 := con4 (3 * N) (every_atom axes) f4x in
  m_rotor m = Linear ->
  (0 < N)%nat -> (0 < n <= 3 * N)%nat ->
  (forall q, (q < N)%nat -> 0 < m_w m q) ->
  on_axis N (m_geom m) -> B 0%nat = B 1%nat -> B 2%nat = 0 ->
  (iatom < N)%nat ->
  sym2 (3 * N) fc2 -> tsym3 (3 * N) f3x -> tsym4 (3 * N) f4x ->
  axially_symmetric N g2 g3 g4 ->
  solves (3 * N) eig (secular N axes fc2 (m_w m)) ->
  harmonic N axes fc2 (m_w m) eig = Some (freq, l0) ->
  linear_modes N n iatom w l0 ->
  (forall i j k, (i < n)%nat -> (j < n)%nat -> (k < n)%nat -> w i + w j <> w k) ->
  exists fuel0 lx,
    let hess := fun a b => FACT2 * g2 a b in
    let F3 := cubic_spec (3 * N) g3 lx w in
    let F4 := quartic_spec (3 * N) g4 lx w in
    let zeta := zeta_of N (fun a i => sqrt (m_w m (a / 3)%nat) * lx a i) in
    (forall i j, (i < 3 * N)%nat -> (j < 3 * N)%nat ->
       Sum (3 * N) (fun a => m_w m (a / 3)%nat * lx a i * lx a j) = (if Nat.eqb i j then 1 else 0)) /\
    (forall i j, (i < 3 * N)%nat -> (j < 3 * N)%nat -> i <> j -> con2 (3 * N) lx hess i j = 0) /\
    (forall i, (i < 3 * N)%nat -> nth_error freq i = Some (to_wavenumber (con2 (3 * N) lx hess i i))) /\
    StronglySorted Rge freq /\
    forall fuel, (fuel0 <= fuel)%nat ->
    exists o, run eig2 eig label A fuel buddy false m axes iatom order (Quartic fc2 f3x f4x) = Some (FullResult o) /\
    let modes := rs_modes (out_resonances o) in
    (forall i j, In (i, j) (degs modes) <-> (i < j < n)%nat /\ w i = w j) /\
    (forall i, In i (nondeg modes) <-> (i < n)%nat /\ forall j, (j < n)%nat -> j <> i -> w j <> w i) /\
    (rs_fermi1 (out_resonances o) = [] -> rs_fermi2 (out_resonances o) = [] ->
     let listed := nondeg modes ++ firsts modes in
     o_harms (out_lists o) = map w listed /\ o_funds (out_lists o) = o_corrs (out_lists o) /\
     length (o_corrs (out_lists o)) = length listed /\
     forall us0, intermediate n F3 ground us0 ->
       out_zpt o = perturbed n w F3 F4 zeta B none ground us0 + angular_shift n zeta B
         + Rsum (firsts modes) (se_ddn w F3 none (nondeg modes) (firsts modes)) /\
       (length (degs modes) = 1%nat ->
        out_zpt o = perturbed n w F3 F4 zeta B none ground us0 + angular_shift n zeta B) /\
       forall p k us, nth_error listed p = Some k -> intermediate n F3 (one k) us ->
         nth_error (o_corrs (out_lists o)) p
         = Some (perturbed n w F3 F4 zeta B none (one k) us - perturbed n w F3 F4 zeta B none ground us0)).
Proof. exact @run_linear_lemma. Qed.

Example run_linear_ex : exists l0,
  let m := lin_mol in
  m_rotor m = Linear /\ (0 < m_nvib m <= 3 * m_natom m)%nat /\ (forall q, (q < m_natom m)%nat -> 0 < m_w m q) /\
  on_axis (m_natom m) (m_geom m) /\ m_rotcon m 0%nat = m_rotcon m 1%nat /\ m_rotcon m 2%nat = 0 /\
  sym2 9 lin_f2 /\ tsym3 9 lin_f3 /\ tsym4 9 lin_f4 /\
  axially_symmetric 3 (con2 9 (every_atom delta) lin_f2) (con3 9 (every_atom delta) lin_f3) (con4 9 (every_atom delta) lin_f4) /\
  solves 9 lin_eig (secular 3 delta lin_f2 (m_w m)) /\
  harmonic 3 delta lin_f2 (m_w m) lin_eig = Some (lin_freq, l0) /\
  linear_modes 3 (m_nvib m) 0 (fun i => nth i lin_freq 0) l0 /\
  (forall i j k, (i < m_nvib m)%nat -> (j < m_nvib m)%nat -> (k < m_nvib m)%nat ->
     nth i lin_freq 0 + nth j lin_freq 0 <> nth k lin_freq 0).
Proof. exact lin_run. Qed.
Print Assumptions run_linear.

(** C125: the rotational constant of every state of a linear molecule, printed as the sum of
    [rot_b] and the equilibrium constant, is the mean of those about x and y of second order
    perturbation theory *)
Theorem run_linear_rot :
  forall (I : Type) eig2 eig (label : (nat -> R * R * R) -> (nat -> nat -> R) -> nat -> R -> option I) A
    m axes iatom order buddy fc2 f3x f4x freq l0 K lam rep,
  let N := m_natom m in
  let n := m_nvib m in
  let B := m_rotcon m in
  let J := m_primat m in
  let w := fun i => nth i freq 0 in
  let g2 := con2 (3 * N) (every_atom axes) fc2 in
  let g3 := con3 (3 * N) (every_atom axes) f3x in
  let g4 := con4 (3 * N) (every_atom axes) f4x in
  m_rotor m = Linear ->
  (0 < N)%nat -> (0 < n <= 3 * N)%nat ->
  (forall q, (q < N)%nat -> 0 < m_w m q) ->
  on_axis N (m_geom m) -> B 0%nat = B 1%nat -> J 0%nat = J 1%nat ->
  (iatom < N)%nat ->
  sym2 (3 * N) fc2 -> tsym3 (3 * N) f3x -> tsym4 (3 * N) f4x ->
  axially_symmetric N g2 g3 g4 ->
  orth 3 axes -> rotation_free N fc2 (input_position axes (m_geom m)) ->
  solves (3 * N) eig (secular N axes fc2 (m_w m)) ->
  harmonic N axes fc2 (m_w m) eig = Some (freq, l0) ->
  linear_modes N n iatom w l0 ->
  (forall i j k, (i < n)%nat -> (j < n)%nat -> (k < n)%nat -> w i + w j <> w k) ->
  2 * K * lam ^ 2 = 1 -> 0 < J 1%nat -> B 1%nat = K / J 1%nat ->
  (forall i j, rep i j = true <-> (i < n)%nat /\ (j < n)%nat /\ i <> j /\ w i = w j) ->
  exists fuel0 lx,
    let hess := fun a b => FACT2 * g2 a b in
    let F3 := cubic_spec (3 * N) g3 lx w in
    let zeta := zeta_of N (fun a i => sqrt (m_w m (a / 3)%nat) * lx a i) in
    (forall i j, (i < 3 * N)%nat -> (j < 3 * N)%nat ->
       Sum (3 * N) (fun a => m_w m (a / 3)%nat * lx a i * lx a j) = (if Nat.eqb i j then 1 else 0)) /\
    (forall i j, (i < 3 * N)%nat -> (j < 3 * N)%nat -> i <> j -> con2 (3 * N) lx hess i j = 0) /\
    (forall i, (i < 3 * N)%nat -> nth_error freq i = Some (to_wavenumber (con2 (3 * N) lx hess i i))) /\
    StronglySorted Rge freq /\
    forall fuel, (fuel0 <= fuel)%nat ->
    exists o, run eig2 eig label A fuel buddy false m axes iatom order (Quartic fc2 f3x f4x) = Some (FullResult o) /\
    let modes := rs_modes (out_resonances o) in
    (forall i j, In (i, j) (degs modes) <-> (i < j < n)%nat /\ w i = w j) /\
    (forall i, In i (nondeg modes) <-> (i < n)%nat /\ forall j, (j < n)%nat -> j <> i -> w j <> w i) /\
    ((forall i j, (i < n)%nat -> (j < n)%nat -> w i = w j \/ 200 < Rabs (w i - w j)) -> rs_coriolis (out_resonances o) = []) /\
    (rs_coriolis (out_resonances o) = [] ->
     forall a, inertia_slope N n (m_w m) (m_geom m) lx a ->
     let value := fun v x => VibPerturb.rot_const n w F3 zeta a J K lam rep x v + rounding_term n B w a F3 lam x v in
     map rot_state (out_rots o) =
       I1st (repeat 0%nat n)
       :: map (fun p => I1st (unit1 n p 1)) (seq 0 (length (nondeg modes)))
       ++ map (fun p => I2st (punit1 n p (1, 1)%nat)) (seq 0 (length (firsts modes))) /\
     forall p c, nth_error (out_rots o) p = Some c ->
       let v := excited (nondeg modes ++ firsts modes) p in
       rot_b c + B 1%nat = / 2 * (value v 0%nat + value v 1%nat)).
Proof. exact @run_linear_const. Qed.

Example run_linear_rot_ex : exists l0,
  let m := lin_mol in
  let w := fun i => nth i lin_freq 0 in
  m_rotor m = Linear /\ (0 < m_nvib m <= 3 * m_natom m)%nat /\ (forall q, (q < m_natom m)%nat -> 0 < m_w m q) /\
  on_axis (m_natom m) (m_geom m) /\ m_rotcon m 0%nat = m_rotcon m 1%nat /\ m_primat m 0%nat = m_primat m 1%nat /\
  sym2 9 lin_f2 /\ tsym3 9 lin_f3 /\ tsym4 9 lin_f4 /\
  axially_symmetric 3 (con2 9 (every_atom delta) lin_f2) (con3 9 (every_atom delta) lin_f3) (con4 9 (every_atom delta) lin_f4) /\
  orth 3 delta /\ rotation_free 3 lin_f2 (input_position delta (m_geom m)) /\
  solves 9 lin_eig (secular 3 delta lin_f2 (m_w m)) /\
  harmonic 3 delta lin_f2 (m_w m) lin_eig = Some (lin_freq, l0) /\
  linear_modes 3 (m_nvib m) 0 w l0 /\
  (forall i j k, (i < m_nvib m)%nat -> (j < m_nvib m)%nat -> (k < m_nvib m)%nat -> w i + w j <> w k) /\
  2 * 9 * (/ sqrt 18) ^ 2 = 1 /\ 0 < m_primat m 1%nat /\ m_rotcon m 1%nat = 9 / m_primat m 1%nat /\
  (forall i j, lin_rep i j = true <-> (i < m_nvib m)%nat /\ (j < m_nvib m)%nat /\ i <> j /\ w i = w j) /\
  (forall i j, (i < m_nvib m)%nat -> (j < m_nvib m)%nat -> w i = w j \/ 200 < Rabs (w i - w j)).
Proof. exact lin_rot. Qed.
Print Assumptions run_linear_rot.
