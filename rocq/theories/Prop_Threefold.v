(** Properties C120 and C121: molecules with a threefold axis and a mirror plane. *)
From Coq Require Import Reals Lra List ZArith Arith Lia Bool Sorted.
From Verif Require Import Num Loops Modes AnharmFacts SymAnharm Transform TransformFacts RotFacts NormalFacts HarmFacts ModeFacts ReportFacts
  Report VibRot VibRotFacts Geom AlignExact Finish PerturbFacts PerturbSum PerturbLevels SymE0 SymPerturb SymLevels RunSecond
  Threefold ThreeForm ThreeModes ThreeRun ThreeWitness.
Import ListNotations.
Open Scope nat_scope.

(** C121: the alignment turns the modes of every pair such that the first partner is even under
    the mirror and the second one odd, and that the turn by 120 degrees about z carries them into
    each other in the same sense *)
Theorem alignment_threefold : forall N n c m s sg mu w h A V lx V' lx',
  c3v N m s sg mu -> n <= 3 * N -> c < N -> mu c = c ->
  sym2 (3 * N) A -> same2 (3 * N) (op sg (third s)) A -> same2 (3 * N) (op mu flip) A ->
  eigen_system (3 * N) A h V ->
  (forall i j, i < 3 * N -> j < 3 * N -> w i = w j <-> nth i h 0%R = nth j h 0%R) ->
  threefold_modes N n c s sg mu w V ->
  bdegnl false N n c 3 (Some (sg c)) w m V lx = Some (V', lx') ->
  (forall i, i < n -> (forall j, j < n -> j <> i -> w j <> w i) -> forall b, b < 3 * N ->
     act (3 * N) (op sg (third s)) (fun a => V' a i) b = V' b i /\
     act (3 * N) (op mu flip) (fun a => V' a i) b = V' b i) /\
  (forall i j, i < j < n -> w i = w j -> forall b, b < 3 * N ->
     act (3 * N) (op sg (third s)) (fun a => V' a i) b = (- (1 / 2) * V' b i + sqrt 3 / 2 * V' b j)%R /\
     act (3 * N) (op sg (third s)) (fun a => V' a j) b = (- (sqrt 3 / 2) * V' b i + - (1 / 2) * V' b j)%R /\
     act (3 * N) (op mu flip) (fun a => V' a i) b = V' b i /\
     act (3 * N) (op mu flip) (fun a => V' a j) b = (- V' b j)%R).
Proof. exact alignment_three_lemma. Qed.

Example alignment_threefold_ex : exists V lx V' lx',
  let A := secular 3 delta tri_f2 (fun _ => 1%R) in
  let w := fun i => nth i tri_freq 0%R in
  c3v 3 (fun _ => 1%R) s3 tri_sg tri_mu /\ tri_mu 0 = 0 /\
  sym2 9 A /\ same2 9 (op tri_sg (third s3)) A /\ same2 9 (op tri_mu flip) A /\ eigen_system 9 A tri_vals V /\
  (forall i j, i < 9 -> j < 9 -> w i = w j <-> nth i tri_vals 0%R = nth j tri_vals 0%R) /\
  threefold_modes 3 3 0 s3 tri_sg tri_mu w V /\
  bdegnl false 3 3 0 3 (Some (tri_sg 0)) w (fun _ => 1%R) V lx = Some (V', lx') /\
  (* the given modes are turned in the other sense *)
  act 9 (op tri_sg (third s3)) (fun a => V a 1) 1 <> (- (1 / 2) * V 1%nat 1%nat + sqrt 3 / 2 * V 1%nat 2%nat)%R.
Proof. exact tri_alignment. Qed.
Print Assumptions alignment_threefold.

(** C120: for a molecule with a threefold axis and a mirror plane, whose force constants have this
    symmetry, the fundamentals and the zero point energy of the whole run are those of second order
    perturbation theory in the normal coordinates; the constant of the zero point energy lacks the
    terms of C72 and carries the rotational energy of the pairs *)
Theorem run_threefold :
  forall (I : Type) eig2 eig (label : (nat -> R * R * R) -> (nat -> nat -> R) -> nat -> R -> option I) A
    m axes iatom s sg mu fc2 f3x f4x freq l0,
  let N := m_natom m in
  let n := m_nvib m in
  let B := m_rotcon m in
  let w := fun i => nth i freq 0%R in
  let turn := op sg (third s) in
  let mirror := op mu flip in
  let g2 := con2 (3 * N) (every_atom axes) fc2 in
  let g3 := con3 (3 * N) (every_atom axes) f3x in
  let g4 := con4 (3 * N) (every_atom axes) f4x in
  m_rotor m = OblateSymmTop \/ m_rotor m = ProlateSymmTop ->
  0 < N -> 0 < n <= 3 * N ->
  (forall q, q < N -> (0 < m_w m q)%R) ->
  c3v N (m_w m) s sg mu -> placed N s sg mu (m_geom m) -> B 0 = B 1 ->
  iatom < N -> mu iatom = iatom ->
  sym2 (3 * N) fc2 -> tsym3 (3 * N) f3x -> tsym4 (3 * N) f4x ->
  same2 (3 * N) turn g2 -> same2 (3 * N) mirror g2 ->
  same3 (3 * N) turn g3 -> same3 (3 * N) mirror g3 ->
  same4 (3 * N) turn g4 -> same4 (3 * N) mirror g4 ->
  solves (3 * N) eig (secular N axes fc2 (m_w m)) ->
  harmonic N axes fc2 (m_w m) eig = Some (freq, l0) ->
  threefold_modes N n iatom s sg mu w l0 ->
  (forall i j k, i < n -> j < n -> k < n -> (w i + w j)%R <> w k) ->
  exists fuel0 lx,
    let hess := fun a b => (FACT2 * g2 a b)%R in
    let F3 := cubic_spec (3 * N) g3 lx w in
    let F4 := quartic_spec (3 * N) g4 lx w in
    let zeta := zeta_of N (fun a i => (sqrt (m_w m (a / 3)%nat) * lx a i)%R) in
    (forall i j, i < 3 * N -> j < 3 * N ->
       Sum (3 * N) (fun a => m_w m (a / 3)%nat * lx a i * lx a j)%R = (if Nat.eqb i j then 1 else 0)%R) /\
    (forall i j, i < 3 * N -> j < 3 * N -> i <> j -> con2 (3 * N) lx hess i j = 0%R) /\
    (forall i, i < 3 * N -> nth_error freq i = Some (to_wavenumber (con2 (3 * N) lx hess i i))) /\
    StronglySorted Rge freq /\
    forall fuel, fuel0 <= fuel ->
    exists o, run eig2 eig label A fuel (Some (sg iatom)) false m axes iatom 3 (Quartic fc2 f3x f4x) = Some (FullResult o) /\
    let modes := rs_modes (out_resonances o) in
    (forall i j, In (i, j) (degs modes) <-> i < j < n /\ w i = w j) /\
    (forall i, In i (nondeg modes) <-> i < n /\ forall j, j < n -> j <> i -> w j <> w i) /\
    (rs_fermi1 (out_resonances o) = [] -> rs_fermi2 (out_resonances o) = [] ->
     let listed := nondeg modes ++ firsts modes in
     o_harms (out_lists o) = map w listed /\ o_funds (out_lists o) = o_corrs (out_lists o) /\
     length (o_corrs (out_lists o)) = length listed /\
     forall us0, intermediate n F3 ground us0 ->
       out_zpt o = (perturbed n w F3 F4 zeta B none ground us0 + angular_shift n zeta B
         - / 2 * Rsum (degs modes) (fun p => B 2%nat * Rsqr (zeta (fst p) (snd p) 2%nat)) + lost modes w F3)%R /\
       forall p k us, nth_error listed p = Some k -> intermediate n F3 (one k) us ->
         nth_error (o_corrs (out_lists o)) p
         = Some (perturbed n w F3 F4 zeta B none (one k) us - perturbed n w F3 F4 zeta B none ground us0)%R).
Proof. exact @run_three_lemma. Qed.

Example run_threefold_ex : exists l0,
  let m := tri_mol in
  m_rotor m = OblateSymmTop /\ 0 < m_nvib m <= 3 * m_natom m /\ (forall q, q < m_natom m -> (0 < m_w m q)%R) /\
  c3v (m_natom m) (m_w m) s3 tri_sg tri_mu /\ placed (m_natom m) s3 tri_sg tri_mu (m_geom m) /\ m_rotcon m 0 = m_rotcon m 1 /\
  0 < m_natom m /\ tri_mu 0 = 0 /\ sym2 9 tri_f2 /\ tsym3 9 tri_f3 /\ tsym4 9 tri_f4 /\
  same2 9 (op tri_sg (third s3)) (con2 9 (every_atom delta) tri_f2) /\ same2 9 (op tri_mu flip) (con2 9 (every_atom delta) tri_f2) /\
  same3 9 (op tri_sg (third s3)) (con3 9 (every_atom delta) tri_f3) /\ same3 9 (op tri_mu flip) (con3 9 (every_atom delta) tri_f3) /\
  same4 9 (op tri_sg (third s3)) (con4 9 (every_atom delta) tri_f4) /\ same4 9 (op tri_mu flip) (con4 9 (every_atom delta) tri_f4) /\
  solves 9 tri_eig (secular 3 delta tri_f2 (m_w m)) /\
  harmonic 3 delta tri_f2 (m_w m) tri_eig = Some (tri_freq, l0) /\
  threefold_modes 3 (m_nvib m) 0 s3 tri_sg tri_mu (fun i => nth i tri_freq 0%R) l0 /\
  (forall i j k, i < m_nvib m -> j < m_nvib m -> k < m_nvib m ->
     (nth i tri_freq 0 + nth j tri_freq 0)%R <> nth k tri_freq 0%R).
Proof. exact tri_run. Qed.
Print Assumptions run_threefold.
