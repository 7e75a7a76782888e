(** Property C128: what the program reports for a diatomic molecule. *)
From Coq Require Import Reals Lra Lia List ZArith Arith Bool.
From Verif Require Import Num Loops Index Modes ResFacts Anharm VibRot Distort Transform TransformFacts ModeFacts Geom Report Finish
  GeomFacts InertiaFacts DunhamFacts DiatomicRun DiatomicWitness.
Import ListNotations.
Open Scope R_scope.

(** C128.  Two atoms on the first principal axis whose energy depends on the length r of the bond alone,
    with derivatives 0, p2, p3, p4 (force constants in the units of the input, r in Angstrom, A0 the length of
    the atomic unit): the run succeeds and reports
      w = WAVE sqrt (FACT2 p2 / mu), the fundamental, the zero point energy, De, He and the rotational constants
    that Dunham's theory gives for this potential, a1 = p3 r / (3 p2) and a2 = p4 r^2 / (12 p2), whatever the order
    of the two atoms and whatever sign the solver gives the mode.  Five factors close to 1, the same for every
    molecule, come from the rounded conversion factors of the code; the one of De is 1.000236. *)
Theorem run_diatomic :
  exists k1 k2 k3 k4 k5,
  1000236 / 1000000 < k1 < 1000237 / 1000000 /\ 1 - / 1000000000000000 < k2 < 1 /\
  10000159 / 10000000 < k3 < 1000016 / 1000000 /\
  1 - / 1000000000000000 < k4 < 1 + / 1000000000000000 /\
  1 - / 1000000000000000 < k5 < 1 + / 1000000000000000 /\
  forall (I : Type) eig2 eig (label : (nat -> R * R * R) -> (nat -> nat -> R) -> nat -> R -> option I) (A : I) (m : molecule R)
    axes iatom order buddy fc2 f3x f4x x p2 p3 p4,
  let mu := reduced (m_w m) in
  let r := Rabs (x 1%nat - x 0%nat) in
  let g2 := con2 6 (every_atom axes) fc2 in
  let g3 := con3 6 (every_atom axes) f3x in
  let g4 := con4 6 (every_atom axes) f4x in
  let b := ROTCONST / (mu * r ^ 2) in
  let f := WAVE * sqrt (FACT2 * p2 / mu) in
  let a1 := p3 * (r / A0) / (3 * p2) * k4 in
  let a2 := p4 * (r / A0) ^ 2 / (12 * p2) * k5 in
  let Y20 := 3 / 2 * b * (a2 - 5 / 4 * a1 ^ 2) in
  let Y00 := b / 8 * (3 * a2 - 7 / 4 * a1 ^ 2) in
  let E v := f * (v + / 2) + Y20 * (v + / 2) ^ 2 + Y00 in
  let al := 6 * b ^ 2 / f * (1 + a1 * k3) in
  m_rotor m = Diatomic -> m_natom m = 2%nat -> m_nvib m = 1%nat ->
  0 < m_w m 0%nat -> 0 < m_w m 1%nat ->
  (forall q, (q < 2)%nat -> m_geom m q = (x q, 0, 0)) -> x 0%nat <> x 1%nat ->
  m_w m 0%nat * x 0%nat + m_w m 1%nat * x 1%nat = 0 ->
  (forall a, (a < 3)%nat -> m_primat m a = inertia 2 (m_w m) (m_geom m) a a) ->
  (forall a, (a < 3)%nat -> m_rotcon m a = rot_const (m_primat m a)) ->
  / 100 < mu * r ^ 2 ->
  sym2 6 fc2 -> tsym3 6 f3x -> tsym4 6 f4x ->
  bond_field x g2 g3 g4 p2 p3 p4 -> 0 < p2 ->
  solves 6 eig (secular 2 axes fc2 (m_w m)) ->
  exists fuel0, forall fuel, (fuel0 <= fuel)%nat ->
  exists o irreps,
    run eig2 eig label A fuel buddy false m axes iatom order (Quartic fc2 f3x f4x) = Some (FullResult o) /\
    out_lists o = mk_lists [f] [f + 2 * Y20] [E 1 - E 0] irreps /\ length irreps = 1%nat /\
    out_zpt o = E 0 /\
    rs_modes (out_resonances o) = [I1 0%nat] /\ rs_coriolis (out_resonances o) = [] /\
    rs_fermi1 (out_resonances o) = [] /\ rs_fermi2 (out_resonances o) = [] /\
    de (out_quartic o) = 4 * b ^ 3 / f ^ 2 * k1 /\
    he (out_sextic o) = 16 * b ^ 5 / f ^ 4 * (3 * k1 ^ 2 + a1 * k2) /\
    linear_rows (out_rots o) (out_rot_equil o) = [(I1st [0%nat], b + al / 2); (I1st [1%nat], b + al * (3 / 2))].
Proof. exact run_diatomic_full. Qed.

(** masses 9 and 16 at distance 1, p2 = 1/2, p3 = -1, p4 = 3 *)
Example run_diatomic_ex :
  let m := two_mol in
  m_rotor m = Diatomic /\ m_natom m = 2%nat /\ m_nvib m = 1%nat /\
  0 < m_w m 0%nat /\ 0 < m_w m 1%nat /\
  (forall q, (q < 2)%nat -> m_geom m q = (two_x q, 0, 0)) /\ two_x 0%nat <> two_x 1%nat /\
  m_w m 0%nat * two_x 0%nat + m_w m 1%nat * two_x 1%nat = 0 /\
  (forall a, (a < 3)%nat -> m_primat m a = inertia 2 (m_w m) (m_geom m) a a) /\
  (forall a, (a < 3)%nat -> m_rotcon m a = rot_const (m_primat m a)) /\
  / 100 < reduced (m_w m) * Rabs (two_x 1 - two_x 0) ^ 2 /\
  sym2 6 two_f2 /\ tsym3 6 two_f3 /\ tsym4 6 two_f4 /\
  bond_field two_x (con2 6 (every_atom delta) two_f2) (con3 6 (every_atom delta) two_f3)
    (con4 6 (every_atom delta) two_f4) (1 / 2) (-1) 3 /\
  solves 6 two_eig (secular 2 delta two_f2 (m_w m)).
Proof. exact two_example. Qed.
Print Assumptions run_diatomic.
