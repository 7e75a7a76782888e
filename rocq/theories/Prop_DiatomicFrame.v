(** Property C129: the frame of the force constants of a diatomic molecule. *)
From Coq Require Import Reals Lra List ZArith NArith Arith Lia Bool Ascii String.
From Verif Require Import Num Loops Index Modes ResFacts Anharm VibRot Distort Transform TransformFacts ModeFacts Geom GeomFacts
  InertiaFacts Finish Text Program ProgramRun FrameFacts FrameWitness PairWitness DunhamFacts DiatomicRun DiatomicTurned DiatomicWitness.
Import ListNotations.
Open Scope list_scope.
Open Scope nat_scope.
Open Scope R_scope.

(** C129.  The loaded geometry of a diatomic molecule is that of the file seen in the frame into which the force
    constants are turned if and only if this holds: when the third principal axis is the z axis of the file, the
    first one is its x axis (and not its y axis, or x reversed). *)
Theorem diatomic_frame : forall (I : Type) (sy : symm R I) s mu (T : FText R) infile (l : loaded R),
  load_input sy infile = Some l -> l_rotor l = Diatomic ->
  exists s0 pr axes ats', read infile = Some s0 /\ normalize sy (to_angstrom sy (atoms s0)) = (pr, axes, Diatomic, ats') /\
  (symm_ok sy s mu (atoms s0) -> total sy (atoms s0) <> 0 ->
   (exists a b, In a ats' /\ In b ats' /\ ax a <> ax b) ->
   (exists c, atoms (l_input l) = map (fun a => atom_at a (in_frame (l_axes l) (vsub (vscale s (where_ a)) c))) (atoms s0))
     <-> first_is_x axes).
Proof. exact (@diatomic_frame_lemma). Qed.
Example diatomic_frame_ex : exists l s0,
  load_input (H1 := Rtext) pair_symm pair_in = Some l /\ l_rotor l = Diatomic /\ read (H := Rtext) pair_in = Some s0 /\
  symm_ok pair_symm (1 / 2) (fun _ _ => 1) (atoms s0) /\ total pair_symm (atoms s0) <> 0 /\ List.length (atoms s0) = 2%nat.
Proof.
  destruct pair_loaded as (l & El & Hr). destruct pair_read as (s0 & Er & Ha). exists l, s0. rewrite Ha.
  split; [exact El|]. split; [exact Hr|]. split; [exact Er|]. split; [exact pair_ok|]. split; [exact pair_total|reflexivity].
Qed.
Print Assumptions diatomic_frame.

(** the two frames need not be the same: two atoms along the y axis of the file *)
Theorem diatomic_frame_refuted :
  exists (I : Type) (sy : symm R I) s mu (T : FText R) infile (l : loaded R) s0,
    load_input sy infile = Some l /\ read infile = Some s0 /\ symm_ok sy s mu (atoms s0) /\ total sy (atoms s0) <> 0 /\
    l_rotor l = Diatomic /\ List.length (atoms s0) = 2%nat /\
    ~ exists c, atoms (l_input l) = map (fun a => atom_at a (in_frame (l_axes l) (vsub (vscale s (where_ a)) c))) (atoms s0).
Proof. exact diatomic_refuted_lemma. Qed.
Print Assumptions diatomic_frame_refuted.

(** What is reported then: with the atoms on the x axis and the force constants of a bond along y, the run succeeds
    and reports the centrifugal constant De = 0, for every potential. *)
Theorem run_diatomic_turned : forall (I : Type) eig2 eig (label : (nat -> R * R * R) -> (nat -> nat -> R) -> nat -> R -> option I) (A : I)
    (m : molecule R) axes iatom order buddy fc2 f3x f4x x p2 p3 p4,
  let g2 := fun a b => con2 6 (every_atom axes) fc2 (swap_xy a) (swap_xy b) in
  let g3 := fun a b c => con3 6 (every_atom axes) f3x (swap_xy a) (swap_xy b) (swap_xy c) in
  let g4 := fun a b c d => con4 6 (every_atom axes) f4x (swap_xy a) (swap_xy b) (swap_xy c) (swap_xy d) in
  m_rotor m = Diatomic -> m_natom m = 2%nat -> m_nvib m = 1%nat ->
  0 < m_w m 0%nat -> 0 < m_w m 1%nat ->
  (forall q, (q < 2)%nat -> m_geom m q = (x q, 0, 0)) -> x 0%nat <> x 1%nat ->
  sym2 6 fc2 -> tsym3 6 f3x -> tsym4 6 f4x ->
  bond_field x g2 g3 g4 p2 p3 p4 -> 0 < p2 ->
  solves 6 eig (secular 2 axes fc2 (m_w m)) ->
  exists fuel0, forall fuel, (fuel0 <= fuel)%nat ->
  exists o,
    run eig2 eig label A fuel buddy false m axes iatom order (Quartic fc2 f3x f4x) = Some (FullResult o) /\
    de (out_quartic o) = 0.
Proof. exact @run_turned. Qed.
Example run_diatomic_turned_ex :
  let m := two_mol in
  m_rotor m = Diatomic /\ m_natom m = 2%nat /\ m_nvib m = 1%nat /\
  0 < m_w m 0%nat /\ 0 < m_w m 1%nat /\
  (forall q, (q < 2)%nat -> m_geom m q = (two_x q, 0, 0)) /\ two_x 0%nat <> two_x 1%nat /\
  sym2 6 y_f2 /\ tsym3 6 y_f3 /\ tsym4 6 y_f4 /\
  bond_field two_x (fun a b => con2 6 (every_atom delta) y_f2 (swap_xy a) (swap_xy b))
    (fun a b c => con3 6 (every_atom delta) y_f3 (swap_xy a) (swap_xy b) (swap_xy c))
    (fun a b c d => con4 6 (every_atom delta) y_f4 (swap_xy a) (swap_xy b) (swap_xy c) (swap_xy d)) (1 / 2) (-1) 3 /\
  solves 6 y_eig (secular 2 delta y_f2 (m_w m)).
Proof. exact y_example. Qed.
Print Assumptions run_diatomic_turned.
