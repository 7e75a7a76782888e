(** Three atoms on a line: the molecule of LinearWitness with the rotational constant of its moment of inertia. *)
From Coq Require Import Reals Lra List ZArith Arith Lia Bool.
From Verif Require Import Num Loops ListFacts AnharmFacts Modes ResFacts FrameFacts Transform TransformFacts RotFacts NormalFacts HarmFacts ModeFacts DistortFacts EckartFacts InertiaFacts ReportFacts GeomFacts ZeroFacts
  Geom AlignExact Finish RunRot Threefold ThreeForm ThreeModes ThreeWitness PyramidWitness LinearModes LinearRun LinearMech LinearWitness.
Import ListNotations.
Open Scope nat_scope.
Local Open Scope R_scope.

Definition lin_lam : R := 1722212503791076 / 10000000000000000.
Definition lin_K : R := / (2 * lin_lam ^ 2).
Definition lin_mol6 : molecule R :=
  mk_mol Linear [1; 1; 1; 1; 1; 1; 1; 4]%Z 3 4 lin_geom lin_w (fun i => match i with 2%nat => 0 | _ => lin_K / 9 end) (fun i => match i with 2%nat => 0 | _ => 9 end).

Lemma lin_shift : translation_free 3 lin_f2.
Proof.
  intros a x Ha Hx.
  assert (Z : Sum 3 (fun q => rm (3 * q + x) * lin_V (3 * q + x) 0) = 0 /\ Sum 3 (fun q => rm (3 * q + x) * lin_V (3 * q + x) 1) = 0 /\
              Sum 3 (fun q => rm (3 * q + x) * lin_X (3 * q + x)) = 0 /\ Sum 3 (fun q => rm (3 * q + x) * lin_Y (3 * q + x)) = 0).
  { repeat split; below3 x; cbn; lra. }
  destruct Z as (Z0 & Z1 & Z2 & Z3).
  transitivity (Sum 3 (fun q => / @FACT2 R Rnum * (tri_val 2500 * (rm a * lin_V a 0)) * (rm (3 * q + x) * lin_V (3 * q + x) 0)
    + / @FACT2 R Rnum * (tri_val 1500 * (rm a * lin_V a 1)) * (rm (3 * q + x) * lin_V (3 * q + x) 1)
    + / @FACT2 R Rnum * (tri_val 600 * (rm a * lin_X a)) * (rm (3 * q + x) * lin_X (3 * q + x))
    + / @FACT2 R Rnum * (tri_val 600 * (rm a * lin_Y a)) * (rm (3 * q + x) * lin_Y (3 * q + x)))).
  - apply sum_g. intros b Hb. unfold lin_f2. ring.
  - rewrite !Rsum_plus, !Rsum_scal, Z0, Z1, Z2, Z3. ring.
Qed.

Lemma lin_distort : exists l0,
  let m := lin_mol6 in
  let w := fun i => nth i lin_freq 0 in
  m_rotor m = Linear /\ (2 < m_natom m)%nat /\ (3 * m_natom m = m_nvib m + 5)%nat /\ (forall q, (q < m_natom m)%nat -> 0 < m_w m q) /\
  on_axis (m_natom m) (m_geom m) /\ m_rotcon m 0%nat = m_rotcon m 1%nat /\
  sym2 9 lin_f2 /\ tsym3 9 lin_f3 /\ tsym4 9 lin_f4 /\
  axially_symmetric 3 (con2 9 (every_atom delta) lin_f2) (con3 9 (every_atom delta) lin_f3) (con4 9 (every_atom delta) lin_f4) /\
  orth 3 delta /\ translation_free 3 lin_f2 /\ rotation_free 3 lin_f2 (input_position delta (m_geom m)) /\
  solves 9 lin_eig (secular 3 delta lin_f2 (m_w m)) /\
  harmonic 3 delta lin_f2 (m_w m) lin_eig = Some (lin_freq, l0) /\
  linear_modes 3 (m_nvib m) 0 w l0 /\
  (forall i j k, (i < m_nvib m)%nat -> (j < m_nvib m)%nat -> (k < m_nvib m)%nat -> w i + w j <> w k) /\
  (forall x, (x < 3)%nat -> Sum 3 (fun q => m_w m q * comp (m_geom m q) x) = 0) /\
  inertia 3 (m_w m) (m_geom m) 0 0 = m_primat m 0%nat /\
  2 * lin_K * (1722212503791076 / 10000000000000000) ^ 2 = 1 /\ 0 < m_primat m 0%nat /\ m_rotcon m 0%nat = lin_K / m_primat m 0%nat.
Proof.
  destruct lin_harmonic as (l0 & Eh & El). exists l0. cbv zeta. cbn [lin_mol6 m_rotor m_nvib m_natom m_w m_geom m_rotcon m_primat].
  split; [reflexivity|]. split; [lia|]. split; [lia|]. split; [intros; apply lin_pos|]. split; [exact lin_axis|].
  split; [reflexivity|]. split; [exact lin_sym2|]. split; [exact lin_sym3|]. split; [exact lin_sym4|].
  split; [exact lin_symmetric|]. split; [exact orth_delta3|]. split; [exact lin_shift|]. split; [exact lin_free|].
  split; [exact lin_solves|]. split; [exact Eh|]. split; [exact (lin_modes l0 El)|]. split; [exact lin_apart|].
  split. { intros x Hx. below3 x; cbn; lra. }
  split. { unfold inertia. rewrite sum_3. unfold kron. cbn. lra. }
  split. { unfold lin_K. fold lin_lam. assert (lin_lam <> 0) by (unfold lin_lam; lra). field. assumption. }
  split; [lra|reflexivity].
Qed.
