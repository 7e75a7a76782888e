(** Property C107: whole runs with Fermi resonances. *)
From Coq Require Import Reals Lra List ZArith Arith Lia Bool Permutation Sorted.
From Verif Require Import Num Loops Index Modes ModesFacts ResFacts StatesFacts Anharm AnharmFacts VibRot Distort
  Transform TransformFacts RotFacts NormalFacts ModeFacts ReportFacts Polyads Report Geom IrrepFacts
  FermiFacts FermiWitness PerturbFacts PerturbSum PerturbLevels SymE0 Finish FinishFacts RunFacts RunSecond RunFermi.
Import ListNotations.
Open Scope R_scope.

(** C107: a whole run of an asymmetric top, from Cartesian force constants to the reported
    levels, when Fermi resonances are reported.  [E] and [T] are the levels and the excitation
    energies of second-order perturbation theory without the resonant denominators; the
    reported frequency of a mode in a resonance is an eigenvalue of the two-level problem that
    couples its fundamental with the overtone or combination by the cubic term of the
    potential. *)
Theorem run_fermi_resonances :
  forall (I : Type) eig2 eig (label : (nat -> R * R * R) -> (nat -> nat -> R) -> nat -> R -> option I) A buddy (T : Trig R),
  (forall a b c, eig_ok eig2 a b c) ->
  forall m axes iatom order fc2 f3x f4x,
  let N := m_natom m in
  let n := m_nvib m in
  let B := m_rotcon m in
  m_rotor m = AsymmTop -> (2 < nth 7 (m_header m) 4)%Z ->
  (0 < N)%nat -> (0 < n <= 3 * N)%nat ->
  (forall q, (q < N)%nat -> 0 < m_w m q) ->
  sym2 (3 * N) fc2 -> tsym3 (3 * N) f3x -> tsym4 (3 * N) f4x ->
  solves (3 * N) eig (secular N axes fc2 (m_w m)) ->
  exists fuel0 freq lx,
    let w := fun i => nth i freq 0 in
    let hess := fun a b => FACT2 * con2 (3 * N) (every_atom axes) fc2 a b in
    let F3 := cubic_spec (3 * N) (con3 (3 * N) (every_atom axes) f3x) lx w in
    let F4 := quartic_spec (3 * N) (con4 (3 * N) (every_atom axes) f4x) lx w in
    let zeta := zeta_of N (fun a i => sqrt (m_w m (a / 3)%nat) * lx a i) in
    (forall i j, (i < 3 * N)%nat -> (j < 3 * N)%nat ->
       Sum (3 * N) (fun a => m_w m (a / 3)%nat * lx a i * lx a j) = (if Nat.eqb i j then 1 else 0)) /\
    (forall i j, (i < 3 * N)%nat -> (j < 3 * N)%nat -> i <> j -> con2 (3 * N) lx hess i j = 0) /\
    (forall i, (i < 3 * N)%nat -> nth_error freq i = Some (to_wavenumber (con2 (3 * N) lx hess i i))) /\
    StronglySorted Rge freq /\
    ((forall i, (i < n)%nat -> 0 < w i) ->
     forall fuel, (fuel0 <= fuel)%nat ->
     exists o, run eig2 eig label A fuel buddy false m axes iatom order (Quartic fc2 f3x f4x) = Some (FullResult o) /\
     let fm1 := rs_fermi1 (out_resonances o) in
     let fm2 := rs_fermi2 (out_resonances o) in
     ((forall i, ~ In (i, i) fm1) -> isolated fm1 fm2 ->
      forall res, reported fm1 fm2 res ->
      (forall i j k, (i < n)%nat -> (j < n)%nat -> (k < n)%nat -> res i j k = false -> w i + w j <> w k) ->
      o_harms (out_lists o) = map w (seq 0 n) /\ length (o_funds (out_lists o)) = n /\
      length (o_corrs (out_lists o)) = n /\
      forall U, (forall v, intermediate n F3 v (U v)) ->
        let E v := perturbed n w F3 F4 zeta B res v (U v) in
        let T v := E v - E ground in
        out_zpt o = E ground + angular_shift n zeta B + e0_excess n w F3 res /\
        (forall k, (k < n)%nat -> nth_error (o_funds (out_lists o)) k = Some (T (one k))) /\
        (forall k, (k < n)%nat -> (forall i j, ~ resonant fm1 fm2 i j k) ->
           nth_error (o_corrs (out_lists o)) k = Some (T (one k))) /\
        (forall i j k, resonant fm1 fm2 i j k -> exists c c', nth_error (o_corrs (out_lists o)) k = Some c /\
           two_level (T (two i j)) (T (one k)) (cubic n F3 (ket n (two i j)) (one k)) c' c))).
Proof. exact (@run_fermi_lemma). Qed.
Example run_fermi_resonances_ex :
  let m := mk_mol (F:=R) AsymmTop [1; 1; 1; 1; 1; 1; 1; 4]%Z 2 1 (fun i => (INR i, 0, 1)) bad_w
    (fun _ => 2) (fun _ => 3) in
  let fm1 := [(2, 0)]%nat in
  let fm2 := [(3, 4, 1)]%nat in
  let res := fun i j k => (((i =? 2) && (j =? 2) && (k =? 0)) || ((i =? 3) && (j =? 4) && (k =? 1)) ||
    ((i =? 4) && (j =? 3) && (k =? 1)))%nat in
  (forall a b c, eig_ok eig_solve a b c) /\
  m_rotor m = AsymmTop /\ (2 < nth 7 (m_header m) 4)%Z /\ (0 < m_natom m)%nat /\ (0 < m_nvib m <= 3 * m_natom m)%nat /\
  (forall q, (q < m_natom m)%nat -> 0 < m_w m q) /\ sym2 (3 * m_natom m) good_f /\
  tsym3 (3 * m_natom m) (fun a b c => INR (a * b * c)) /\ tsym4 (3 * m_natom m) (fun a b c d => INR (a + b + c + d)) /\
  solves (3 * m_natom m) (fun _ => (good_vals, bad_vecs)) (secular (m_natom m) qturn good_f (m_w m)) /\
  (forall i, ~ In (i, i) fm1) /\ isolated fm1 fm2 /\ reported fm1 fm2 res.
Proof.
  cbv zeta. cbn [m_rotor m_header m_natom m_nvib m_w]. split; [exact eig_solve_ok|]. split; [reflexivity|]. split; [cbn; lia|].
  split; [lia|]. split; [lia|]. split; [exact bad_w_pos|]. split; [exact good_sym|].
  split; [split; intros; f_equal; lia|]. split; [split; [|split]; intros; f_equal; lia|].
  split; [apply good_solves; auto|].
  split. { intros i [H|[]]; congruence. }
  assert (R1 : forall i j k, resonant [(2, 0)]%nat [(3, 4, 1)]%nat i j k <->
    ((i = 2 /\ j = 2 /\ k = 0) \/ (i = 3 /\ j = 4 /\ k = 1) \/ (i = 4 /\ j = 3 /\ k = 1))%nat).
  { intros i j k. unfold resonant. split.
    - intros [(-> & [H|[]])|[[H|[]]|[H|[]]]]; injection H; intros; subst; lia.
    - intros [(-> & -> & ->)|[(-> & -> & ->)|(-> & -> & ->)]]; cbn; auto. }
  split.
  - split; intros *; rewrite !R1; lia.
  - intros i j k. rewrite R1, !Bool.orb_true_iff, !Bool.andb_true_iff, !Nat.eqb_eq. lia.
Qed.
Print Assumptions run_fermi_resonances.
