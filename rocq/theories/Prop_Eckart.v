(** Properties C105 and C106: molecules that are turned as a whole, and the rotational constants
    reported by a run. *)
From Coq Require Import Reals Lra List ZArith Arith Lia Bool Permutation Sorted.
From Verif Require Import Num Loops Index Modes ResFacts Anharm AnharmFacts VibRot VibRotFacts Distort Transform TransformFacts
  RotFacts NormalFacts HarmFacts ModeFacts ZeroFacts ReportFacts InertiaFacts EckartFacts Polyads Report Geom IrrepFacts Finish
  FinishFacts RunFacts PerturbFacts VanVleck VibPerturb RunSecond RunRot.
Import ListNotations.
Open Scope nat_scope.

(** C105: every mode with a frequency other than zero meets the rotational Eckart condition, when
    turning the molecule costs no energy *)
Theorem eckart_modes :
  forall N axes f w geom eig,
  sym2 (3 * N) f -> (forall q, q < N -> (0 < w q)%R) -> orth 3 axes ->
  solves (3 * N) eig (secular N axes f w) ->
  rotation_free N f (input_position axes geom) ->
  exists freq lxm, harmonic N axes f w eig = Some (freq, lxm) /\
    forall i y, nth_error freq i = Some y -> y <> 0%R -> eckart N geom w lxm i.
Proof. exact eckart_lemma. Qed.
Example eckart_modes_ex :
  sym2 (3 * 2) good_f /\ (forall q, q < 2 -> (0 < bad_w q)%R) /\ orth 3 qturn /\
  solves (3 * 2) (fun _ => (good_vals, bad_vecs)) (secular 2 qturn good_f bad_w) /\
  rotation_free 2 good_f (input_position qturn axis_geom).
Proof.
  split; [exact good_sym|]. split; [exact bad_w_pos|]. split; [exact qturn_orth|].
  split; [apply good_solves; auto|exact axis_free].
Qed.
Print Assumptions eckart_modes.

(** ... and there is a zero frequency for each translation and for each axis in [ax], about which
    the molecule has a moment of inertia: six in general, five for linear molecules *)
Theorem rotations_zero :
  forall N axes f w geom eig,
  sym2 (3 * N) f -> (forall q, q < N -> (0 < w q)%R) -> orth 3 axes ->
  solves (3 * N) eig (secular N axes f w) ->
  forall ax,
  0 < N -> translation_free N f -> rotation_free N f (input_position axes geom) ->
  (forall x, x < 3 -> Sum N (fun q => w q * comp (geom q) x)%R = 0%R) ->
  (forall x y, x < 3 -> y < 3 -> x <> y -> inertia N w geom x y = 0%R) ->
  NoDup ax -> (forall x, In x ax -> x < 3 /\ (0 < inertia N w geom x x)%R) ->
  exists freq lxm, harmonic N axes f w eig = Some (freq, lxm) /\
    3 + length ax <= count_occ Req_EM_T freq 0%R.
Proof. exact zeros_lemma. Qed.
Example rotations_zero_ex :
  sym2 (3 * 2) good_f /\ (forall q, q < 2 -> (0 < bad_w q)%R) /\ orth 3 qturn /\
  solves (3 * 2) (fun _ => (good_vals, bad_vecs)) (secular 2 qturn good_f bad_w) /\
  0 < 2 /\ translation_free 2 good_f /\ rotation_free 2 good_f (input_position qturn axis_geom) /\
  (forall x, x < 3 -> Sum 2 (fun q => bad_w q * comp (axis_geom q) x)%R = 0%R) /\
  (forall x y, x < 3 -> y < 3 -> x <> y -> inertia 2 bad_w axis_geom x y = 0%R) /\
  NoDup [0; 1] /\ (forall x, In x [0; 1] -> x < 3 /\ (0 < inertia 2 bad_w axis_geom x x)%R).
Proof.
  split; [exact good_sym|]. split; [exact bad_w_pos|]. split; [exact qturn_orth|].
  split; [apply good_solves; auto|]. split; [lia|]. split; [exact good_free|]. split; [exact axis_free|].
  split; [exact axis_centre|]. split; [exact axis_inertia|].
  split; [repeat constructor; cbn; lia|exact axis_about].
Qed.
Print Assumptions rotations_zero.

(** C106: the rotational constants reported by a run on an asymmetric top.  [rot_const] is the
    effective constant of a vibrating rotor in second order of perturbation theory, [a] the
    derivatives of the inertia tensor along the normal modes, [rep] the pairs reported as Coriolis
    resonances about axis [x], whose interaction is left out. *)
Theorem run_rotational_constants :
  forall (I : Type) eig2 eig (label : (nat -> R * R * R) -> (nat -> nat -> R) -> nat -> R -> option I) A buddy (T : Trig R)
    m axes iatom order fc2 f3x f4x K lam,
  let N := m_natom m in
  let n := m_nvib m in
  let B := m_rotcon m in
  let J := m_primat m in
  m_rotor m = AsymmTop -> (2 < nth 7 (m_header m) 4)%Z ->
  0 < N -> 0 < n <= 3 * N ->
  (forall q, q < N -> (0 < m_w m q)%R) ->
  sym2 (3 * N) fc2 -> tsym3 (3 * N) f3x -> tsym4 (3 * N) f4x ->
  orth 3 axes -> rotation_free N fc2 (input_position axes (m_geom m)) ->
  solves (3 * N) eig (secular N axes fc2 (m_w m)) ->
  (forall y, y < 3 -> (0 < J y)%R) -> (forall y, y < 3 -> B y = (K / J y)%R) -> (2 * K * lam ^ 2 = 1)%R ->
  exists fuel0 freq lx,
    let w := fun i => nth i freq 0%R in
    let hess := fun a b => (FACT2 * con2 (3 * N) (every_atom axes) fc2 a b)%R in
    let F3 := cubic_spec (3 * N) (con3 (3 * N) (every_atom axes) f3x) lx w in
    let zeta := zeta_of N (fun a i => sqrt (m_w m (a / 3)%nat) * lx a i)%R in
    (forall i j, i < 3 * N -> j < 3 * N ->
       Sum (3 * N) (fun a => m_w m (a / 3)%nat * lx a i * lx a j)%R = (if Nat.eqb i j then 1 else 0)%R) /\
    (forall i j, i < 3 * N -> j < 3 * N -> i <> j -> con2 (3 * N) lx hess i j = 0%R) /\
    (forall i, i < 3 * N -> nth_error freq i = Some (to_wavenumber (con2 (3 * N) lx hess i i))) /\
    StronglySorted Rge freq /\
    ((forall i, i < n -> (0 < w i)%R) ->
     forall fuel, fuel0 <= fuel ->
     exists o, run eig2 eig label A fuel buddy false m axes iatom order (Quartic fc2 f3x f4x) = Some (FullResult o) /\
     length (out_rots o) = n + 1 /\
     let cor := rs_coriolis (out_resonances o) in
     let q := out_quartic o in
     forall a, inertia_slope N n (m_w m) (m_geom m) lx a ->
     forall x rep, x < 3 ->
     (forall i j, i < n -> j < n -> one_axis cor i j) ->
     (forall i j, rep i j = true <-> VibRotFacts.listed cor i j x) ->
     (forall i j, i < n -> j < n -> i <> j -> rep i j = false -> w i <> w j) ->
     forall k r, nth_error (out_rots o) k = Some r ->
       (exists v, rot_state r = I1st v /\ length v = n /\ (fun i => nth i v 0) = reported_state k) /\
       nth x [rot_a r; rot_b r; rot_c r] 0%R
       = (nth x [bza q; bxa q; bya q] 0
          + (rot_const n w F3 zeta a J K lam rep x (reported_state k) - B x)
          + rounding_term n B w a F3 lam x (reported_state k))%R).
Proof. exact (@run_rot_lemma). Qed.
Example run_rotational_constants_ex :
  let m := mk_mol (F:=R) AsymmTop [1; 1; 1; 1; 1; 1; 1; 4]%Z 2 1 axis_geom bad_w
    (fun y => / (2 * INR (S y)))%R (fun y => INR (S y)) in
  m_rotor m = AsymmTop /\ (2 < nth 7 (m_header m) 4)%Z /\ 0 < m_natom m /\ 0 < m_nvib m <= 3 * m_natom m /\
  (forall q, q < m_natom m -> (0 < m_w m q)%R) /\ sym2 (3 * m_natom m) good_f /\
  tsym3 (3 * m_natom m) (fun a b c => INR (a * b * c)) /\ tsym4 (3 * m_natom m) (fun a b c d => INR (a + b + c + d)) /\
  orth 3 qturn /\ rotation_free (m_natom m) good_f (input_position qturn (m_geom m)) /\
  solves (3 * m_natom m) (fun _ => (good_vals, bad_vecs)) (secular (m_natom m) qturn good_f (m_w m)) /\
  (forall y, y < 3 -> (0 < m_primat m y)%R) /\ (forall y, y < 3 -> m_rotcon m y = (/ 2 / m_primat m y)%R) /\
  (2 * / 2 * 1 ^ 2 = 1)%R.
Proof.
  cbv zeta. cbn [m_rotor m_header m_natom m_nvib m_w m_geom m_primat m_rotcon]. split; [reflexivity|]. split; [cbn; lia|].
  split; [lia|]. split; [lia|]. split; [exact bad_w_pos|]. split; [exact good_sym|].
  split; [split; intros; f_equal; lia|]. split; [split; [|split]; intros; f_equal; lia|].
  split; [exact qturn_orth|]. split; [exact axis_free|]. split; [apply good_solves; auto|].
  split; [intros; apply lt_0_INR; lia|]. split; [|lra].
  intros y _. assert (0 < INR (S y))%R by (apply lt_0_INR; lia). field. lra.
Qed.
Print Assumptions run_rotational_constants.
