(** Properties C103 and C104: what the reported numbers do not depend on. *)
From Coq Require Import Reals Lra List ZArith Arith Lia Bool Permutation.
From Verif Require Import Num Loops Index Modes ResFacts Anharm FermiFacts FermiWitness SymAnharm Transform TransformFacts RotFacts
  ModeFacts ReportFacts Geom Finish SameFinish SameRun SignRun SameWitness.
Import ListNotations.
Open Scope nat_scope.

(** C103: two runs on the same asymmetric top.  The eigensolvers, the numbering of the atoms, the
    Cartesian frame (through the principal axes) and the order of the atoms for the alignment may
    differ; the vibrations must have wavenumbers of their own. *)
Theorem run_independent :
  forall (I : Type) eig2 eig2' eig eig' (label : (nat -> R * R * R) -> (nat -> nat -> R) -> nat -> R -> option I) A
    buddy buddy' (T : Trig R) m m' p axes axes' iatom order iatom' order' fc2 f3x f4x fc2' f3x' f4x',
  let N := m_natom m in
  let n := m_nvib m in
  (forall a b c, eig_ok eig2 a b c) -> (forall a b c, eig_ok eig2' a b c) ->
  m_rotor m = AsymmTop -> (2 < nth 7 (m_header m) 4)%Z -> 0 < N -> 0 < n <= 3 * N ->
  (forall q, q < N -> (0 < m_w m q)%R) ->
  same_atoms p m m' -> label_ok label p m m' ->
  sym2 (3 * N) fc2 -> tsym3 (3 * N) f3x -> tsym4 (3 * N) f4x ->
  sym2 (3 * N) fc2' -> tsym3 (3 * N) f3x' -> tsym4 (3 * N) f4x' ->
  same_field N p axes fc2 f3x f4x axes' fc2' f3x' f4x' ->
  solves (3 * N) eig (secular N axes fc2 (m_w m)) ->
  solves (3 * N) eig' (secular N axes' fc2' (m_w m')) ->
  (forall freq lxm, harmonic N axes fc2 (m_w m) eig = Some (freq, lxm) ->
     forall i j, i < n -> j < 3 * N -> i <> j -> nth i freq 0%R <> nth j freq 0%R) ->
  exists fuel0, forall fuel, fuel0 <= fuel -> exists o o',
    run eig2 eig label A fuel buddy false m axes iatom order (Quartic fc2 f3x f4x) = Some (FullResult o) /\
    run eig2' eig' label A fuel buddy' false m' axes' iatom' order' (Quartic fc2' f3x' f4x') = Some (FullResult o') /\
    (out_lists o', out_rots o', out_rot_equil o', out_quartic o', out_sextic o', out_zpt o', out_linear o', out_resonances o')
    = (out_lists o, out_rots o, out_rot_equil o, out_quartic o, out_sextic o, out_zpt o, out_linear o, out_resonances o).
Proof. exact (@run_same_lemma). Qed.
Example run_independent_ex :
  (forall a b c, eig_ok eig_solve a b c) /\ m_rotor pair_mol = AsymmTop /\ (2 < nth 7 (m_header pair_mol) 4)%Z /\
  (forall q, q < 2 -> (0 < m_w pair_mol q)%R) /\ same_atoms swap2 pair_mol swapped_mol /\
  label_ok (fun _ _ _ _ => Some 0) swap2 pair_mol swapped_mol /\
  sym2 (3 * 2) good_f /\ tsym3 (3 * 2) pair_f3 /\ tsym4 (3 * 2) pair_f4 /\ sym2 (3 * 2) swapped_f /\
  same_field 2 swap2 qturn good_f pair_f3 pair_f4 qturn swapped_f
    (fun a b c => pair_f3 (coord swap2 a) (coord swap2 b) (coord swap2 c))
    (fun a b c d => pair_f4 (coord swap2 a) (coord swap2 b) (coord swap2 c) (coord swap2 d)) /\
  solves (3 * 2) (fun _ => (good_vals, bad_vecs)) (secular 2 qturn good_f bad_w) /\
  solves (3 * 2) (fun _ => (good_vals, other_vecs)) (secular 2 qturn swapped_f bad_w) /\
  (forall freq lxm, harmonic 2 qturn good_f bad_w (fun _ => (good_vals, bad_vecs)) = Some (freq, lxm) ->
     forall i j, i < 1 -> j < 3 * 2 -> i <> j -> nth i freq 0%R <> nth j freq 0%R).
Proof.
  split; [exact eig_solve_ok|]. split; [reflexivity|]. split; [cbn; lia|]. split; [exact bad_w_pos|].
  split; [exact same_pair|]. split; [intros ? ? ? ? _; reflexivity|]. split; [exact good_sym|].
  split; [split; intros; unfold pair_f3; f_equal; lia|]. split; [split; [|split]; intros; unfold pair_f4; f_equal; lia|].
  split; [exact swapped_sym|]. split; [exact swapped_same|]. split; [apply good_solves; auto|].
  split; [exact swapped_solves|]. exact pair_distinct.
Qed.
Print Assumptions run_independent.

(** the same input and another eigensolver *)
Theorem same_input_same_field : forall N axes fc2 f3x f4x,
  same_field N (fun q => q) axes fc2 f3x f4x axes fc2 f3x f4x.
Proof. exact same_solver_lemma. Qed.
Example same_input_same_field_ex : coord (fun q => q) 5 = 5 /\ (good_f 2 5 = - (1))%R.
Proof. split; [reflexivity|unfold good_f; cbn; lra]. Qed.
Print Assumptions same_input_same_field.

(** the force constants of the atoms numbered anew *)
Theorem renumbered_same_field : forall N p axes,
  (forall q, q < N -> p q < N) /\ (forall q q', q < N -> q' < N -> p q = p q' -> q = q') ->
  let t a := 3 * p (a / 3) + a mod 3 in
  forall fc2 f3x f4x fc2' f3x' f4x',
  (forall a b, a < 3 * N -> b < 3 * N -> fc2' a b = fc2 (t a) (t b)) ->
  (forall a b c, a < 3 * N -> b < 3 * N -> c < 3 * N -> f3x' a b c = f3x (t a) (t b) (t c)) ->
  (forall a b c d, a < 3 * N -> b < 3 * N -> c < 3 * N -> d < 3 * N -> f4x' a b c d = f4x (t a) (t b) (t c) (t d)) ->
  same_field N p axes fc2 f3x f4x axes fc2' f3x' f4x'.
Proof. exact same_renumbered_lemma. Qed.
Example renumbered_same_field_ex :
  (forall q, q < 2 -> swap2 q < 2) /\ (forall q q', q < 2 -> q' < 2 -> swap2 q = swap2 q' -> q = q') /\
  coord swap2 4 = 1 /\ pair_f3 (coord swap2 1) (coord swap2 2) (coord swap2 4) <> pair_f3 1 2 4.
Proof.
  split; [unfold swap2; intros; lia|]. split; [unfold swap2; intros; lia|]. split; [reflexivity|].
  unfold pair_f3. cbn. lra.
Qed.
Print Assumptions renumbered_same_field.

(** the force constants in Cartesian axes turned by [Q]; [axes'] are the principal axes there *)
Theorem turned_same_field : forall N Q axes axes' fc2 f3x f4x,
  (forall i j, i < 3 -> j < 3 -> mprod 3 Q axes' i j = axes i j) ->
  same_field N (fun q => q) axes fc2 f3x f4x axes'
    (con2 (3 * N) (every_atom Q) fc2) (con3 (3 * N) (every_atom Q) f3x) (con4 (3 * N) (every_atom Q) f4x).
Proof. exact same_turned_lemma. Qed.
Example turned_same_field_ex : forall i j, i < 3 -> j < 3 ->
  mprod 3 qturn (fun a b => qturn b a) i j = delta i j.
Proof.
  intros i j Hi Hj. unfold mprod.
  do 3 (destruct i as [|i]; [do 3 (destruct j as [|j]; [cbn; lra|]); lia|]). lia.
Qed.
Print Assumptions turned_same_field.

(** C104: the signs of the normal modes, for every kind of molecule; the two partners of a
    degenerate pair must be turned round together. *)
Theorem mode_signs_change_nothing :
  forall (I : Type) eig2 (m : molecule R) (s : nat -> R) (freql f3l f4l f3l' f4l' : list R) (irreps : list I) lxm lx lxm' lx' o,
  (forall a b c, eig_ok eig2 a b c) ->
  (forall i, s i = 1%R \/ s i = (-1)%R) -> 0 < m_natom m ->
  (forall a i, lxm' a i = (s i * lxm a i)%R) ->
  (forall i j k, nth (find3 i j k) f3l' 0%R = (s i * s j * s k * nth (find3 i j k) f3l 0)%R) ->
  (forall i j k l, nth (find4 i j k l) f4l' 0%R = (s i * s j * s k * s l * nth (find4 i j k l) f4l 0)%R) ->
  finish eig2 false m freql f3l f4l irreps lxm lx = Some o ->
  (forall k k2, In (k, k2) (i2mode (rs_modes (out_resonances o))) -> s k = s k2) ->
  exists o', finish eig2 false m freql f3l' f4l' irreps lxm' lx' = Some o' /\
    (out_lists o', out_rots o', out_rot_equil o', out_quartic o', out_sextic o', out_zpt o', out_linear o', out_resonances o')
    = (out_lists o, out_rots o, out_rot_equil o, out_quartic o, out_sextic o, out_zpt o, out_linear o, out_resonances o).
Proof. exact (@finish_sign_lemma). Qed.
Example mode_signs_change_nothing_ex : forall lxm lx,
  (forall a b c, eig_ok eig_solve a b c) /\ (forall i, top_signs i = 1%R \/ top_signs i = (-1)%R) /\
  (forall i j k, nth (find3 i j k) top_f3' 0%R = (top_signs i * top_signs j * top_signs k * nth (find3 i j k) top_f3 0)%R) /\
  (forall i j k l, nth (find4 i j k l) top_f4' 0%R
     = (top_signs i * top_signs j * top_signs k * top_signs l * nth (find4 i j k l) top_f4 0)%R) /\
  top_f3' <> top_f3 /\
  exists o, finish eig_solve false top_mol top_freq top_f3 top_f4 [0; 1; 2] lxm lx = Some o /\
    i2mode (rs_modes (out_resonances o)) = [(1, 2)] /\
    (forall k k2, In (k, k2) (i2mode (rs_modes (out_resonances o))) -> top_signs k = top_signs k2).
Proof.
  intros. split; [exact eig_solve_ok|]. split; [exact top_signs_ok|]. split; [exact top_signs_cubic|].
  split; [exact top_signs_quartic|]. split; [unfold top_f3', top_f3; intros E; injection E; intros; lra|].
  destruct (top_finish eig_solve [0; 1; 2] lxm lx) as (o & E & M). exists o. split; [exact E|]. split; [exact M|].
  rewrite M. intros k k2 [Q|[]]. now injection Q as <- <-.
Qed.
Print Assumptions mode_signs_change_nothing.

(** turning round one partner only changes the constant [g] between two degenerate modes *)
Theorem partner_signs_refuted : exists (zm zm' : nat -> nat -> nat -> R) (s : nat -> R),
  (forall i, s i = 1%R \/ s i = (-1)%R) /\ (forall i j a, zm' i j a = (s i * s j * zm i j a)%R) /\
  make_gcnst (fun _ _ _ _ => 0%R) (fun _ => 1%R) (fun _ _ _ => 0%R) zm (fun _ => 1%R) (make_fermi_checks [] []) []
    [(0, 1); (2, 3)] 2 1 1 2 0 = 2%R /\
  make_gcnst (fun _ _ _ _ => 0%R) (fun _ => 1%R) (fun _ _ _ => 0%R) zm' (fun _ => 1%R) (make_fermi_checks [] []) []
    [(0, 1); (2, 3)] 2 1 1 2 0 = (-2)%R.
Proof. exact partner_sign_lemma. Qed.
Example partner_signs_refuted_ex : top_signs 1 = top_signs 2 /\ top_signs 0 <> top_signs 1.
Proof. split; [reflexivity|cbn; lra]. Qed.
Print Assumptions partner_signs_refuted.
