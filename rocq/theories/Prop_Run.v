(** Properties C99 to C102: whole runs. *)
From Coq Require Import Reals Lra List ZArith Arith Lia Bool Permutation Sorted SpecFloat.
From Verif Require Import Num Loops Index Modes ModesFacts ResFacts StatesFacts Anharm VibRot Distort
  Transform TransformFacts RotFacts NormalFacts ModeFacts ReportFacts Polyads Report Geom IrrepFacts
  PerturbFacts SymE0 Finish FinishFacts RunFacts RunSecond FinishWitness.
Import ListNotations.
Open Scope nat_scope.

(** C99: [finish] in double precision, for every kind of molecule it accepts.  The partition of
    the modes is what C16 proves of [deg_modes]; the sums of frequencies must be numbers. *)
Theorem finish_completes : forall (I : Type) eig2 (m : molecule f64) freql f3l f4l (irreps : list I) lxm lx modes,
  let freq i := nth i freql (nz 0) in
  m_rotor m <> SphericalTop -> m_rotor m <> NoRotor ->
  deg_modes (m_rotor m) (m_nvib m) freq = Some modes ->
  Permutation (flat_map members modes) (seq 0 (m_nvib m)) ->
  (forall i j k, i < m_nvib m -> j < m_nvib m -> k < m_nvib m ->
     nsub (nsub (freq i) (freq j)) (freq k) <> S754_nan /\
     nsub (nadd (nopp (freq i)) (freq j)) (freq k) <> S754_nan /\
     nadd (nsub (nopp (freq i)) (freq j)) (freq k) <> S754_nan) ->
  m_nvib m <= length freql -> 0 < m_natom m ->
  (m_rotor m = AsymmTop -> 2 < nth 7 (m_header m) 4)%Z ->
  exists o, finish eig2 false m freql f3l f4l irreps lxm lx = Some o /\
    length (o_harms (out_lists o)) = length (flat_map get1 modes) + length (flat_map get2 modes) /\
    length (o_funds (out_lists o)) = length (o_harms (out_lists o)) /\
    length (o_corrs (out_lists o)) = length modes /\
    o_irreps (out_lists o) = irreps /\
    length (out_rots o) = 1 + length (o_harms (out_lists o)).
Proof. exact (@finish_64_lemma). Qed.
Example finish_completes_ex :
  deg_modes (m_rotor oblate) 3 (fun i => nth i oblate_freq (nz 0)) = Some [I2 1 2; I1 0] /\
  Permutation (flat_map members [I2 1 2; I1 0]) (seq 0 3) /\
  nsub (nsub (nth 0 oblate_freq (nz 0)) (nth 1 oblate_freq (nz 0))) (nth 2 oblate_freq (nz 0)) <> S754_nan /\
  m_nvib oblate <= length oblate_freq /\
  (exists o, finish plain2 false oblate oblate_freq water_f3 water_f4 [tt; tt; tt] water_lxm water_lxm = Some o /\
     length (o_corrs (out_lists o)) = 2) /\
  (exists o, finish plain2 false water water_freq water_f3 water_f4 [tt; tt; tt] water_lxm water_lxm = Some o /\
     rs_fermi1 (out_resonances o) = [(2, 0); (2, 1)] /\ length (out_rots o) = 4).
Proof.
  split; [exact oblate_modes|]. split; [apply (Permutation_app_comm [1; 2] [0])|].
  split; [vm_compute; discriminate|]. split; [cbn; lia|].
  split.
  - assert (Q : option_map (fun o => length (o_corrs (out_lists o))) (finish plain2 false oblate oblate_freq water_f3 water_f4 [tt; tt; tt] water_lxm water_lxm) = Some 2)
      by (vm_compute; reflexivity).
    destruct (finish plain2 false oblate oblate_freq water_f3 water_f4 [tt; tt; tt] water_lxm water_lxm) as [o|]; [|discriminate].
    exists o. split; [reflexivity|]. injection Q as Q. auto.
  - assert (Q : option_map (fun o => (rs_fermi1 (out_resonances o), length (out_rots o))) (finish plain2 false water water_freq water_f3 water_f4 [tt; tt; tt] water_lxm water_lxm) = Some ([(2, 0); (2, 1)], 4))
      by (vm_compute; reflexivity).
    destruct (finish plain2 false water water_freq water_f3 water_f4 [tt; tt; tt] water_lxm water_lxm) as [o|]; [|discriminate].
    exists o. split; [reflexivity|]. injection Q. auto.
Qed.
Print Assumptions finish_completes.

(** a run of an asymmetric top over the real numbers, whatever the force constants; the
    eigensolver must give as many values as there are coordinates.  The printed table has a
    row for every mode. *)
Theorem run_completes :
  forall (I : Type) eig2 eig (label : (nat -> R * R * R) -> (nat -> nat -> R) -> nat -> R -> option I) A buddy (T : Trig R),
  exists fuel0, forall fuel m axes iatom order fc2 f3x f4x,
  fuel0 <= fuel -> m_rotor m = AsymmTop -> (2 < nth 7 (m_header m) 4)%Z ->
  0 < m_natom m -> 0 < m_nvib m <= 3 * m_natom m ->
  length (fst (eig (secular (m_natom m) axes fc2 (m_w m)))) = 3 * m_natom m ->
  exists o rws,
    run eig2 eig label A fuel buddy false m axes iatom order (Quartic fc2 f3x f4x) = Some (FullResult o) /\
    length (o_harms (out_lists o)) = m_nvib m /\ length (o_funds (out_lists o)) = m_nvib m /\
    length (o_corrs (out_lists o)) = m_nvib m /\
    map rot_state (out_rots o) = I1st (repeat 0 (m_nvib m)) ::
      map (fun i => I1st (unit1 (m_nvib m) i 1)) (seq 0 (m_nvib m)) /\
    table (out_lists o) = Some rws /\ length rws = m_nvib m.
Proof. exact (@run_asym_lemma). Qed.
Example run_completes_ex :
  let m := mk_mol (F:=R) AsymmTop [1; 1; 1; 1; 1; 1; 1; 4]%Z 3 3 (fun i => (INR i, 0%R, 1%R)) (fun _ => 1%R)
    (fun _ => 2%R) (fun _ => 3%R) in
  m_rotor m = AsymmTop /\ (2 < nth 7 (m_header m) 4)%Z /\ 0 < m_natom m /\ 0 < m_nvib m <= 3 * m_natom m /\
  length (fst (repeat 5%R 9, fun a b : nat => INR (a + b))) = 3 * m_natom m.
Proof. cbv zeta. cbn. repeat split; lia. Qed.
Print Assumptions run_completes.

(** the same for every kind of molecule, for any numbers; symmetric tops need the alignment of
    their degenerate modes to succeed (see C47).  [comparable]: the sums of frequencies
    compared in the search for resonances are not NaN. *)
Theorem run_completes_any :
  forall (F I : Type) (N : Num F) (T : Trig F) eig2 eig
    (label : (nat -> F * F * F) -> (nat -> nat -> F) -> nat -> F -> option I) A fuel buddy
    m axes iatom order fc2 f3x f4x freql lxm lxm' lx' modes,
  let lx := make_lx (3 * m_natom m) (make_sqm (m_w m)) lxm in
  m_rotor m <> SphericalTop -> m_rotor m <> NoRotor -> labels_end fuel ->
  (m_rotor m = AsymmTop -> 2 < nth 7 (m_header m) 4)%Z ->
  0 < m_natom m -> 0 < m_nvib m <= 3 * m_natom m ->
  harmonic (m_natom m) axes fc2 (m_w m) eig = Some (freql, lxm) -> m_nvib m <= length freql ->
  aligned buddy m iatom order freql lxm lx lxm' lx' ->
  deg_modes (m_rotor m) (m_nvib m) (fun i => nth i freql (nz 0)) = Some modes ->
  Permutation (flat_map members modes) (seq 0 (m_nvib m)) ->
  comparable (fun i => nth i freql (nz 0)) (m_nvib m) ->
  exists o rws, run eig2 eig label A fuel buddy false m axes iatom order (Quartic fc2 f3x f4x) = Some (FullResult o) /\
    rs_modes (out_resonances o) = modes /\
    length (o_harms (out_lists o)) = length (flat_map get1 modes) + length (flat_map get2 modes) /\
    length (o_funds (out_lists o)) = length (o_harms (out_lists o)) /\
    length (o_corrs (out_lists o)) = length modes /\
    map rot_state (out_rots o) = I1st (repeat 0 (m_nvib m)) ::
      map (fun i => I1st (unit1 (m_nvib m) i 1)) (seq 0 (length (flat_map get1 modes))) ++
      map (fun i => I2st (punit1 (m_nvib m) i (1, 1))) (seq 0 (length (flat_map get2 modes))) /\
    table (out_lists o) = Some rws /\ length rws = length (o_harms (out_lists o)).
Proof. exact (@run_total_lemma). Qed.
Example run_completes_any_ex :
  labels_end (F:=f64) 5 /\ comparable (fun i => nth i oblate_freq (nz 0)) 3 /\
  comparable (fun i => nth i water_freq (nz 0)) 3 /\
  aligned (F:=R) (H0:=Rtrig) None
    (mk_mol AsymmTop [] 3 3 (fun _ => (0%R, 0%R, 0%R)) (fun _ => 1%R) (fun _ => 1%R) (fun _ => 1%R))
    0 1 [] (fun _ _ => 2%R) (fun _ _ => 3%R) (fun _ _ => 2%R) (fun _ _ => 3%R).
Proof.
  split; [exists 4; split; [lia|vm_compute; reflexivity]|].
  split; [exact oblate_comparable|]. split; [exact water_comparable|]. split; reflexivity.
Qed.
Print Assumptions run_completes_any.

(** the conditions of the molecule are needed *)
Theorem finish_panics : forall (F I : Type) (N : Num F) eig2 polyad (m : molecule F) freql f3l f4l (irreps : list I) lxm lx,
  m_rotor m = SphericalTop \/ m_rotor m = NoRotor \/ m_natom m = 0 \/
  m_rotor m = AsymmTop /\ (nth 7 (m_header m) 4 <= 2)%Z \/
  m_rotor m = AsymmTop /\ length freql < m_nvib m ->
  finish eig2 polyad m freql f3l f4l irreps lxm lx = None.
Proof. exact (@finish_none_lemma). Qed.
Example finish_panics_ex :
  finish plain2 false
    (mk_mol AsymmTop [1; 1; 1; 1; 1; 1; 1; 2]%Z 3 3 (m_geom water) (m_w water) (m_rotcon water) (m_primat water))
    water_freq water_f3 water_f4 [tt; tt; tt] water_lxm water_lxm = None.
Proof. apply finish_none_lemma. right. right. right. left. split; [reflexivity|]. cbn. lia. Qed.
Print Assumptions finish_panics.

(** C100: the treatment of resonance polyads changes no reported number ... *)
Theorem polyads_change_nothing :
  forall (F I : Type) (N : Num F) eig2 (m : molecule F) freql f3l f4l (irreps : list I) lxm lx o,
  finish eig2 true m freql f3l f4l irreps lxm lx = Some o ->
  finish eig2 false m freql f3l f4l irreps lxm lx = Some o.
Proof. exact (@polyad_ignored_lemma). Qed.
Example polyads_change_nothing_ex :
  exists o, finish plain2 true water water_freq water_f3 water_f4 [tt; tt; tt] water_lxm water_lxm = Some o /\
    rs_fermi1 (out_resonances o) = [(2, 0); (2, 1)].
Proof.
  assert (Q : option_map (fun o => rs_fermi1 (out_resonances o)) (finish plain2 true water water_freq water_f3 water_f4 [tt; tt; tt] water_lxm water_lxm) = Some [(2, 0); (2, 1)])
      by (vm_compute; reflexivity).
    destruct (finish plain2 true water water_freq water_f3 water_f4 [tt; tt; tt] water_lxm water_lxm) as [o|]; [|discriminate].
    exists o. split; [reflexivity|]. injection Q as Q. auto.
Qed.
Print Assumptions polyads_change_nothing.

(** ... and with more than twelve modes it panics *)
Theorem polyads_panic :
  forall (F I : Type) (N : Num F) eig2 (m : molecule F) freql f3l f4l (irreps : list I) lxm lx,
  m_rotor m = AsymmTop -> 12 < m_nvib m ->
  finish eig2 true m freql f3l f4l irreps lxm lx = None.
Proof. exact (@polyad_panics_lemma). Qed.
Example polyads_panic_ex :
  let m := mk_mol (F:=R) AsymmTop [] 7 15 (fun i => (INR i, 0%R, 1%R)) (fun _ => 1%R) (fun _ => 2%R) (fun _ => 3%R) in
  m_rotor m = AsymmTop /\ 12 < m_nvib m.
Proof. cbn. split; [reflexivity|lia]. Qed.
Print Assumptions polyads_panic.

(** C101: a whole run of an asymmetric top, from Cartesian force constants to the reported
    levels, when no Fermi resonance is reported.  [lx] are normal modes of the force field
    [fc2] in the principal axes, [freq] their wavenumbers; [F3], [F4] and [zeta] are the
    reduced force constants and Coriolis constants of these modes. *)
Theorem run_second_order :
  forall (I : Type) eig2 eig (label : (nat -> R * R * R) -> (nat -> nat -> R) -> nat -> R -> option I) A buddy (T : Trig R)
    m axes iatom order fc2 f3x f4x,
  let N := m_natom m in
  let n := m_nvib m in
  let B := m_rotcon m in
  m_rotor m = AsymmTop -> (2 < nth 7 (m_header m) 4)%Z ->
  0 < N -> 0 < n <= 3 * N ->
  (forall q, q < N -> (0 < m_w m q)%R) ->
  sym2 (3 * N) fc2 -> tsym3 (3 * N) f3x -> tsym4 (3 * N) f4x ->
  solves (3 * N) eig (secular N axes fc2 (m_w m)) ->
  exists fuel0 freq lx,
    let w := fun i => nth i freq 0%R in
    let hess := fun a b => (FACT2 * con2 (3 * N) (every_atom axes) fc2 a b)%R in
    let F3 := cubic_spec (3 * N) (con3 (3 * N) (every_atom axes) f3x) lx w in
    let F4 := quartic_spec (3 * N) (con4 (3 * N) (every_atom axes) f4x) lx w in
    let zeta := zeta_of N (fun a i => sqrt (m_w m (a / 3)%nat) * lx a i)%R in
    (forall i j, i < 3 * N -> j < 3 * N ->
       Sum (3 * N) (fun a => m_w m (a / 3)%nat * lx a i * lx a j)%R = (if Nat.eqb i j then 1 else 0)%R) /\
    (forall i j, i < 3 * N -> j < 3 * N -> i <> j -> con2 (3 * N) lx hess i j = 0%R) /\
    (forall i, i < 3 * N -> nth_error freq i = Some (to_wavenumber (con2 (3 * N) lx hess i i))) /\
    StronglySorted Rge freq /\
    ((forall i, i < n -> (0 < w i)%R) ->
     (forall i j k, i < n -> j < n -> k < n -> (w i + w j)%R <> w k) ->
     forall fuel, fuel0 <= fuel ->
     exists o, run eig2 eig label A fuel buddy false m axes iatom order (Quartic fc2 f3x f4x) = Some (FullResult o) /\
     (rs_fermi1 (out_resonances o) = [] -> rs_fermi2 (out_resonances o) = [] ->
      o_harms (out_lists o) = map w (seq 0 n) /\ o_funds (out_lists o) = o_corrs (out_lists o) /\
      length (o_corrs (out_lists o)) = n /\
      forall us0, intermediate n F3 ground us0 ->
        out_zpt o = (perturbed n w F3 F4 zeta B none ground us0 + angular_shift n zeta B)%R /\
        forall p us, p < n -> intermediate n F3 (one p) us ->
          nth_error (o_corrs (out_lists o)) p
          = Some (perturbed n w F3 F4 zeta B none (one p) us - perturbed n w F3 F4 zeta B none ground us0)%R)).
Proof. exact (@run_second_lemma). Qed.
Example run_second_order_ex :
  let m := mk_mol (F:=R) AsymmTop [1; 1; 1; 1; 1; 1; 1; 4]%Z 2 1 (fun i => (INR i, 0%R, 1%R)) bad_w
    (fun _ => 2%R) (fun _ => 3%R) in
  m_rotor m = AsymmTop /\ (2 < nth 7 (m_header m) 4)%Z /\ 0 < m_natom m /\ 0 < m_nvib m <= 3 * m_natom m /\
  (forall q, q < m_natom m -> (0 < m_w m q)%R) /\ sym2 (3 * m_natom m) good_f /\
  tsym3 (3 * m_natom m) (fun a b c => INR (a * b * c)) /\ tsym4 (3 * m_natom m) (fun a b c d => INR (a + b + c + d)) /\
  solves (3 * m_natom m) (fun _ => (good_vals, bad_vecs)) (secular (m_natom m) qturn good_f (m_w m)).
Proof.
  cbv zeta. cbn [m_rotor m_header m_natom m_nvib m_w]. split; [reflexivity|]. split; [cbn; lia|].
  split; [lia|]. split; [lia|]. split; [exact bad_w_pos|]. split; [exact good_sym|].
  split; [split; intros; f_equal; lia|]. split; [split; [|split]; intros; f_equal; lia|].
  apply good_solves; auto.
Qed.
Print Assumptions run_second_order.

(** C102: a run with harmonic force constants only reports the wavenumbers, the modes with and
    without mass weighting and the labels of the modes *)
Theorem harmonic_run_reports :
  forall (I : Type) eig2 eig (label : (nat -> R * R * R) -> (nat -> nat -> R) -> nat -> R -> option I) A buddy (T : Trig R)
    m axes iatom order fc2,
  let N := m_natom m in
  m_rotor m = AsymmTop \/ m_rotor m = Diatomic ->
  0 < N -> m_nvib m <= 3 * N ->
  (forall q, q < N -> (0 < m_w m q)%R) -> sym2 (3 * N) fc2 ->
  solves (3 * N) eig (secular N axes fc2 (m_w m)) ->
  exists fuel0 freq lxm,
    let lx := fun a i => (lxm a i / sqrt (m_w m (a / 3)%nat))%R in
    let hess := fun a b => (FACT2 * con2 (3 * N) (every_atom axes) fc2 a b)%R in
    (forall i j, i < 3 * N -> j < 3 * N ->
       Sum (3 * N) (fun a => m_w m (a / 3)%nat * lx a i * lx a j)%R = (if Nat.eqb i j then 1 else 0)%R) /\
    (forall i j, i < 3 * N -> j < 3 * N -> i <> j -> con2 (3 * N) lx hess i j = 0%R) /\
    (forall i, i < 3 * N -> nth_error freq i = Some (to_wavenumber (con2 (3 * N) lx hess i i))) /\
    StronglySorted Rge freq /\
    forall fuel polyad, fuel0 <= fuel ->
    exists irreps vlxm vlx,
      run eig2 eig label A fuel buddy polyad m axes iatom order (Harmonic fc2)
      = Some (HarmonicResult (mk_lists (firstn (m_nvib m) freq) [] [] irreps) (m_rotcon m) vlxm vlx
                (is_linear (m_rotor m))) /\
      length irreps = m_nvib m /\
      (forall i x, nth_error irreps i = Some x -> label_of (label (m_geom m) lxm) A i (/ 10000) x) /\
      length vlxm = 3 * N /\ length vlx = 3 * N /\
      forall a i, a < 3 * N -> i < 3 * N ->
        exists c d, nth_error vlxm i = Some c /\ nth_error c a = Some (lxm a i) /\
                    nth_error vlx i = Some d /\ nth_error d a = Some (lx a i).
Proof. exact (@harmonic_run_lemma). Qed.
Example harmonic_run_reports_ex :
  let m := mk_mol (F:=R) Diatomic [] 2 1 (fun i => (INR i, 0%R, 1%R)) bad_w (fun _ => 2%R) (fun _ => 3%R) in
  (m_rotor m = AsymmTop \/ m_rotor m = Diatomic) /\ 0 < m_natom m /\ m_nvib m <= 3 * m_natom m /\
  (forall q, q < m_natom m -> (0 < m_w m q)%R) /\ sym2 (3 * m_natom m) good_f /\
  solves (3 * m_natom m) (fun _ => (good_vals, bad_vecs)) (secular (m_natom m) qturn good_f (m_w m)).
Proof.
  cbv zeta. cbn [m_rotor m_natom m_nvib m_w]. split; [now right|]. split; [lia|]. split; [lia|].
  split; [exact bad_w_pos|]. split; [exact good_sym|]. apply good_solves; auto.
Qed.
Print Assumptions harmonic_run_reports.

(** a run with cubic force constants always panics *)
Theorem cubic_run_refuted :
  forall (F I : Type) (N : Num F) (T : Trig F) eig2 eig
    (label : (nat -> F * F * F) -> (nat -> nat -> F) -> nat -> F -> option I) A fuel buddy polyad m axes iatom order fc2 f3x,
  run eig2 eig label A fuel buddy polyad m axes iatom order (Cubic fc2 f3x) = None.
Proof. exact (@cubic_run_lemma). Qed.
Example cubic_run_refuted_ex : derivative_fc2 (Cubic (fun a b => a + b) (fun a b c => a * b * c)) 2 3 = 5.
Proof. reflexivity. Qed.
Print Assumptions cubic_run_refuted.
