(** Properties C19, C47, C50, C52, C63, C79 and C80: orientation, alignment of degenerate
    modes, symmetry labels and the printed tables. *)
From Coq Require Import Reals Lra Lia List ZArith Arith Bool Permutation QArith SpecFloat.
From Verif Require Import Num Loops Index Modes Anharm VibRot Distort Transform Report Geom ListFacts
  ModesFacts ResFacts StatesFacts AnharmFacts VibRotFacts TransformFacts ModeFacts SymRotFacts ResWitness
  GeomFacts AlignFacts AlignExact IrrepFacts OutputFacts OrientFacts.
Import ListNotations.
Open Scope list_scope.
Open Scope nat_scope.

(** C19, asymmetric tops.  [describes fr t eng eng' r m]: the three frequencies of row [r]
    are the harmonic frequency of mode [m] and the differences between its fundamental
    level and the ground level before and after the treatment of Fermi resonances. *)
Theorem rows_line_up : forall (I : Type) nvib (fr : list R) x gc e0 eig2 f3 fm1 fm2 (irreps : list I),
  (forall i j, x i j = x j i) ->
  length irreps = nvib -> nvib <= length fr ->
  (forall i j, In (i, j) fm1 -> j < nvib) ->
  (forall i j k, In (i, j, k) fm2 -> k < nvib) ->
  exists t eng eng' o rws,
    restst_tables nvib (ioff (nvib + 1)) (singles nvib) = Some t /\
    part1 (fun i => nth i fr 0%R) (singles nvib) x gc e0 (t_states t) = Some eng /\
    enrgy eig2 f3 (make_fermi_checks fm1 fm2) (singles nvib) t eng = Some eng' /\
    finish_lists false nvib (singles nvib) fr x gc eng' irreps = Some o /\ table o = Some rws /\
    length rws = nvib /\
    forall p r, nth_error rws p = Some r ->
      row_mode r = p + 1 /\ nth_error irreps p = Some (row_irrep r) /\ describes fr t eng eng' r p.
Proof. exact (@rows_asym_lemma). Qed.
Example rows_line_up_ex :
  (let* o := finish_lists (F := Q) false 2 (singles 2) [3000; 1500; 0; 0; 0; 0; 0; 0; 0]%Q
     (fun i j => - inject_Z (Z.of_nat (10 + i + j)))%Q None
     [2000; 4900; 3400; 6000; 7000; 8000]%Q [11; 12] in
   option_map (map (fun r => (row_mode r, row_irrep r, Qred (row_harm r), Qred (row_fund r), Qred (row_corr r))))
     (table o))
  = Some [(1%nat, 11%nat, 3000, 5949 # 2, 2900); (2%nat, 12%nat, 1500, 2941 # 2, 1400)]%Q.
Proof. vm_compute. reflexivity. Qed.
Print Assumptions rows_line_up.

(** C19, symmetric tops: row [p] shows the frequencies of the [p]-th mode of the list
    "nondegenerate modes, then one of each degenerate pair", but the label of mode [p] *)
Theorem symmetric_rows_partial :
  forall (I : Type) nvib modes (fr : list R) x gc e0 eig2 f3 fm1 fm2 (irreps : list I),
  Permutation (flat_map members modes) (seq 0 nvib) ->
  (forall i j, x i j = x j i) ->
  gc <> None \/ flat_map get2 modes = [] ->
  length irreps = nvib ->
  (forall i j, In (i, j) fm1 -> j < nvib) ->
  (forall i j k, In (i, j, k) fm2 -> k < nvib) ->
  exists t eng eng' o rws,
    restst_tables nvib (ioff (nvib + 1)) modes = Some t /\
    part1 (fun i => nth i fr 0%R) modes x gc e0 (t_states t) = Some eng /\
    enrgy eig2 f3 (make_fermi_checks fm1 fm2) modes t eng = Some eng' /\
    finish_lists true nvib modes fr x gc eng' irreps = Some o /\ table o = Some rws /\
    length rws = length (listed modes) /\
    forall p r, nth_error rws p = Some r ->
      row_mode r = p + 1 /\ nth_error irreps p = Some (row_irrep r) /\
      exists m, nth_error (listed modes) p = Some m /\ describes fr t eng eng' r m.
Proof. exact (@rows_sym_lemma). Qed.
Example symmetric_rows_ex :
  Permutation (flat_map members [I2 0 1; I1 2]) (seq 0 3) /\
  (let* o := finish_lists (F := Q) true 3 [I2 0 1; I1 2] [3000; 3000; 1000; 0; 0; 0]%Q
     (fun _ _ => 0)%Q (Some (fun _ _ => 0)%Q) [2000; 2990; 4980; 0; 0; 0; 0]%Q [21; 22; 23] in
   option_map (map (fun r => (row_mode r, row_irrep r, Qred (row_harm r), Qred (row_fund r), Qred (row_corr r))))
     (table o))
  = Some [(1%nat, 21%nat, 1000, 1000, 990); (2%nat, 22%nat, 3000, 3000, 2980)]%Q.
Proof. split; [cbn; apply Permutation_refl|vm_compute; reflexivity]. Qed.
Print Assumptions symmetric_rows_partial.

(** C19 is false for symmetric tops: with the frequencies of ammonia the first row shows
    the label of mode 0 beside the frequency of mode 2.  The labels are the mode numbers
    themselves. *)
Theorem rows_line_up_refuted :
  exists modes o rws r,
    deg_modes OblateSymmTop 6 (fun i => nth i nh3_freq (nz 0)) = Some modes /\
    finish_lists true 6 modes nh3_freq (fun _ _ => nz 0) (Some (fun _ _ => nz 0)) (repeat (nz 0) 20)
      (seq 0 6) = Some o /\
    table o = Some rws /\ nth_error rws 0 = Some r /\
    row_irrep r = 0 /\ Some (row_harm r) = nth_error nh3_freq 2 /\
    Some (row_harm r) <> nth_error nh3_freq 0.
Proof. exact rows_refuted_lemma. Qed.
Print Assumptions rows_line_up_refuted.

(** C63: the table exists exactly if no list is shorter than the list of harmonic
    frequencies; [row_of o i r] says that row [r] holds the [i]-th entries *)
Theorem table_panics : forall (F I : Type) (o : lists F I),
  (forall rws, table o = Some rws ->
     length rws = length (o_harms o) /\
     forall i r, nth_error rws i = Some r -> row_of o i r) /\
  (table o = None <->
     length (o_irreps o) < length (o_harms o) \/ length (o_funds o) < length (o_harms o) \/
     length (o_corrs o) < length (o_harms o)).
Proof. exact (@table_lemma). Qed.
Example table_panics_ex :
  option_map (@length _) (table (mk_lists [30; 20]%Q [29; 19]%Q [28; 18]%Q [0; 1])) = Some 2 /\
  table (mk_lists [30; 20]%Q [29]%Q [28; 18]%Q [0; 1]) = None.
Proof. split; reflexivity. Qed.
Print Assumptions table_panics.

(** C63 is false: the result of a harmonic run cannot be printed *)
Theorem harmonic_result_prints_refuted :
  (forall (F I : Type) nvib (freq : list F) (irreps : list I) o,
     harmonic_lists nvib freq irreps = Some o -> (table o = None <-> 0 < nvib)) /\
  exists o, harmonic_lists 3 nh3_freq [0; 1; 2] = Some o /\ table o = None.
Proof. exact harmonic_table_both. Qed.
Print Assumptions harmonic_result_prints_refuted.

(** C47: the modes stay normal modes if every two modes that are turned have the same
    eigenvalue *)
Theorem aligned_modes_normal :
  forall linear natom nvib iatom order buddy freq w (lxm lx lxm' lx' : nat -> nat -> R) A vals,
  nvib <= 3 * natom ->
  (forall a b, a < nvib -> b < nvib -> partners linear freq a b ->
     nth_error vals a = nth_error vals b) ->
  eigen_system (3 * natom) A vals lxm ->
  bdegnl linear natom nvib iatom order buddy freq w lxm lx = Some (lxm', lx') ->
  eigen_system (3 * natom) A vals lxm'.
Proof. exact normal_kept. Qed.
Print Assumptions aligned_modes_normal.

Theorem aligned_modes_orthonormal :
  forall linear natom nvib iatom order buddy freq w (lxm lx lxm' lx' : nat -> nat -> R),
  nvib <= 3 * natom -> orth (3 * natom) lxm ->
  bdegnl linear natom nvib iatom order buddy freq w lxm lx = Some (lxm', lx') ->
  orth (3 * natom) lxm'.
Proof. exact orth_kept. Qed.
Print Assumptions aligned_modes_orthonormal.

(** C47: modes without a partner are left alone, in every arithmetic *)
Theorem other_modes_untouched : forall (F : Type) (N : Num F) (T : Trig F)
  linear natom nvib iatom order buddy freq (w : nat -> F) lxm lx lxm' lx' k,
  bdegnl linear natom nvib iatom order buddy freq w lxm lx = Some (lxm', lx') ->
  (nvib <= k \/ forall m, m < nvib -> m <> k -> ~ partners linear freq k m) ->
  forall i, lxm' i k = lxm i k /\ lx' i k = lx i k.
Proof. exact (@untouched_lemma). Qed.
Print Assumptions other_modes_untouched.

(** C47: the mass-weighted copy stays consistent *)
Theorem mass_weighted_copy_kept :
  forall linear natom nvib iatom order buddy freq w (lxm lx lxm' lx' : nat -> nat -> R),
  mass_weighted natom w lxm lx ->
  bdegnl linear natom nvib iatom order buddy freq w lxm lx = Some (lxm', lx') ->
  mass_weighted natom w lxm' lx'.
Proof. exact weighted_kept. Qed.
Print Assumptions mass_weighted_copy_kept.

(** C47: what is made to vanish.  [turned]: the new columns are the old ones turned by an
    angle, the second one perhaps negated; [aligned] says which component of the atom
    [iatom] vanishes.  [big x] is |x| >= 1e-5. *)
Theorem pair_aligned_partial :
  forall linear natom nvib iatom order buddy freq w (lxm lx lxm' lx' : nat -> nat -> R) a b,
  iatom < natom -> a < b -> b < nvib -> partners linear freq a b ->
  (forall m, m < nvib -> m <> a -> m <> b -> ~ partners linear freq a m /\ ~ partners linear freq b m) ->
  bdegnl linear natom nvib iatom order buddy freq w lxm lx = Some (lxm', lx') ->
  (exists c s g, turned (3 * natom) c s g (fun i => lxm i a) (fun i => lxm i b)
                   (fun i => lxm' i a) (fun i => lxm' i b)) /\
  aligned iatom (fun i => lxm i a) (fun i => lxm i b) (fun i => lxm' i a) (fun i => lxm' i b).
Proof. exact aligned_lemma. Qed.
(** the hypotheses of the theorems of C47 hold here *)
Example pair_aligned_ex :
  orth 3 tcol /\ eigen_system 3 tforce [4; 4; 1]%R tcol /\
  partners true tfreq 0 1 /\ ~ partners true tfreq 0 2 /\ ~ partners true tfreq 1 2 /\
  mass_weighted 1 (fun _ => 4%R) tcol (fun i k => tcol i k / 2)%R /\
  exists lxm' lx',
    bdegnl true 1 3 0 3 None tfreq (fun _ => 4%R) tcol (fun i k => tcol i k / 2)%R = Some (lxm', lx').
Proof. exact align_example. Qed.
Print Assumptions pair_aligned_partial.

(** C47: when the function panics at a pair *)
Theorem pair_panics_exactly : forall linear natom iatom order buddy w a b (l lx : nat -> nat -> R),
  let x := (3 * iatom)%nat in let y := (x + 1)%nat in let z := (x + 2)%nat in
  align_pair linear natom iatom order buddy w a b (l, lx) = None <->
  (~ big (l x a) /\ ~ big (l x b) /\ ~ big (l y a) /\ ~ big (l y b) /\
   (linear = true \/ (Rabs (l z a) <= toler)%R /\ (Rabs (l z b) <= toler)%R)) \/
  (linear = false /\ buddy = None).
Proof. exact pair_panics. Qed.
Print Assumptions pair_panics_exactly.

(** C47 is false when the two x components are small and the y component of the second
    column is not: the program divides by the wrong component, and afterwards both columns
    have a y component *)
Theorem pair_aligned_refuted :
  exists natom nvib iatom order buddy (freq w : nat -> R) lxm lx lxm' lx' a b,
    iatom < natom /\ a < b /\ b < nvib /\ partners false freq a b /\ orth (3 * natom) lxm /\
    bdegnl false natom nvib iatom order buddy freq w lxm lx = Some (lxm', lx') /\
    ~ big (lxm (3 * iatom)%nat a) /\ ~ big (lxm (3 * iatom)%nat b) /\
    ~ big (lxm' (3 * iatom)%nat a) /\ ~ big (lxm' (3 * iatom)%nat b) /\
    big (lxm' (3 * iatom + 1)%nat a) /\ big (lxm' (3 * iatom + 1)%nat b).
Proof. exact align_refuted_lemma. Qed.
Print Assumptions pair_aligned_refuted.

(** C50: for a positive starting tolerance the search ends after a number of steps that
    depends on the tolerance only *)
Theorem symmetry_labels_partial : forall eps : R, (0 < eps)%R ->
  exists fuel, forall (I : Type) (irrep : nat -> R -> option I) A cols nvib n, fuel <= n ->
  exists l, compute_irreps_in irrep A n cols nvib eps = Some l /\ length l = Nat.min nvib cols /\
    forall i x, nth_error l i = Some x -> label_of irrep A i eps x.
Proof. exact irreps_R_lemma. Qed.
Theorem symmetry_label_unique : forall (I : Type) (irrep : nat -> R -> option I) A i eps x y,
  label_of irrep A i eps x -> label_of irrep A i eps y -> x = y.
Proof. exact (@label_unique). Qed.
Example symmetry_labels_ex :
  compute_irreps_in (F := Q) (fun i e => match i with
     | 0 => Some 10 | 1 => if Qle_bool (1 # 1000) e then Some 11 else None | _ => None end)
    99 4 9 3 (1 # 10000)%Q = Some [10; 11; 99].
Proof. vm_compute. reflexivity. Qed.
Print Assumptions symmetry_labels_partial.
Print Assumptions symmetry_label_unique.

(** C50: the tolerance the program starts from, in double precision *)
Theorem symmetry_labels_double : forall (I : Type) (irrep : nat -> f64 -> option I) A cols nvib n, 5 <= n ->
  exists l, compute_irreps_in irrep A n cols nvib eps_run = Some l /\ length l = Nat.min nvib cols /\
    forall i x, nth_error l i = Some x -> found irrep A i eps_run x.
Proof. exact irreps_f64_lemma. Qed.
Print Assumptions symmetry_labels_double.

(** C50 is false for other tolerances: with a tolerance that is not positive, or is not a
    number, the search need not end *)
Theorem symmetry_labels_refuted :
  (forall eps : R, (eps <= 0)%R -> exists irrep : nat -> R -> option unit,
     forall fuel cols nvib, 0 < nvib -> 0 < cols ->
       compute_irreps_in irrep tt fuel cols nvib eps = None) /\
  (exists irrep : nat -> f64 -> option unit, forall fuel cols nvib, 0 < nvib -> 0 < cols ->
       compute_irreps_in irrep tt fuel cols nvib (nz 0) = None /\
       compute_irreps_in irrep tt fuel cols nvib S754_nan = None).
Proof. exact irreps_refuted_lemma. Qed.
Print Assumptions symmetry_labels_refuted.

(** C52.  [suitable g v]: the atom lies in the mirror plane and off the axis (or, for
    groups without such a plane, off the axis); [along_z g]: the axis is z, as it is after
    the geometry was normalised. *)
Theorem symmetric_top_oriented : forall (g : group) old (atoms : list (R * R * R)) axes,
  well_formed g -> along_z g ->
  (orient_geom true false g old atoms axes = None <-> forall v, In v atoms -> ~ suitable g v) /\
  (forall atoms' axes' r, orient_geom true false g old atoms axes = Some (atoms', axes', r) ->
     exists i n a x y z, r = Some (i, n, a) /\ nth_error atoms i = Some (x, y, z) /\
       suitable g (x, y, z) /\
       (forall j u, j < i -> nth_error atoms j = Some u -> ~ suitable g u) /\
       nth_error atoms' i = Some (sqrt (x * x + y * y), 0, z)%R /\ (0 < sqrt (x * x + y * y))%R /\
       length atoms' = length atoms /\
       (forall i j u v u' v', nth_error atoms i = Some u -> nth_error atoms j = Some v ->
          nth_error atoms' i = Some u' -> nth_error atoms' j = Some v' -> sqdist u' v' = sqdist u v) /\
       (forall i u u', nth_error atoms i = Some u -> nth_error atoms' i = Some u' -> snd u' = snd u) /\
       (orth 3 axes -> orth 3 axes') /\ det3 axes' = det3 axes /\
       (forall orig, atoms = map (in_frame axes) orig -> atoms' = map (in_frame axes') orig)).
Proof. exact oriented_lemma. Qed.
Example symmetric_top_oriented_ex :
  well_formed (C3v AZ (AY, AZ)) /\ along_z (C3v AZ (AY, AZ)) /\
  make_iatl (F := Q) [(0, 0, 1); (0, 2, -1); (5, -1, -1)]%Q AX (C3v AZ (AY, AZ)) = Some (1, 3, AZ).
Proof. split; [split; [discriminate|now right]|]. split; [reflexivity|vm_compute; reflexivity]. Qed.
Print Assumptions symmetric_top_oriented.

(** C52: linear molecules and asymmetric tops are not turned *)
Theorem others_not_oriented : forall (sym : bool) g old (atoms : list (R * R * R)) axes,
  orient_geom sym true g old atoms axes = Some (atoms, fix_linear axes, None) /\
  orient_geom false false g old atoms axes = Some (atoms, axes, None).
Proof. exact not_oriented_lemma. Qed.
Print Assumptions others_not_oriented.

(** C52: the axes of linear molecules stay orthonormal and still describe the atoms, which
    lie on the third axis *)
Theorem linear_axes_fixed : forall axes : nat -> nat -> R, orth 3 axes ->
  orth 3 (fix_linear axes) /\
  (forall i, i < 3 -> fix_linear axes i 2 = axes i 2) /\
  (forall v, (let '(x, y, _) := in_frame axes v in x = 0 /\ y = 0)%R ->
     in_frame (fix_linear axes) v = in_frame axes v).
Proof. exact fix_linear_lemma. Qed.
Example linear_axes_fixed_ex :
  map (fun i => map (fix_linear (F := Q) (fun i j => match i, j with
       | 0, 0 => (3 # 5)%Q | 0, 1 => (4 # 5)%Q | 1, 0 => (-4 # 5)%Q | 1, 1 => (3 # 5)%Q
       | 2, 2 => 1%Q | _, _ => 0%Q end) i) (seq 0 3))
    (seq 0 3) = [[1; 0; 0]; [0; 1; 0]; [0; 0; 1]]%Q.
Proof. vm_compute. reflexivity. Qed.
Print Assumptions linear_axes_fixed.

(** C79 *)
Theorem axis_recorded_partial : forall (F : Type) (N : Num F) (atoms : list (F * F * F)) old g i n a,
  make_iatl atoms old g = Some (i, n, a) ->
  n = main_order g /\
  (main_axis g = Some a \/ ((exists b, g = C2h b \/ g = C3 b) /\ a = old)).
Proof. exact (@axis_lemma). Qed.
Example axis_recorded_ex :
  make_iatl (F := Q) [(0, 0, 1); (2, 0, -1)]%Q AX (D3h AZ (AX, AZ)) = Some (1, 3, AZ) /\
  make_iatl (F := Q) [(0, 0, 1); (2, 0, -1)]%Q AX (C2h AZ) = Some (1, 2, AX).
Proof. split; vm_compute; reflexivity. Qed.
Print Assumptions axis_recorded_partial.

Theorem axis_recorded_refuted :
  exists (atoms : list (R * R * R)) old g i n a,
    well_formed g /\ along_z g /\ make_iatl atoms old g = Some (i, n, a) /\ main_axis g <> Some a.
Proof. exact axis_refuted_lemma. Qed.
Print Assumptions axis_recorded_refuted.

(** C80: the constants of a linear molecule.  Those stored are the vibrational corrections
    alone, those printed have the equilibrium value added. *)
Theorem linear_constants_printed : forall nvib modes r (B I w : nat -> R) wl zm f3 cor primat wila q,
  r = Linear \/ r = Diatomic ->
  Permutation (flat_map members modes) (seq 0 nvib) ->
  quartic_new r nvib B primat w wila = Some q ->
  exists t rows out,
    restst_tables nvib (ioff (nvib + 1)) modes = Some t /\
    alphas B I w wl zm f3 r modes (t_states t) cor = Some rows /\
    rots B r rows (t_states t) (bxs q) (bys q) (bzs q) = Some out /\
    map rot_state out =
      I1st (repeat 0 nvib)
      :: map (fun p => I1st (unit1 nvib p 1)) (seq 0 (length (nondeg modes)))
      ++ map (fun p => I2st (punit1 nvib p (1, 1))) (seq 0 (length (degs modes))) /\
    let v s := sym_vib modes (fun i => sym_alpha B I w wl zm f3 r modes cor i 1) s in
    (forall c, In c out -> rot_b c = v (rot_state c)) /\
    linear_rows out B = map (fun c => (rot_state c, B 1%nat + v (rot_state c))%R) out.
Proof. exact linear_rows_lemma. Qed.
Example linear_constants_printed_ex :
  let modes := [I1 0; I1 1; I2 2 3] in
  let w := fun i : nat => match i with 0 => 2000%Q | 1 => 1000%Q | _ => 500%Q end in
  let wl := fun (i c : nat) => inject_Z (Z.of_nat (i + c)) in
  let z3 := fun _ _ _ : nat => 0%Q in
  Permutation (flat_map members modes) (seq 0 4) /\
  (let* q := quartic_new Linear 4 (fun _ => 10%Q) (fun _ => 3%Q) w wl in
   let* t := restst_tables 4 (ioff 5) modes in
   let* rows := alphas (fun _ => 10%Q) (fun _ => 3%Q) w wl z3 z3 Linear modes (t_states t) [] in
   let* out := rots (fun _ => 10%Q) Linear rows (t_states t) (bxs q) (bys q) (bzs q) in
   Some (map (fun r => Qred (rot_b r)) out, map (fun r => Qred (snd r)) (linear_rows out (fun _ => 10%Q))))
  = Some ([31 # 80; 41 # 80; 83 # 80; 31 # 80], [831 # 80; 841 # 80; 883 # 80; 831 # 80])%Q.
Proof. split; [cbn; apply Permutation_refl|]. vm_compute. reflexivity. Qed.
Print Assumptions linear_constants_printed.
