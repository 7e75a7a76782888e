(** Properties C09-C14 and C65-C70: rotation of the force constants, normal modes,
    frequencies and the change to normal coordinates. *)
From Coq Require Import Reals Lra List ZArith Arith Lia Bool QArith Permutation Sorted.
From Verif Require Import Num Loops Index Anharm AnharmFacts Transform TransformFacts RotFacts NormalFacts
  HarmFacts ModeFacts ZeroFacts ReportFacts.
Import ListNotations.
Open Scope nat_scope.

(** C09 *)
Theorem cubic_complete : forall n (f : nat -> nat -> nat -> R) lx nvib w, 0 < nvib -> tsym3 n f ->
  exists v, force3 n f lx nvib w = Some v /\
    length v = nvib * (nvib + 1) * (nvib + 2) / 6 /\
    forall i j k, i < nvib -> j < nvib -> k < nvib ->
      f3qcm_get v i j k = Some (cubic_spec n f lx w i j k).
Proof. exact force3_lemma. Qed.
Example cubic_complete_ex :
  let f := fun a b c => INR (a + b + c) in
  let lx := fun a i => match a, i with 0, 0 => 1%R | 0, 1 => 2%R | 1, 1 => 1%R | _, _ => 0%R end in
  tsym3 2 f /\ con3 2 lx f 0 1 1 = 6%R /\
  cubic_spec 2 f lx (fun _ => 4%R) 0 1 1 = (FACT3 * FUNIT3 / 8 * 6)%R.
Proof.
  cbv zeta. split; [|split].
  - split; intros; f_equal; lia.
  - cbn. lra.
  - unfold cubic_spec. replace (4 * 4 * 4)%R with (8 * 8)%R by lra. rewrite sqrt_square by lra.
    f_equal. cbn. lra.
Qed.
Print Assumptions cubic_complete.

Theorem no_modes_no_cubic : forall n (f : nat -> nat -> nat -> R) lx w, force3 n f lx 0 w = None.
Proof. exact force3_none. Qed.
Print Assumptions no_modes_no_cubic.

(** C10 *)
Theorem quartic_complete : forall n (f : nat -> nat -> nat -> nat -> R) lx nvib w, 0 < nvib -> tsym4 n f ->
  exists v, force4 n f lx nvib w = Some v /\
    length v = nvib * (nvib + 1) * (nvib + 2) * (nvib + 3) / 24 /\
    forall i j k l, i < nvib -> j < nvib -> k < nvib -> l < nvib ->
      f4qcm_get v i j k l = Some (quartic_spec n f lx w i j k l).
Proof. exact force4_lemma. Qed.
Example quartic_complete_ex :
  let f := fun a b c d => INR (a + b + c + d) in
  let lx := fun a i => match a, i with 0, 0 => 1%R | 0, 1 => 2%R | 1, 1 => 1%R | _, _ => 0%R end in
  tsym4 2 f /\ con4 2 lx f 0 0 1 1 = 6%R /\
  quartic_spec 2 f lx (fun _ => 4%R) 0 0 1 1 = (FACT4 * FUNIT4 / 16 * 6)%R.
Proof.
  cbv zeta. split; [|split].
  - repeat split; intros; f_equal; lia.
  - cbn. lra.
  - unfold quartic_spec. replace (4 * 4 * 4 * 4)%R with (16 * 16)%R by lra. rewrite sqrt_square by lra.
    f_equal. cbn. lra.
Qed.
Print Assumptions quartic_complete.

(** C11 *)
Theorem second_derivatives_rotate : forall N axes (f : nat -> nat -> R) a b, a < 3 * N -> b < 3 * N ->
  rot2nd N axes f a b = con2 (3 * N) (every_atom axes) f a b.
Proof. exact rot2nd_lemma. Qed.
Example second_derivatives_rotate_ex :
  let axes := fun a b => match a, b with 0, 1 => 1%Q | 1, 0 => (-1)%Q | 2, 2 => 1%Q | _, _ => 0%Q end in
  let f := fun a b => inject_Z (Z.of_nat (6 * a + b)) in
  Qred (rot2nd 2 axes f 0 4) = Qred (Qopp (f 1 3)).
Proof. vm_compute. reflexivity. Qed.
Print Assumptions second_derivatives_rotate.

Theorem third_derivatives_rotate : forall N axes (f : nat -> nat -> nat -> R) a b c,
  a < 3 * N -> b < 3 * N -> c < 3 * N ->
  rot3rd N (3 * N) axes f a b c = con3 (3 * N) (every_atom axes) f a b c.
Proof. exact rot3rd_lemma. Qed.
Example third_derivatives_rotate_ex :
  let axes := fun a b => match a, b with 0, 1 => 1%Q | 1, 0 => (-1)%Q | 2, 2 => 1%Q | _, _ => 0%Q end in
  let f := fun a b c => inject_Z (Z.of_nat (36 * a + 6 * b + c)) in
  Qred (rot3rd 2 6 axes f 0 4 3) = Qred (f 1 3 4).
Proof. vm_compute. reflexivity. Qed.
Print Assumptions third_derivatives_rotate.

Theorem fourth_derivatives_rotate : forall N axes (f : nat -> nat -> nat -> nat -> R) a b c d,
  a < 3 * N -> b < 3 * N -> c < 3 * N -> d < 3 * N ->
  rot4th N (3 * N) axes f a b c d = con4 (3 * N) (every_atom axes) f a b c d.
Proof. exact rot4th_lemma. Qed.
Example fourth_derivatives_rotate_ex :
  let axes := fun a b => match a, b with 0, 1 => 1%Q | 1, 0 => (-1)%Q | 2, 2 => 1%Q | _, _ => 0%Q end in
  let f := fun a b c d => inject_Z (Z.of_nat (27 * a + 9 * b + 3 * c + d)) in
  Qred (rot4th 1 3 axes f 0 1 0 0) = Qred (Qopp (f 1 0 1 1)).
Proof. vm_compute. reflexivity. Qed.
Print Assumptions fourth_derivatives_rotate.

Theorem rotation_keeps_symmetry : forall N axes,
  (forall (f : nat -> nat -> R) a b, a < 3 * N -> b < 3 * N ->
     (forall r s, r < 3 * N -> s < 3 * N -> f r s = f s r) ->
     rot2nd N axes f a b = rot2nd N axes f b a) /\
  (forall f, tsym3 (3 * N) f -> tsym3 (3 * N) (rot3rd N (3 * N) axes f)) /\
  (forall f, tsym4 (3 * N) f -> tsym4 (3 * N) (rot4th N (3 * N) axes f)).
Proof. exact rot_sym_lemma. Qed.
Example rotation_keeps_symmetry_ex :
  let f := fun a b c => INR (a * b * c) in tsym3 6 f /\ f 1 2 3 = 6%R.
Proof. cbv zeta. split; [split; intros; f_equal; lia|cbn; lra]. Qed.
Print Assumptions rotation_keeps_symmetry.

Theorem rotation_undone : forall N axes, orthonormal_rows axes ->
  (forall (f : nat -> nat -> R) a b, a < 3 * N -> b < 3 * N ->
     rot2nd N (tr axes) (rot2nd N axes f) a b = f a b) /\
  (forall (f : nat -> nat -> nat -> R) a b c, a < 3 * N -> b < 3 * N -> c < 3 * N ->
     rot3rd N (3 * N) (tr axes) (rot3rd N (3 * N) axes f) a b c = f a b c) /\
  (forall (f : nat -> nat -> nat -> nat -> R) a b c d, a < 3 * N -> b < 3 * N -> c < 3 * N -> d < 3 * N ->
     rot4th N (3 * N) (tr axes) (rot4th N (3 * N) axes f) a b c d = f a b c d).
Proof. exact rot_inverse_lemma. Qed.
Example rotation_undone_ex : orthonormal_rows qturn /\ qturn 0 1 <> qturn 1 0.
Proof. split; [exact (proj1 qturn_orth)|cbn; lra]. Qed.
Print Assumptions rotation_undone.

(** C12 *)
Theorem secular_matrix : forall (F : Type) (N : Num F) n (f g : nat -> nat -> F) sqm a b, a < n -> b < n ->
  let lo := Nat.min a b in let hi := Nat.max a b in
  form_sec n f sqm a b = nmul (nmul (sqm (lo / 3)) (f lo hi)) (sqm (hi / 3)) /\
  form_sec n f sqm a b = form_sec n f sqm b a /\
  ((forall i j, i <= j -> f i j = g i j) -> form_sec n f sqm a b = form_sec n g sqm a b).
Proof. exact @form_sec_any_lemma. Qed.
Example secular_matrix_ex :
  let f := fun a b => inject_Z (Z.of_nat (10 * a + b)) in
  let sqm := fun q => match q with 0 => 2%Q | _ => 3%Q end in
  Qred (form_sec 6 f sqm 4 1) = (84 # 1)%Q /\ Qred (form_sec 6 f sqm 1 4) = (84 # 1)%Q.
Proof. vm_compute. auto. Qed.
Print Assumptions secular_matrix.

Theorem secular_matrix_exact : forall N axes (f : nat -> nat -> R) w a b,
  sym2 (3 * N) f -> (forall q, q < N -> (0 < w q)%R) -> a < 3 * N -> b < 3 * N ->
  secular N axes f w a b = weighted w (con2 (3 * N) (every_atom axes) f) a b.
Proof. exact secular_R. Qed.
Example secular_matrix_exact_ex :
  sym2 (3 * 2) good_f /\ (forall q, q < 2 -> (0 < bad_w q)%R) /\ good_f 2 5 = (- (1))%R.
Proof. split; [exact good_sym|]. split; [exact bad_w_pos|reflexivity]. Qed.
Print Assumptions secular_matrix_exact.

(** C13 *)
Theorem wavenumbers_ordered : forall f g : R,
  to_wavenumber (- f)%R = (- to_wavenumber f)%R /\
  (to_wavenumber f ^ 2 = @WAVE R Rnum ^ 2 * Rabs f)%R /\
  ((f < g)%R -> (to_wavenumber f < to_wavenumber g)%R).
Proof. exact wavenumber_lemma. Qed.
Example wavenumbers_ordered_ex : to_wavenumber 0%R = 0%R /\ (to_wavenumber (-1) < 0)%R.
Proof.
  assert (Z : to_wavenumber 0%R = 0%R) by now apply wavenumber_0.
  split; [exact Z|]. rewrite <- Z. apply wavenumbers_ordered. lra.
Qed.
Print Assumptions wavenumbers_ordered.

(** C14 *)
Theorem eigenpairs_sorted : forall (vals : list R) (vecs : nat -> nat -> R) reverse,
  (exists vals' vecs' (sg : list nat),
    sort_eigen vals vecs (length vals) reverse = Some (vals', vecs') /\
    length vals' = length vals /\
    Permutation sg (seq 0 (length vals)) /\
    (forall i, i < length vals -> exists s, nth_error sg i = Some s /\
       nth_error vals' i = nth_error vals s /\ forall a, vecs' a i = vecs a s) /\
    (forall i j x y s t, i < j -> nth_error vals' i = Some x -> nth_error vals' j = Some y ->
       nth_error sg i = Some s -> nth_error sg j = Some t ->
       (if reverse then (y < x)%R else (x < y)%R) \/ (x = y /\ s < t))) /\
  (forall cols, length vals < cols -> sort_eigen vals vecs cols reverse = None).
Proof. exact sort_eigen_lemma. Qed.
Example eigenpairs_sorted_ex :
  exists v, sort_eigen [(1 # 1)%Q; (3 # 1)%Q; (1 # 1)%Q; (2 # 1)%Q] (fun a i => inject_Z (Z.of_nat (10 * a + i))) 4 true
    = Some ([(3 # 1)%Q; (2 # 1)%Q; (1 # 1)%Q; (1 # 1)%Q], v) /\
  map (v 2) [0; 1; 2; 3] = map inject_Z [21; 23; 20; 22]%Z.
Proof. eexists. split; [vm_compute; reflexivity|]. vm_compute. reflexivity. Qed.
Print Assumptions eigenpairs_sorted.

(** C65.  [solves n eig A]: for the matrix [A] the eigensolver gives [n] values and an
    orthogonal matrix whose columns are eigenvectors of these values. *)
Theorem normal_modes : forall N axes (f : nat -> nat -> R) w eig,
  sym2 (3 * N) f -> (forall q, q < N -> (0 < w q)%R) ->
  solves (3 * N) eig (secular N axes f w) ->
  exists freq lxm, harmonic N axes f w eig = Some (freq, lxm) /\ length freq = 3 * N /\
    let lx := make_lx (3 * N) (make_sqm w) lxm in
    let hess := fun a b => (FACT2 * con2 (3 * N) (every_atom axes) f a b)%R in
    (forall i j, i < 3 * N -> j < 3 * N ->
       Sum (3 * N) (fun a => w (a / 3)%nat * lx a i * lx a j)%R = (if Nat.eqb i j then 1 else 0)%R) /\
    (forall i j, i < 3 * N -> j < 3 * N -> i <> j -> con2 (3 * N) lx hess i j = 0%R) /\
    (forall i, i < 3 * N -> nth_error freq i = Some (to_wavenumber (con2 (3 * N) lx hess i i))) /\
    StronglySorted Rge freq.
Proof. exact normal_modes_lemma. Qed.
Example normal_modes_ex :
  sym2 (3 * 2) good_f /\ (forall q, q < 2 -> (0 < bad_w q)%R) /\
  solves (3 * 2) (fun _ => (good_vals, bad_vecs)) (secular 2 qturn good_f bad_w) /\ good_f 2 5 = (- (1))%R.
Proof. split; [exact good_sym|]. split; [exact bad_w_pos|]. split; [apply good_solves; auto|reflexivity]. Qed.
Print Assumptions normal_modes.

(** C66 *)
Theorem frequencies_any_axes : forall N axes axes' (f : nat -> nat -> R) w eig eig',
  sym2 (3 * N) f -> (forall q, q < N -> (0 < w q)%R) -> orth 3 axes -> orth 3 axes' ->
  solves (3 * N) eig (secular N axes f w) -> solves (3 * N) eig' (secular N axes' f w) ->
  exists freq lxm lxm', harmonic N axes f w eig = Some (freq, lxm) /\
    harmonic N axes' f w eig' = Some (freq, lxm').
Proof. exact orientation_lemma. Qed.
Example frequencies_any_axes_ex :
  sym2 (3 * 2) good_f /\ (forall q, q < 2 -> (0 < bad_w q)%R) /\ orth 3 delta /\ orth 3 qturn /\
  solves (3 * 2) (fun _ => (good_vals, bad_vecs)) (secular 2 delta good_f bad_w) /\
  solves (3 * 2) (fun _ => (good_vals, bad_vecs)) (secular 2 qturn good_f bad_w).
Proof.
  split; [exact good_sym|]. split; [exact bad_w_pos|]. split; [apply delta_orth|]. split; [exact qturn_orth|].
  split; apply good_solves; auto.
Qed.
Print Assumptions frequencies_any_axes.

(** C67 *)
Theorem vibrations_keep_centre_of_mass : forall N axes (f : nat -> nat -> R) w eig,
  sym2 (3 * N) f -> (forall q, q < N -> (0 < w q)%R) -> orth 3 axes ->
  solves (3 * N) eig (secular N axes f w) -> translation_free N f ->
  exists freq lxm, harmonic N axes f w eig = Some (freq, lxm) /\
    forall i y x, nth_error freq i = Some y -> y <> 0%R -> x < 3 ->
      Sum N (fun q => w q * make_lx (3 * N) (make_sqm w) lxm (3 * q + x)%nat i)%R = 0%R.
Proof. exact centre_of_mass_lemma. Qed.
Example vibrations_keep_centre_of_mass_ex :
  sym2 (3 * 2) good_f /\ (forall q, q < 2 -> (0 < bad_w q)%R) /\ orth 3 qturn /\
  solves (3 * 2) (fun _ => (good_vals, bad_vecs)) (secular 2 qturn good_f bad_w) /\
  translation_free 2 good_f /\ nth_error good_vals 5 = Some (2 * @FACT2 R Rnum)%R /\ (2 * @FACT2 R Rnum <> 0)%R.
Proof.
  split; [exact good_sym|]. split; [exact bad_w_pos|]. split; [exact qturn_orth|].
  split; [apply good_solves; auto|]. split; [exact good_free|]. split; [reflexivity|].
  pose proof FACT2_pos. lra.
Qed.
Print Assumptions vibrations_keep_centre_of_mass.

Theorem three_zero_frequencies : forall N axes (f : nat -> nat -> R) w eig,
  sym2 (3 * N) f -> (forall q, q < N -> (0 < w q)%R) -> orth 3 axes ->
  solves (3 * N) eig (secular N axes f w) -> 0 < N -> translation_free N f ->
  exists freq lxm, harmonic N axes f w eig = Some (freq, lxm) /\ 3 <= count_occ Req_EM_T freq 0%R.
Proof. exact three_zero_lemma. Qed.
Example three_zero_frequencies_ex :
  sym2 (3 * 2) good_f /\ (forall q, q < 2 -> (0 < bad_w q)%R) /\ orth 3 qturn /\
  solves (3 * 2) (fun _ => (good_vals, bad_vecs)) (secular 2 qturn good_f bad_w) /\ translation_free 2 good_f.
Proof.
  split; [exact good_sym|]. split; [exact bad_w_pos|]. split; [exact qturn_orth|].
  split; [apply good_solves; auto|exact good_free].
Qed.
Print Assumptions three_zero_frequencies.

(** every set of displacements that cost no energy, mass-weighted orthonormal, gives that
    many zero frequencies, and the modes of other frequencies are orthogonal to them *)
Theorem free_displacements : forall N axes (f : nat -> nat -> R) w eig,
  sym2 (3 * N) f -> (forall q, q < N -> (0 < w q)%R) -> orth 3 axes ->
  solves (3 * N) eig (secular N axes f w) ->
  forall k d,
    (forall x, x < k -> null (3 * N) f (d x)) ->
    (forall x y, x < k -> y < k -> Sum (3 * N) (fun a => w (a / 3)%nat * d x a * d y a)%R = delta x y) ->
    exists freq lxm, harmonic N axes f w eig = Some (freq, lxm) /\ k <= count_occ Req_EM_T freq 0%R.
Proof. exact free_count_lemma. Qed.
Example free_displacements_ex :
  let d := fun x a : nat => delta x a in
  (forall x, x < 2 -> null 6 good_f (d x)) /\
  (forall x y, x < 2 -> y < 2 -> Sum 6 (fun a => bad_w (a / 3)%nat * d x a * d y a)%R = delta x y).
Proof.
  cbv zeta. split.
  - intros x Hx a Ha. do 2 (destruct x as [|x]; [do 6 (destruct a as [|a]; [cbn; unfold good_f; cbn [bad_f]; lra|]); lia|]). lia.
  - intros x y Hx Hy. unfold bad_w.
    do 2 (destruct x as [|x]; [do 2 (destruct y as [|y]; [cbn; lra|]); lia|]). lia.
Qed.
Print Assumptions free_displacements.

(** C68 *)
Theorem cubic_any_axes : forall N axes (f : nat -> nat -> nat -> R) lx lx' nvib w,
  orth 3 axes -> tsym3 (3 * N) f -> 0 < nvib ->
  (forall a i, a < 3 * N -> i < nvib ->
     lx' a i = con1 (3 * N) (every_atom axes) (fun r => lx r i) a) ->
  exists v v', force3 (3 * N) f lx nvib w = Some v /\
    force3 (3 * N) (rot3rd N (3 * N) axes f) lx' nvib w = Some v' /\
    forall i j k, i < nvib -> j < nvib -> k < nvib -> f3qcm_get v' i j k = f3qcm_get v i j k.
Proof. exact cubic_orientation_lemma. Qed.
Example cubic_any_axes_ex :
  orth 3 qturn /\ tsym3 (3 * 1) (fun a b c => INR (a * b * c)) /\
  con1 (3 * 1) (every_atom qturn) (fun r => INR r) 0 = (- (1))%R.
Proof.
  split; [exact qturn_orth|]. split; [split; intros; f_equal; lia|]. cbn. lra.
Qed.
Print Assumptions cubic_any_axes.

Theorem quartic_any_axes : forall N axes (f : nat -> nat -> nat -> nat -> R) lx lx' nvib w,
  orth 3 axes -> tsym4 (3 * N) f -> 0 < nvib ->
  (forall a i, a < 3 * N -> i < nvib ->
     lx' a i = con1 (3 * N) (every_atom axes) (fun r => lx r i) a) ->
  exists v v', force4 (3 * N) f lx nvib w = Some v /\
    force4 (3 * N) (rot4th N (3 * N) axes f) lx' nvib w = Some v' /\
    forall i j k l, i < nvib -> j < nvib -> k < nvib -> l < nvib ->
      f4qcm_get v' i j k l = f4qcm_get v i j k l.
Proof. exact quartic_orientation_lemma. Qed.
Example quartic_any_axes_ex :
  orth 3 qturn /\ tsym4 (3 * 1) (fun a b c d => INR (a * b * c * d)) /\
  con1 (3 * 1) (every_atom qturn) (fun r => INR r) 0 = (- (1))%R.
Proof.
  split; [exact qturn_orth|]. split; [repeat split; intros; f_equal; lia|]. cbn. lra.
Qed.
Print Assumptions quartic_any_axes.

(** C69.  Full statement: the reported harmonic frequencies are the frequencies that are
    not zero, when the other 3 N - nvib frequencies are zero.  It holds when no frequency
    is imaginary (negative); the next theorem shows that it fails otherwise. *)
Theorem reported_frequencies_partial : forall N axes (f : nat -> nat -> R) w eig nvib,
  solves (3 * N) eig (secular N axes f w) -> sym2 (3 * N) f -> (forall q, q < N -> (0 < w q)%R) ->
  exists freq lxm, harmonic N axes f w eig = Some (freq, lxm) /\
    ((forall x, In x freq -> (0 <= x)%R) -> count_occ Req_EM_T freq 0%R + nvib = 3 * N ->
     reported_harms nvib freq = Some (filter positive freq)) /\
    (3 * N < nvib -> reported_harms nvib freq = None).
Proof. exact reported_lemma. Qed.
Example reported_frequencies_partial_ex :
  let freq := map (@to_wavenumber R Rnum) good_vals in
  solves (3 * 2) (fun _ => (good_vals, bad_vecs)) (secular 2 qturn good_f bad_w) /\
  (forall x, In x freq -> (0 <= x)%R) /\ count_occ Req_EM_T freq 0%R + 1 = 3 * 2.
Proof.
  cbv zeta. split; [apply good_solves; auto|].
  assert (Z : to_wavenumber 0%R = 0%R) by now apply wavenumber_0.
  assert (P : (0 < to_wavenumber (2 * @FACT2 R Rnum))%R).
  { rewrite <- Z. apply wavenumbers_ordered. pose proof FACT2_pos. lra. }
  unfold good_vals. cbn [map]. rewrite Z. split.
  - intros x Hx. repeat (destruct Hx as [<-|Hx]; [lra|]). destruct Hx.
  - cbn [count_occ]. destruct (Req_EM_T 0 0); [|contradiction].
    destruct (Req_EM_T (to_wavenumber (2 * @FACT2 R Rnum)%R) 0); [lra|reflexivity].
Qed.
Print Assumptions reported_frequencies_partial.

Theorem reported_frequencies_refuted :
  exists N axes f w eig nvib freq lxm l x,
    sym2 (3 * N) f /\ (forall q, q < N -> (0 < w q)%R) /\ orth 3 axes /\ translation_free N f /\
    solves (3 * N) eig (secular N axes f w) /\
    harmonic N axes f w eig = Some (freq, lxm) /\
    count_occ Req_EM_T freq 0%R + nvib = 3 * N /\
    reported_harms nvib freq = Some l /\ In x freq /\ x <> 0%R /\ ~ In x l /\ In 0%R l.
Proof. exact imaginary_refuted_lemma. Qed.
Print Assumptions reported_frequencies_refuted.

(** C70 *)
Theorem unit_factors :
  (@FACT2 R Rnum * bohr ^ 2 = hartree /\ @FUNIT3 R Rnum * bohr ^ 3 = hartree /\ @FUNIT4 R Rnum * bohr ^ 4 = hartree /\
  @ALAM R Rnum * (planck * avogadro) = 0.04 * (pi_digits ^ 2 * light) /\
  @FACT4 R Rnum * (@ALAM R Rnum ^ 2 * planck * light) = 1000000 /\
  relatively 1e-14 (@FACT3 R Rnum ^ 2 * (@ALAM R Rnum ^ 3 * planck ^ 2 * light ^ 2)) 1e12 /\
  relatively 1e-14 ((@WAVE R Rnum * (2 * pi_digits * light)) ^ 2) (1e8 * avogadro))%R.
Proof. exact unit_factors_lemma. Qed.
Print Assumptions unit_factors.
