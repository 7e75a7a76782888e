(** Properties C42-C46, C62 and C64: quartic and sextic distortion constants. *)
From Coq Require Import Reals Lra List ZArith Arith Lia Bool QArith SpecFloat.
From Verif Require Import Num Loops Index Modes Anharm AnharmFacts VibRot VibRotFacts Distort
  VibRotWitness DistortFacts SexticFacts SexticNan.
Import ListNotations.
Open Scope nat_scope.

(** C46 *)
Theorem axis_tables_inverse : forall irep,
  (irep < 6 -> exists c e, princ_cart irep = Some (c, e) /\
     forall i, i < 3 -> at3 c i < 3 /\ at3 e i < 3 /\ at3 e (at3 c i) = i /\ at3 c (at3 e i) = i) /\
  (6 <= irep -> princ_cart irep = None).
Proof. exact axes_lemma. Qed.
Example axis_tables_inverse_ex :
  princ_cart 0 = Some ((2, 0, 1), (1, 2, 0)) /\ princ_cart 6 = None.
Proof. split; reflexivity. Qed.
Print Assumptions axis_tables_inverse.

(** C43: the tensor tau *)
Theorem tau_symmetric : forall nvib (w I : nat -> R) wl i j k l,
  (i < 3)%nat -> (j < 3)%nat -> (k < 3)%nat -> (l < 3)%nat ->
  let tau := make_tau (F := R) nvib w I wl in
  tau i j k l = tau_spec nvib w I wl i j k l /\
  tau i j k l = tau j i k l /\ tau i j k l = tau i j l k /\ tau i j k l = tau k l i j.
Proof. exact tau_sym_lemma. Qed.
Example tau_symmetric_ex :
  let tau := make_tau (F := Q) 1 (fun _ => 10%Q) (fun _ => 2%Q) (fun _ c => inject_Z (Z.of_nat c + 1)) in
  Qred (tau 0 1 2 2) = Qred (- (1 # 2) * (3833384078 # 100000) * (2 * 6 / (100 * 16)))%Q.
Proof. vm_compute. reflexivity. Qed.
Print Assumptions tau_symmetric.

Theorem tau_diagonal_not_positive : forall nvib (w I : nat -> R) wl i j,
  (i < 3)%nat -> (j < 3)%nat -> (forall v, (v < nvib)%nat -> (0 < w v)%R) ->
  (forall x, (x < 3)%nat -> (0 < I x)%R) ->
  (make_tau (F := R) nvib w I wl i j i j <= 0)%R.
Proof. exact tau_diag_lemma. Qed.
Example tau_diagonal_not_positive_ex :
  let tau := make_tau (F := Q) 1 (fun _ => 10%Q) (fun _ => 2%Q) (fun _ c => inject_Z (Z.of_nat c + 1)) in
  Qle_bool 0 (tau 0 1 0 1) = false.
Proof. vm_compute. reflexivity. Qed.
Print Assumptions tau_diagonal_not_positive.

Theorem tau_prime_symmetric : forall nvib (w I : nat -> R) wl i j, (i < 3)%nat -> (j < 3)%nat ->
  let tp := tau_prime (make_tau (F := R) nvib w I wl) in
  tp i j = taup_spec nvib w I wl i j /\ tp i j = tp j i.
Proof. exact taup_sym_lemma. Qed.
Example tau_prime_symmetric_ex :
  let tp := tau_prime (make_tau (F := Q) 1 (fun _ => 10%Q) (fun _ => 2%Q) (fun _ c => inject_Z (Z.of_nat c + 1))) in
  Qred (tp 0 2) = Qred (- (1 # 2) * (3833384078 # 100000) * ((1 * 6 + 2 * 4 * 4) / (100 * 16)))%Q.
Proof. vm_compute. reflexivity. Qed.
Print Assumptions tau_prime_symmetric.

Theorem linear_de_not_negative : forall r nvib (B I w : nat -> R) wl,
  r = Linear \/ r = Diatomic ->
  (forall v, (v < nvib)%nat -> (0 < w v)%R) -> (forall x, (x < 3)%nat -> (0 < I x)%R) ->
  exists q, quartic_new r nvib B I w wl = Some q /\ (0 <= de q)%R /\
    (de q = - taup_spec nvib w I wl (if is_diatomic r then 1 else 0)%nat
                                   (if is_diatomic r then 1 else 0)%nat / 4)%R.
Proof. exact de_lemma. Qed.
Example linear_de_not_negative_ex :
  option_map (fun q => Qred (de q))
    (quartic_new (F := Q) Linear 1 (fun _ => 1%Q) (fun _ => 2%Q) (fun _ => 10%Q) (fun _ c => inject_Z (Z.of_nat c + 1)))
  = Some (Qred ((1 # 8) * (3833384078 # 100000) / 1600)).
Proof. vm_compute. reflexivity. Qed.
Print Assumptions linear_de_not_negative.

(** C42.  The axes are x = 1, y = 2, z = 0 and [T] is a quarter of tau-prime. *)
Theorem watson_reductions_agree : forall nvib (B I w : nat -> R) wl,
  let Bx := B 1%nat in let By := B 2%nat in let Bz := B 0%nat in
  let T a b := (taup_spec nvib w I wl a b / 4)%R in
  let x := 1%nat in let y := 2%nat in let z := 0%nat in
  (Bx <> By -> 2 * Bz <> Bx + By ->
  let s := (2 * Bz - Bx - By) / (Bx - By) in
  exists q, quartic_new AsymmTop nvib B I w wl = Some q /\
      (** Watson's conversion between the two reductions *)
      delj q = dj q - 2 * sd2 q /\
      deljk q = djk q + 12 * sd2 q /\
      delk q = dk q - 10 * sd2 q /\
      sdelj q = - sd1 q /\
      sdelk q = - 4 * s * sd2 q /\
      bxa q - bxs q = - 4 * (2 * s + 1) * sd2 q /\
      bya q - bys q = 4 * (2 * s - 1) * sd2 q /\
      bza q - bzs q = 10 * sd2 q /\
      (** what the constants of the A reduction are *)
      delj q + 2 * sdelj q = - T x x /\
      delj q - 2 * sdelj q = - T y y /\
      delj q + deljk q + delk q = - T z z /\
      2 * delj q + deljk q = (T x x + T y y) / 2 - (T x y + T x z + T y z) /\
      sdelk q = (T y z - T x z) / 2 + (T x x - T y y) / 4 - s * (T x x + T y y - 2 * T x y) / 4 /\
      bxa q = Bx - (s + 1) * (T x x + T y y - 2 * T x y) / 2 /\
      bya q = By + (s - 1) * (T x x + T y y - 2 * T x y) / 2 /\
      bza q = Bz + (T x x + T y y - 2 * T x y) /\
      sigma q = s)%R.
Proof. exact watson_lemma. Qed.
Example watson_reductions_agree_ex :
  let f := fun i : nat => match i with O => 5 | S O => 3 | _ => 2 end%Q in
  option_map (fun q => (Qeq_bool (sd2 q) 0, Qred (sigma q), Qred (deljk q - djk q - 12 * sd2 q),
      Qred (bza q - bzs q - 10 * sd2 q)))
    (quartic_new (F := Q) AsymmTop 1 f (fun _ => 2%Q) (fun _ => 10%Q) (fun _ c => inject_Z (Z.of_nat c + 1)))
  = Some (false, 5, 0, 0)%Q.
Proof. vm_compute. reflexivity. Qed.
Print Assumptions watson_reductions_agree.

(** C45 *)
Theorem sextic_tensor_symmetric :
  forall (F : Type) (N : Num F) maxcor tau rotcon nvib nfreq freq cc f3 c r a b e,
  maxcor = 2 \/ maxcor = 3 -> a < 3 -> b < 3 -> e < 3 ->
  sym3 (scc maxcor tau rotcon nvib nfreq freq cc f3 c r) a b e.
Proof. exact scc_sym_lemma. Qed.
Example sextic_tensor_symmetric_ex :
  let s := scc (F := Q) 3 (fun a b x y => inject_Z (Z.of_nat (a * b + x * y + 1))) (fun i => inject_Z (Z.of_nat (i + 1)))
     1 3 (fun _ => 10%Q) (fun i a b x => inject_Z (Z.of_nat (a + b + x))) (fun _ _ _ => 2%Q)
     (fun i c => inject_Z (Z.of_nat c)) AsymmTop in
  Qeq_bool (s 0 1 1) (s 1 0 1) = true /\ Qeq_bool (s 0 1 1) 0 = false /\
  Qeq_bool (s 0 1 2) (s 0 1 1) = false.
Proof. vm_compute. repeat split; reflexivity. Qed.
Print Assumptions sextic_tensor_symmetric.

Theorem coriolis_tensor_symmetric : forall nvib maxcor (freq : nat -> R) c zm rotcon i a b e,
  maxcor = 2 \/ maxcor = 3 -> i < nvib -> a < maxcor -> b < maxcor -> e < maxcor ->
  sym3 (cc_tensor nvib maxcor freq c zm rotcon i) a b e.
Proof. exact cc_sym_lemma. Qed.
Example coriolis_tensor_symmetric_ex :
  let t := cc_tensor (F := f64) 2 3 (fun i => d (Z.of_nat (i + 4)) 1) (fun i c => d (Z.of_nat (i + c + 1)) 1)
     (fun i j x => if i =? j then nz 0 else d (Z.of_nat (x + 1)) 4) (fun i => d (Z.of_nat (i + 1)) 1) in
  neqb (t 0 0 1 2) (nz 0) = false /\ neqb (t 0 0 0 1) (nz 0) = false /\
  neqb (t 0 0 1 1) (t 0 1 0 1) = true.
Proof. vm_compute. repeat split; reflexivity. Qed.
Print Assumptions coriolis_tensor_symmetric.

(** C44 and C64.  [diag_spec x] is the published formula for the diagonal sextic element
    of axis [x]: the tau terms, minus twice the Coriolis terms, plus a sixth of the cubic
    terms.  [nfreq] is the number of frequencies, 3 N; the code takes 6 as the mark of a
    diatomic. *)
Theorem sextic_reductions_agree : forall nvib nfreq (B I w : nat -> R) wl zm f3,
  B 1%nat <> B 2%nat -> (2 * B 0%nat <> B 1%nat + B 2%nat)%R ->
  (B 0%nat - (B 1%nat + B 2%nat) / 2
      + 10 / 64 * (taup_spec nvib w I wl 1 1 + taup_spec nvib w I wl 2 2
                   - 2 * taup_spec nvib w I wl 1 2) <> 0)%R ->
  let phi6 := phi6 nvib nfreq B I w wl zm f3 in
  exists s, sextic_new AsymmTop nvib nfreq B I w wl zm f3 = Some s /\
      (phij s + phijk s + phikj s + phik s = phi6 0%nat 0%nat 0%nat)%R /\
      (hj s + hjk s + hkj s + hk s = phi6 0%nat 0%nat 0%nat)%R /\
      (phij s + 2 * sphij s = phi6 1%nat 1%nat 1%nat)%R /\
      (phij s - 2 * sphij s = phi6 2%nat 2%nat 2%nat)%R /\
      (hj s + 2 * h1 s + 2 * h2 s + 2 * h3 s = phi6 1%nat 1%nat 1%nat)%R /\
      (hj s - 2 * h1 s + 2 * h2 s - 2 * h3 s = phi6 2%nat 2%nat 2%nat)%R.
Proof. exact sextic_asym_lemma. Qed.
Example sextic_reductions_agree_ex :
  let f := fun i : nat => match i with O => 5 | S O => 3 | _ => 2 end%Q in
  option_map (fun s => (Qeq_bool (phij s + phijk s + phikj s + phik s) (hj s + hjk s + hkj s + hk s),
      Qeq_bool (phij s) (hj s), Qeq_bool (phik s) 0))
    (sextic_new (F := Q) AsymmTop 1 3 f (fun _ => 2%Q) (fun _ => 10%Q) (fun _ c => inject_Z (Z.of_nat c + 1))
      (fun _ _ _ => 0%Q) (fun _ _ _ => 3%Q))
  = Some (true, false, false).
Proof. vm_compute. reflexivity. Qed.
Print Assumptions sextic_reductions_agree.

Theorem sextic_diagonal_formula : forall nvib nfreq (B I w : nat -> R) wl zm f3 x,
  (x < 3)%nat -> nfreq <> 6%nat ->
  phi6 nvib nfreq B I w wl zm f3 x x x = diag_spec nvib B I w wl zm f3 x.
Proof. exact sextic_diag_lemma. Qed.
Example sextic_diagonal_formula_ex :
  (** one mode, no zeta, no cubic constants: the tau terms only, here with tau y x x x
      equal to (y + 1) and axis 1 *)
  let s := scc (F := Q) 3 (fun a b x y => inject_Z (Z.of_nat (a + 1)))
     (fun i => match i with O => 5 | S O => 3 | _ => 2 end)%Q
     1 3 (fun _ => 10%Q) (fun _ _ _ _ => 0%Q) (fun _ _ _ => 0%Q) (fun _ _ => 0%Q) AsymmTop in
  Qred (s 1 1 1) = Qred ((3 # 16) * (1 / 5 + 4 / 3 + 9 / 2) + (1 # 4) * (1 / (3 - 5) + 9 / (3 - 2)))%Q.
Proof. vm_compute. reflexivity. Qed.
Print Assumptions sextic_diagonal_formula.

(** C62, what happens in double precision when the two equal constants of an oblate top
    are the same number: the asymmetry parameter is infinite and every S-reduced sextic
    constant is NaN, whatever the other inputs *)
Theorem oblate_sextic_nan : forall nvib nfreq (rotcon primat freq : nat -> f64) wl zm f3 b,
  sextic_sym_sigma (fun i => rotcon (at3 (1, 0, 2) i)) = S754_infinity b ->
  exists s, sextic_new OblateSymmTop nvib nfreq rotcon primat freq wl zm f3 = Some s /\ all_nan s.
Proof. exact sextic_nan_lemma. Qed.
Example oblate_sextic_nan_ex :
  sextic_sym_sigma (fun i => at_nat [nlit 10 1; nlit 10 1; nlit 6 1] (at3 (1, 0, 2) i))
  = (S754_infinity false : f64).
Proof. vm_compute. reflexivity. Qed.
Print Assumptions oblate_sextic_nan.

Theorem oblate_sextic_finite_refuted :
  exists rotcon : nat -> f64,
    (forall i, i < 3 -> ~ not_finite (rotcon i)) /\ rotcon 0 = rotcon 1 /\
    nltb (rotcon 2) (rotcon 1) = true /\
    forall nvib nfreq primat freq wl zm f3,
    exists s, sextic_new OblateSymmTop nvib nfreq rotcon primat freq wl zm f3 = Some s /\ all_nan s.
Proof. exact sextic_refuted_lemma. Qed.
Print Assumptions oblate_sextic_finite_refuted.
