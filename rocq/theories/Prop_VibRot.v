(** Properties C38-C41, C58 and C59: Coriolis constants, vibration-rotation constants and
    averaged rotational constants. *)
From Coq Require Import Reals Lra List ZArith Arith Permutation Lia Bool QArith SpecFloat.
From Verif Require Import Num Loops Index Modes ModesFacts StatesFacts Anharm AnharmFacts
  VibRot VibRotFacts SymRotFacts Distort VibRotWitness F64Facts.
Import ListNotations.
Open Scope nat_scope.

(** C38, asymmetric tops.  [pair_ok] says what a pair of modes contributes: for a pair that
    is not reported zeta^2 (3 wi^2 + wj^2) / (wi^2 - wj^2), for a reported pair the same
    minus its pole, which is bounded by zeta^2 |wi - wj| / (2 wj). *)
Theorem alpha_exact : forall nvib (B I w : nat -> R) wl zm f3 cor i x,
  i < nvib -> x < 3 -> (forall j, j < nvib -> (0 < w j)%R) ->
  (forall j, j < nvib -> one_axis cor i j) ->
  exists term : nat -> R,
    (alpha nvib B I w wl zm f3 cor i x =
    2 * B x ^ 2 / w i *
      (3 / 4 * (wl i (acol x 0) ^ 2 / I 0%nat + wl i (acol x 1) ^ 2 / I 1%nat
                + wl i (acol x 2) ^ 2 / I 2%nat)
       + Rsum (others i nvib) term
       + 86112 / 1000000 *
         Rsum (seq 0 nvib) (fun j => wl j (acol x x) * f3 i i j * w i / (w j * sqrt (w j)))))%R
    /\ forall j, j < nvib -> j <> i -> pair_ok (listed cor i j x) (zm i j x) (w i) (w j) (term j).
Proof. exact alpha_exact_lemma. Qed.
Example alpha_exact_ex :
  let w := fun i : nat => match i with O => 1000%Q | _ => 800%Q end in
  let zm := fun i j x : nat => (if (i <? j) then 1 # 2 else - 1 # 2)%Q in
  let al cor := alpha 2 (fun _ => 10%Q) (fun _ => 3%Q) w (fun i c => inject_Z (Z.of_nat c))
      zm (fun _ _ _ => 0%Q) cor 0 1 in
  (** a1 = 1, 2, 4 for axes 0, 1, 2: 3/4 (1 + 4 + 16) / 3 = 21/4, then the pair *)
  Qred (al []) = Qred ((2 * 100 / 1000) * ((21 # 4) + (1 # 4) * ((3 * 1000000 + 640000) / 360000)))%Q /\
  Qred (al [(1, 0, 1)]) = Qred ((2 * 100 / 1000) * ((21 # 4) - (1 # 8) * (40000 / (800 * 1800))))%Q /\
  one_axis [(1, 0, 1)] 0 1 /\ listed [(1, 0, 1)] 0 1 1.
Proof.
  cbv zeta. split; [vm_compute; reflexivity|]. split; [vm_compute; reflexivity|].
  split; [|right; left; reflexivity].
  intros x y [[E|[]]|[E|[]]] [[E'|[]]|[E'|[]]]; congruence.
Qed.
Print Assumptions alpha_exact.

(** C38, symmetric tops and linear molecules; axis 2 is the unique one.  The components of
    the Wilson vectors are those of axes 2 and 1, for prolate tops of axes 2 and 0. *)
Theorem sym_alpha_exact :
  forall nvib modes (B I w : nat -> R) wl zm f3 cor,
  Permutation (flat_map members modes) (seq 0 nvib) ->
  (forall j, j < nvib -> (0 < w j)%R) ->
  (forall i j, i < nvib -> j < nvib -> one_axis cor i j) ->
  forall r,
  let al := sym_alpha B I w wl zm f3 r modes cor in
  let b := if is_prolate r then 0%nat else 1%nat in
  let cub := cubic_sum modes w wl f3 in
  let ok := bc_ok w zm cor in
  (forall k, In k (nondeg modes) ->
    (exists t,
      (al k 2%nat = 2 * B 2%nat ^ 2 / w k *
        (3 / 4 * (wl k (acol 2 2) ^ 2 / I 2%nat) + Rsum (but k (nondeg modes)) t + cub (acol 2 2) k))%R /\
      forall j, In j (nondeg modes) -> j <> k ->
        pair_ok (listed cor j k 2) (zm j k 2) (w k) (w j) (t j)) /\
    (exists tb tc,
      (al k 1%nat = 2 * B 1%nat ^ 2 / w k *
        (3 / 4 * ((wl k (acol b b) ^ 2 + wl k (acol 1 0) ^ 2) / I 1%nat)
         + Rsum (degs modes) (fun p => tb (fst p) + tc (fst p)) + cub (acol b b) k))%R /\
      forall p, In p (degs modes) -> ok tb tc k (fst p))) /\
  (forall k k', In (k, k') (degs modes) ->
    (exists t,
      (al k 2%nat = 2 * B 2%nat ^ 2 / w k *
        (3 / 4 * (wl k (acol 2 b) ^ 2 / I 1%nat) + Rsum (butd k (degs modes)) t + cub (acol 2 2) k))%R /\
      forall j1 j2, In (j1, j2) (degs modes) -> j1 <> k ->
        pair_ok (listed cor j1 k 2) (zm k j2 2) (w k) (w j1) (t (j1, j2))) /\
    (exists tb tc,
      (al k 1%nat = 2 * B 1%nat ^ 2 / w k *
        (match r with
         | Linear => 0
         | _ => 3 / 8 * (2 * wl k (acol b b) ^ 2 / I 1%nat + wl k (acol 2 b) ^ 2 / I 2%nat)
                + Rsum (butd k (degs modes)) (fun p => tb (fst p) + tc (fst p))
         end
         + / 2 * Rsum (nondeg modes) (fun j => tb j + tc j) + cub (acol b b) k))%R /\
      (forall p, In p (degs modes) -> fst p <> k -> ok tb tc k (fst p)) /\
      (forall j, In j (nondeg modes) -> ok tb tc k j))).
Proof. exact sym_alpha_cells_lemma. Qed.
Example sym_alpha_exact_ex :
  let modes := [I1 0; I2 1 2] in
  let w := fun i : nat => match i with O => 1000%Q | _ => 500%Q end in
  let zm := fun i j x : nat => match x with O => 1 # 2 | S O => 1 # 3 | _ => 1 # 4 end%Q in
  let al r := sym_alpha (fun _ => 10%Q) (fun _ => 3%Q) w (fun i c => inject_Z (Z.of_nat c))
      zm (fun _ _ _ => 0%Q) r modes [(0, 1, 1)] in
  Permutation (flat_map members modes) (seq 0 3) /\
  (** one partner (1,2) about axes 0 (not reported) and 1 (reported) *)
  Qred (al OblateSymmTop 0 1)
    = Qred ((2 * 100 / 1000) * ((3 # 4) * ((4 + 1) / 3)
        + (1 # 4) * ((3000000 + 250000) / 750000) - (1 # 18) * (250000 / (500 * 1500))))%Q /\
  (** a linear molecule keeps half of the terms of mode 0 only *)
  Qred (al Linear 1 1)
    = Qred ((2 * 100 / 500) * ((1 # 2) *
        ((1 # 4) * ((750000 + 1000000) / (250000 - 1000000)) - (1 # 18) * (250000 / (1000 * 1500)))))%Q.
Proof.
  cbv zeta. split; [apply Permutation_refl|].
  split; vm_compute; reflexivity.
Qed.
Print Assumptions sym_alpha_exact.

(** C39, the part that holds: nothing is treated as resonant that is not reported, and a
    pair reported about one axis only is treated as resonant about that axis *)
Theorem coriolis_honoured_partial : forall l i j x,
  (check2 (make_icorol l) i j x = true -> listed l i j x) /\
  (one_axis l i j -> (check2 (make_icorol l) i j x = true <-> listed l i j x)).
Proof. exact (fun l i j x => conj (icorol_sound l i j x) (icorol_exact l i j x)). Qed.
Example coriolis_honoured_ex :
  check2 (make_icorol [(2, 1, 0); (3, 1, 2)]) 1 2 0 = true /\
  check2 (make_icorol [(2, 1, 0); (3, 1, 2)]) 1 2 2 = false /\
  one_axis [(2, 1, 0); (3, 1, 2)] 1 2.
Proof.
  split; [reflexivity|]. split; [reflexivity|].
  intros x y [[E|[E|[]]]|[E|[E|[]]]] [[E'|[E'|[]]]|[E'|[E'|[]]]]; congruence.
Qed.
Print Assumptions coriolis_honoured_partial.

(** what happens to a pair reported about several axes: the last entry wins *)
Theorem coriolis_last_axis_wins : forall l i j x,
  check2 (make_icorol (l ++ [(i, j, x)])) i j x = true /\
  (forall y, y <> x -> check2 (make_icorol (l ++ [(i, j, x)])) i j y = false).
Proof. exact icorol_last. Qed.
Example coriolis_last_axis_wins_ex :
  check2 (make_icorol [(1, 0, 0); (1, 0, 1)]) 1 0 0 = false.
Proof. reflexivity. Qed.
Print Assumptions coriolis_last_axis_wins.

(** C39 is false for asymmetric tops: a pair coupled about two axes *)
Theorem coriolis_honoured_refuted :
  exists modes (freq : nat -> f64) zm rotcon primat cor,
    modes = [I1 0; I1 1] /\ (forall i, freq i = nz 1000) /\
    coriolis AsymmTop modes freq zm = Some cor /\
    listed cor 1 0 0 /\ check2 (make_icorol cor) 1 0 0 = false /\
    not_finite (alpha 2 rotcon primat freq zero1 zm zero3 cor 1 0).
Proof. exact asym_two_axes_lemma. Qed.
Print Assumptions coriolis_honoured_refuted.

(** C39 is false for prolate tops: the search writes one axis label, the vibration-rotation
    constants look for another *)
Theorem coriolis_honoured_prolate_refuted :
  exists modes (freq : nat -> f64) zm rotcon primat cor,
    modes = [I1 0; I1 1] /\ (forall i, freq i = nz 1000) /\
    coriolis ProlateSymmTop modes freq zm = Some cor /\ cor <> [] /\
    check2 (make_icorol cor) 1 0 2 = false /\
    not_finite (sym_alpha rotcon primat freq zero1 zm zero3 ProlateSymmTop modes cor 1 2).
Proof. exact prolate_axes_lemma. Qed.
Print Assumptions coriolis_honoured_prolate_refuted.

(** C39 is false for oblate tops: two degenerate modes coupled about the symmetry axis *)
Theorem coriolis_honoured_oblate_refuted :
  exists modes (freq : nat -> f64) zm rotcon primat cor,
    modes = [I2 0 1; I2 2 3] /\ (forall i, freq i = nz 1000) /\
    coriolis OblateSymmTop modes freq zm = Some cor /\ listed cor 0 3 2 /\
    check2 (make_icorol cor) 2 0 2 = false /\
    not_finite (sym_alpha rotcon primat freq zero1 zm zero3 OblateSymmTop modes cor 0 2).
Proof. exact oblate_deg_lemma. Qed.
Print Assumptions coriolis_honoured_oblate_refuted.

(** C40 *)
Theorem zeta_antisymmetric_bounded : forall natom (lxm : nat -> nat -> R) k l x,
  (zmat natom lxm k l x = - zmat natom lxm l k x)%R /\
  zmat natom lxm k k x = 0%R /\
  (Rsum (seq 0 (3 * natom)) (fun r => lxm r k ^ 2)%R = 1%R ->
   Rsum (seq 0 (3 * natom)) (fun r => lxm r l ^ 2)%R = 1%R ->
   (Rabs (zmat natom lxm k l x) <= 1)%R).
Proof. exact zeta_lemma. Qed.
Example zeta_antisymmetric_bounded_ex :
  let lxm := fun r c : nat => (match r, c with O, O => 1 | S O, S O => 1 | _, _ => 0 end)%Q in
  zmat 1 lxm 0 1 2 = 1%Q /\ zmat 1 lxm 1 0 2 = (- 1)%Q /\ zmat 1 lxm 0 1 0 = 0%Q.
Proof. vm_compute. repeat split; reflexivity. Qed.
Print Assumptions zeta_antisymmetric_bounded.

(** C59 *)
Theorem zeta_antisymmetric_double : forall natom (lxm : nat -> nat -> f64) k l x,
  ((zmat natom lxm k l x = S754_nan /\ zmat natom lxm l k x = S754_nan) \/
   neqb (zmat natom lxm k l x) (nopp (zmat natom lxm l k x)) = true) /\
  (zmat natom lxm k k x = S754_nan \/ is_zero64 (zmat natom lxm k k x)).
Proof. exact zeta_double_lemma. Qed.
Example zeta_antisymmetric_double_ex :
  let lxm := fun r c : nat => d (Z.of_nat (3 * r + c + 1)) 7 in
  neqb (zmat 2 lxm 0 1 2) (nopp (zmat 2 lxm 1 0 2)) = true /\
  neqb (zmat 2 lxm 0 1 2) (nz 0) = false.
Proof. vm_compute. split; reflexivity. Qed.
Print Assumptions zeta_antisymmetric_double.

(** C58 *)
Theorem close_symmetric_double : forall a b eps : f64,
  close a b eps = close b a eps /\
  (a = S754_nan \/ b = S754_nan \/ eps = S754_nan -> close a b eps = false) /\
  (forall s m e, a = S754_finite s m e -> b = a -> close a b eps = nltb (nz 0) eps).
Proof. exact close_double_lemma. Qed.
Example close_symmetric_double_ex :
  close (d 1 3) (d 333 1000) (d 1 1000) = true /\ close (d 1 3) (d 1 2) (d 1 1000) = false.
Proof. vm_compute. split; reflexivity. Qed.
Print Assumptions close_symmetric_double.

(** C41, asymmetric tops: from the state table to the reported constants.  [b4], [b5],
    [b6] are the A-reduced equilibrium constants. *)
Theorem rotational_constants_linear :
  forall n (B I w : nat -> R) wl zm f3 cor nderiv b4 b5 b6,
  (2 < nderiv)%Z ->
  exists t rows out,
    restst_tables n (ioff (n + 1)) (singles n) = Some t /\
    alphaa n B I w wl zm f3 (singles n) (t_states t) cor = Some rows /\
    rota B nderiv rows (t_states t) b4 b5 b6 = Some out /\
    length out = n + 1 /\
    (forall m r, nth_error out m = Some r ->
       exists v, nth_error (t_states t) m = Some (I1st v) /\ length v = n /\
         rot_state r = I1st v /\
         (rot_a r = b6 + Rsum (seq 0 n) (fun i =>
                     alpha n B I w wl zm f3 cor i 0 * (INR (nth i v 0%nat) + / 2)))%R /\
         (rot_b r = b4 + Rsum (seq 0 n) (fun i =>
                     alpha n B I w wl zm f3 cor i 1 * (INR (nth i v 0%nat) + / 2)))%R /\
         (rot_c r = b5 + Rsum (seq 0 n) (fun i =>
                     alpha n B I w wl zm f3 cor i 2 * (INR (nth i v 0%nat) + / 2)))%R) /\
    exists g, nth_error out 0 = Some g /\ rot_state g = I1st (repeat 0 n) /\
      forall i, i < n -> exists f, nth_error out (i + 1) = Some f /\
        rot_state f = I1st (unit1 n i 1) /\
        (rot_a f - rot_a g = alpha n B I w wl zm f3 cor i 0)%R /\
        (rot_b f - rot_b g = alpha n B I w wl zm f3 cor i 1)%R /\
        (rot_c f - rot_c g = alpha n B I w wl zm f3 cor i 2)%R.
Proof. exact rota_lemma. Qed.
Example rotational_constants_linear_ex :
  (let* t := restst_tables 1 1 (singles 1) in
   let* rows := alphaa 1 (fun _ => 10%Q) (fun _ => 3%Q) (fun _ => 1000%Q)
     (fun i c => inject_Z (Z.of_nat c)) (fun _ _ _ => 0%Q) (fun _ _ _ => 0%Q)
     (singles 1) (t_states t) [] in
   option_map (map (fun r => (rot_state r, Qred (rot_a r), Qred (rot_b r), Qred (rot_c r))))
     (rota (fun _ => 10%Q) 4 rows (t_states t) 20%Q 30%Q 40%Q))
  = Some [(I1st [0], (161 # 4)%Q, (821 # 40)%Q, (125 # 4)%Q);
          (I1st [1], (163 # 4)%Q, (863 # 40)%Q, (135 # 4)%Q)].
Proof. vm_compute. reflexivity. Qed.
Print Assumptions rotational_constants_linear.

(** C41: with force constants up to second order the function panics *)
Theorem rotational_constants_short : forall (F : Type) (N : Num F) (B : nat -> F) rows states nderiv b4 b5 b6,
  rows <> [] -> (nderiv <= 2)%Z -> rota B nderiv rows states b4 b5 b6 = None.
Proof. exact rota_short_lemma. Qed.
Example rotational_constants_short_ex :
  rota (fun _ => 10%Q) 2 [(1, 2, 3)]%Q [I1st [0]] 20%Q 30%Q 40%Q = None.
Proof. reflexivity. Qed.
Print Assumptions rotational_constants_short.

(** C41, symmetric tops and linear molecules.  [sym_vib] is the sum over modes of alpha
    times the quantum number plus half the degeneracy.  For oblate tops the constants
    [rot_a], [rot_b], [rot_c] belong to axes with equilibrium values b2, b1, b3. *)
Theorem sym_rotational_constants : forall nvib modes r (B I w : nat -> R) wl zm f3 cor b1 b2 b3,
  Permutation (flat_map members modes) (seq 0 nvib) ->
  r <> SphericalTop -> r <> AsymmTop ->
  let al := sym_alpha B I w wl zm f3 r modes cor in
  exists t rows out g,
    restst_tables nvib (ioff (nvib + 1)) modes = Some t /\
    alphas B I w wl zm f3 r modes (t_states t) cor = Some rows /\
    rots B r rows (t_states t) b1 b2 b3 = Some out /\
    map rot_state out =
      I1st (repeat 0%nat nvib)
      :: map (fun p => I1st (unit1 nvib p 1)) (seq 0 (length (nondeg modes)))
      ++ map (fun p => I2st (punit1 nvib p (1, 1)%nat)) (seq 0 (length (degs modes))) /\
    (forall c, In c out ->
       let v x := sym_vib modes (fun i => al i x) (rot_state c) in
       (rot_b c = b1 + v 1%nat)%R /\
       (r = OblateSymmTop -> (rot_a c = b2 + v 1%nat)%R /\ (rot_c c = b3 + v 2%nat)%R) /\
       (r = ProlateSymmTop -> (rot_a c = b2 + v 2%nat)%R /\ (rot_c c = b3 + v 1%nat)%R)) /\
    nth_error out 0 = Some g /\
    (forall c k, In c out ->
       (exists p, nth_error (nondeg modes) p = Some k /\ rot_state c = I1st (unit1 nvib p 1)) \/
       (exists p k', nth_error (degs modes) p = Some (k, k') /\
                     rot_state c = I2st (punit1 nvib p (1, 1)%nat)) ->
       (rot_b c - rot_b g = al k 1%nat)%R /\
       (r = OblateSymmTop -> (rot_a c - rot_a g = al k 1%nat)%R /\ (rot_c c - rot_c g = al k 2%nat)%R) /\
       (r = ProlateSymmTop -> (rot_a c - rot_a g = al k 2%nat)%R /\ (rot_c c - rot_c g = al k 1%nat)%R)).
Proof. exact rots_lemma. Qed.
Example sym_rotational_constants_ex :
  let modes := [I1 0; I2 1 2] in
  let w := fun i : nat => match i with O => 1000%Q | _ => 500%Q end in
  let wl := fun (i c : nat) => inject_Z (Z.of_nat c) in
  let z3 := fun _ _ _ : nat => 0%Q in
  let al := sym_alpha (fun _ => 10%Q) (fun _ => 3%Q) w wl z3 z3 OblateSymmTop modes [] in
  map Qred [al 0 1; al 0 2; al 1 1; al 1 2] = [1 # 4; 5 # 4; 6 # 5; 8 # 5]%Q /\
  (let* t := restst_tables 3 (ioff 4) modes in
   let* rows := alphas (fun _ => 10%Q) (fun _ => 3%Q) w wl z3 z3 OblateSymmTop modes (t_states t) [] in
   option_map (map (fun r => (rot_state r, Qred (rot_a r), Qred (rot_b r), Qred (rot_c r))))
     (rots (fun _ => 10%Q) OblateSymmTop rows (t_states t) 20%Q 30%Q 40%Q))
  = Some [(I1st [0; 0; 0], (1253 # 40)%Q, (853 # 40)%Q, (1689 # 40)%Q);
          (I1st [1; 0; 0], (1263 # 40)%Q, (863 # 40)%Q, (1739 # 40)%Q);
          (I2st [(1, 1); (0, 0); (0, 0)], (1301 # 40)%Q, (901 # 40)%Q, (1753 # 40)%Q)].
Proof. vm_compute. split; reflexivity. Qed.
Print Assumptions sym_rotational_constants.

(** C41 is false for prolate tops: with equilibrium constants 1, 1, 5 and a mode whose
    only alpha belongs to the unique axis, the constant labelled as the unique one (c, the
    one starting from 5) does not change and one of the other two does. *)
Theorem prolate_rotational_constants_refuted :
  exists q t rows g f0 f1,
    quartic_new ProlateSymmTop 2 prol_rc (fun _ => nz 1) prol_freq zero1 = Some q /\
    bxs q = nz 1 /\ bys q = nz 1 /\ bzs q = nz 5 /\
    (let al := sym_alpha prol_rc (fun _ => nz 1) prol_freq zero1 prol_zm zero3
                 ProlateSymmTop prol_modes [] in
     neqb (al 1 1) (nz 0) = true /\ nltb (nz 0) (al 1 2) = true) /\
    restst_tables 2 3 prol_modes = Some t /\
    alphas prol_rc (fun _ => nz 1) prol_freq zero1 prol_zm zero3 ProlateSymmTop prol_modes
      (t_states t) [] = Some rows /\
    rots prol_rc ProlateSymmTop rows (t_states t) (bxs q) (bys q) (bzs q) = Some [g; f0; f1] /\
    rot_state g = I1st [0; 0] /\ rot_state f1 = I1st [0; 1] /\
    neqb (rot_c f1) (rot_c g) = true /\ neqb (rot_b f1) (rot_b g) = true /\
    neqb (rot_a f1) (rot_a g) = false.
Proof. exact prolate_swap_lemma. Qed.
Print Assumptions prolate_rotational_constants_refuted.
