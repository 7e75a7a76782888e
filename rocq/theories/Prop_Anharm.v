(** Properties C26-C34 and C60: anharmonic constants, E0, energy levels, fundamentals and
    the treatment of Fermi resonances. *)
From Coq Require Import Reals Lra List ZArith Arith Permutation Lia Bool QArith.
From Verif Require Import Num Loops Index Modes ModesFacts StatesFacts ResFacts ResWitness
  Anharm AnharmFacts EnergyFacts FermiFacts FermiWitness.
Import ListNotations.
Open Scope nat_scope.

(** C26, the part that holds: every two-level problem that is solved belongs to a reported
    resonance and couples the right two states, and a reported resonance is solved if it
    is the only one reported for its mode or pair of modes *)
Theorem fermi_treated_partial : forall fm1 fm2 n,
  asym_lists fm1 fm2 ->
  (forall i j, In (i, j) fm1 -> i < n /\ j < n) ->
  (forall i j k, In (i, j, k) fm2 -> i < n /\ j < n /\ k < n) ->
  exists t ops,
    restst_tables n (ioff (n + 1)) (singles n) = Some t /\
    enrgy_ops (make_fermi_checks fm1 fm2) (singles n) t = Some ops /\
    (forall o, In o ops -> exists p q,
       op_levels o = (p, q) /\ p <> q /\
       ((exists i j, In (i, j) fm1 /\ o = Rs1 p q i j false /\
           nth_error (t_states t) p = Some (I1st (unit1 n i 2)) /\
           nth_error (t_states t) q = Some (I1st (unit1 n j 1))) \/
        (exists i j k, In (i, j, k) fm2 /\ o = Rs2 p q j i k /\
           nth_error (t_states t) p = Some (I1st (unit11 n j i)) /\
           nth_error (t_states t) q = Some (I1st (unit1 n k 1))))) /\
    (forall i j, In (i, j) fm1 -> (forall j', In (i, j') fm1 -> j' = j) ->
       exists p q, In (Rs1 p q i j false) ops) /\
    (forall i j k, In (i, j, k) fm2 -> (forall k', In (i, j, k') fm2 -> k' = k) ->
       exists p q, In (Rs2 p q j i k) ops).
Proof. exact treated_asym_lemma. Qed.
Example fermi_treated_ex :
  asym_lists [(2, 1)] [(2, 1, 0)] /\
  (let* t := restst_tables 3 (ioff 4) (singles 3) in
   enrgy_ops (make_fermi_checks [(2, 1)] [(2, 1, 0)]) (singles 3) t)
  = Some [Rs2 9 1 1 2 0; Rs1 6 2 2 1 false].
Proof.
  split; [|reflexivity]. split.
  - intros i j [E|[]]. injection E as <- <-. discriminate.
  - intros i j k [E|[]]. injection E as <- <- <-. lia.
Qed.
Print Assumptions fermi_treated_partial.

(** C26 is false: with two type-1 resonances of one mode, both are dropped from the
    constants but only the last one is diagonalised *)
Theorem fermi_treated_refuted :
  exists n (freq : nat -> f64) f3 fm1 fm2 t ops i j,
    fermi1 AsymmTop (singles n) freq f3 = Some fm1 /\
    fermi2 AsymmTop (singles n) freq f3 = Some fm2 /\
    restst_tables n (ioff (n + 1)) (singles n) = Some t /\
    enrgy_ops (make_fermi_checks fm1 fm2) (singles n) t = Some ops /\
    In (i, j) fm1 /\ flagged (make_fermi_checks fm1 fm2) i i j = true /\
    forall p q d, ~ In (Rs1 p q i j d) ops.
Proof. exact dropped_untreated_refuted_lemma. Qed.
Print Assumptions fermi_treated_refuted.

(** C27 *)
Theorem fundamentals_are_differences : forall n (freq : nat -> R) x gc e0,
  (forall i j, x i j = x j i) ->
  exists t eng,
    restst_tables n (ioff (n + 1)) (singles n) = Some t /\
    part1 freq (singles n) x gc e0 (t_states t) = Some eng /\
    length (make_funds n freq x) = n /\
    forall i, i < n -> exists p Ei E0,
      nth_error (t_funda t) i = Some p /\
      nth_error (t_states t) p = Some (I1st (unit1 n i 1)) /\
      nth_error eng p = Some Ei /\ nth_error eng 0 = Some E0 /\
      nth_error (make_funds n freq x) i = Some (Ei - E0)%R.
Proof. exact funds_asym_lemma. Qed.
Example fundamentals_are_differences_ex :
  let freq := fun i => (inject_Z (Z.of_nat (1000 * (i + 1))))%Q in
  let x := fun i j => (- inject_Z (Z.of_nat (10 + i + j)))%Q in
  option_map (fun e => map (fun a => Qred (a - nth 0 e 0)%Q) (firstn 3 e))
    (part1 (F:=Q) freq (singles 2) x None 7%Q [I1st [0; 0]; I1st [1; 0]; I1st [0; 1]])
  = Some [0; 1949 # 2; 3941 # 2]%Q /\
  map Qred (make_funds (F:=Q) 2 freq x) = [1949 # 2; 3941 # 2]%Q.
Proof. cbv zeta. split; vm_compute; reflexivity. Qed.
Print Assumptions fundamentals_are_differences.

(** C28 *)
Theorem symmetric_fundamentals_are_differences : forall nvib modes (freq : nat -> R) x gc e0,
  Permutation (flat_map members modes) (seq 0 nvib) ->
  (forall i j, x i j = x j i) ->
  gc <> None \/ flat_map get2 modes = [] ->
  exists t eng harms funds,
    restst_tables nvib (ioff (nvib + 1)) modes = Some t /\
    part1 freq modes x gc e0 (t_states t) = Some eng /\
    make_sym_funds freq modes x gc = Some (harms, funds) /\
    length harms = length (flat_map get1 modes) + length (flat_map get2 modes) /\
    length funds = length harms /\
    (forall p i, nth_error (flat_map get1 modes) p = Some i ->
       exists st Ei E0, nth_error (t_funda t) i = Some st /\
         nth_error (t_states t) st = Some (I1st (unit1 nvib p 1)) /\
         nth_error eng st = Some Ei /\ nth_error eng 0 = Some E0 /\
         nth_error harms p = Some (freq i) /\ nth_error funds p = Some (Ei - E0)%R) /\
    (forall p i i', nth_error (flat_map get2 modes) p = Some (i, i') ->
       exists st Ei E0, nth_error (t_funda t) i = Some st /\ nth_error (t_funda t) i' = Some st /\
         nth_error (t_states t) st = Some (I2st (punit1 nvib p (1, 1))) /\
         nth_error eng st = Some Ei /\ nth_error eng 0 = Some E0 /\
         nth_error harms (length (flat_map get1 modes) + p) = Some (freq i) /\
         nth_error funds (length (flat_map get1 modes) + p) = Some (Ei - E0)%R).
Proof. exact funds_sym_lemma. Qed.
Example symmetric_fundamentals_are_differences_ex :
  let freq := fun i => (inject_Z (Z.of_nat (1000 * (i + 1))))%Q in
  let x := fun i j => (- inject_Z (Z.of_nat (10 + i + j)))%Q in
  let g := fun i j : nat => (inject_Z (Z.of_nat (3 + i * j)))%Q in
  let modes := [I2 0 1; I1 2] in
  option_map (fun e => map (fun a => Qred (a - nth 0 e 0)%Q) e)
    (part1 (F:=Q) freq modes x (Some g) 7%Q
      [I1st [0; 0; 0]; I1st [1; 0; 0]; I2st [(1, 1); (0, 0); (0, 0)]])
  = Some [0; 2960; 967]%Q /\
  option_map (fun '(h, f) => (map Qred h, map Qred f)) (make_sym_funds (F:=Q) freq modes x (Some g))
  = Some ([3000; 1000], [2960; 967])%Q.
Proof. cbv zeta. split; vm_compute; reflexivity. Qed.
Print Assumptions symmetric_fundamentals_are_differences.

(** C29 *)
Theorem no_fermi_corrected_is_fundamental : forall n (freq : nat -> R) x gc e0 eig2 f3,
  (forall i j, x i j = x j i) ->
  exists t eng,
    restst_tables n (ioff (n + 1)) (singles n) = Some t /\
    part1 freq (singles n) x gc e0 (t_states t) = Some eng /\
    enrgy eig2 f3 (make_fermi_checks [] []) (singles n) t eng = Some eng /\
    corrs (singles n) eng = Some (make_funds n freq x) /\
    nth_error eng 0 = Some (Rsum (seq 0 n) (fun i => freq i / 2)
      + Rsum (seq 0 n) (fun i => Rsum (seq 0 (i + 1)) (fun j => x i j / 4)) + e0)%R.
Proof. exact no_fermi_lemma. Qed.
Example no_fermi_corrected_is_fundamental_ex :
  (let* t := restst_tables 2 (ioff 3) (singles 2) in
   let* eng := part1 (F:=Q) (fun i => inject_Z (Z.of_nat (100 * (i + 1)))) (singles 2)
     (fun _ _ => -8)%Q None 3%Q (t_states t) in
   let* c := corrs (singles 2) eng in Some (map Qred c, option_map Qred (nth_error eng 0)))
  = Some ([80; 180]%Q, Some 147%Q).
Proof. vm_compute. reflexivity. Qed.
Print Assumptions no_fermi_corrected_is_fundamental.

(** C30; [eig_ok] is the contract of the external eigensolver *)
Theorem fermi_two_levels : forall eig2 f3 o (eng : list R) p q Ep Eq E0,
  op_levels o = (p, q) -> p <> q -> p <> 0 -> q <> 0 ->
  nth_error eng p = Some Ep -> nth_error eng q = Some Eq -> nth_error eng 0 = Some E0 ->
  eig_ok eig2 (Ep - E0) (spec_coupling f3 o) (Eq - E0) ->
  exists eng' Ep' Eq', rsfrm eig2 f3 o eng = Some eng' /\
    length eng' = length eng /\
    nth_error eng' p = Some Ep' /\ nth_error eng' q = Some Eq' /\
    (forall r, r <> p -> r <> q -> nth_error eng' r = nth_error eng r) /\
    (Ep' + Eq' = Ep + Eq)%R /\
    ((Ep' - E0) * (Eq' - E0) = (Ep - E0) * (Eq - E0) - spec_coupling f3 o ^ 2)%R /\
    ((Ep' - Eq') ^ 2 = (Ep - Eq) ^ 2 + 4 * spec_coupling f3 o ^ 2)%R /\
    (Ep < Eq -> Ep' < Eq')%R /\ (Eq < Ep -> Eq' < Ep')%R.
Proof. exact two_level_lemma. Qed.
Example fermi_two_levels_ex :
  forall a b c, eig_ok eig_solve a b c.
Proof. exact eig_solve_ok. Qed.
Example fermi_two_levels_ex2 :
  op_levels (Rs1 2 1 0 1 false) = (2, 1) /\
  nth_error [500; 1500; 1490]%R 2 = Some 1490%R /\ nth_error [500; 1500; 1490]%R 1 = Some 1500%R.
Proof. auto. Qed.
Print Assumptions fermi_two_levels.

(** C31 *)
Theorem e0_shifts_rigidly : forall d freq modes x gc e0 states eig2 f3 c t (eng : list R),
  let shift := map (fun E => E + d)%R in
  part1 freq modes x gc (e0 + d)%R states = option_map shift (part1 freq modes x gc e0 states) /\
  enrgy eig2 f3 c modes t (shift eng) = option_map shift (enrgy eig2 f3 c modes t eng) /\
  corrs modes (shift eng) = corrs modes eng.
Proof. exact shift_lemma. Qed.
Example e0_shifts_rigidly_ex :
  (let* a := part1 (F:=Q) (fun _ => 100)%Q (singles 1) (fun _ _ => -2)%Q None 3%Q
       [I1st [0]; I1st [1]; I1st [2]] in Some (map Qred a)) = Some [105 # 2; 297 # 2; 481 # 2]%Q /\
  (let* a := part1 (F:=Q) (fun _ => 100)%Q (singles 1) (fun _ _ => -2)%Q None 13%Q
       [I1st [0]; I1st [1]; I1st [2]] in Some (map Qred a)) = Some [125 # 2; 317 # 2; 501 # 2]%Q.
Proof. split; vm_compute; reflexivity. Qed.
Print Assumptions e0_shifts_rigidly.

(** C32 *)
Theorem anharmonic_constants_symmetric :
  forall (F : Type) (N : Num F) n f4 (freq : nat -> F) f3 zmat rotcon fm1 fm2 a b,
  xcalc n f4 freq f3 zmat rotcon fm1 fm2 a b = xcalc n f4 freq f3 zmat rotcon fm1 fm2 b a.
Proof. exact (@xcalc_sym_lemma). Qed.
Theorem anharmonic_constants_assigned :
  forall (F : Type) (N : Num F) n f4 (freq : nat -> F) f3 zmat rotcon fm1 fm2 a b,
  a < n -> b < n ->
  xcalc n f4 freq f3 zmat rotcon fm1 fm2 a b =
  if a =? b then xcalc_diag n f4 freq f3 (make_fermi_checks fm1 fm2) a
  else xcalc_off n f4 freq f3 zmat rotcon (make_fermi_checks fm1 fm2) (Nat.max a b) (Nat.min a b).
Proof. exact (@xcalc_assigned_lemma). Qed.
Example anharmonic_constants_ex :
  let x := xcalc (F:=Q) 2 (fun _ _ _ _ => 8)%Q (fun i => inject_Z (Z.of_nat (2 * i + 1)))
    (fun _ _ _ => 2)%Q (fun _ _ _ => 1)%Q (fun _ => 1)%Q [] [] in
  Qred (x 0 1) = Qred (x 1 0) /\ Qred (x 1 0) = (1144 # 105)%Q /\ Qred (x 0 0) = (- 7 # 30)%Q.
Proof. cbv zeta. repeat split; vm_compute; reflexivity. Qed.
Print Assumptions anharmonic_constants_symmetric.
Print Assumptions anharmonic_constants_assigned.

(** C33: [res i j k] tells whether w_i + w_j ~ w_k is among the reported resonances *)
Theorem anharmonic_constants_exact : forall n f4 (w : nat -> R) f3 zeta B fm1 fm2 res,
  reported fm1 fm2 res ->
  asym_lists fm1 fm2 ->
  (forall l, l < n -> (0 < w l)%R) ->
  (forall i j m, i < n -> j < n -> m < n -> res i j m = false -> (w i + w j - w m <> 0)%R) ->
  let x := xcalc n f4 w f3 zeta B fm1 fm2 in
  (forall k, k < n -> x k k = spec_xkk n f4 w f3 res k) /\
  (forall k l, k < n -> l < k ->
     x k l = spec_xkl n f4 w f3 zeta B res k l /\ x l k = spec_xkl n f4 w f3 zeta B res k l).
Proof. exact xcalc_exact_lemma. Qed.
Example anharmonic_constants_exact_ex :
  reported [(1, 0)] [] ex_res /\ asym_lists [(1, 0)] [] /\
  (forall i j j', In (i, j) [(1, 0)] -> In (i, j') [(1, 0)] -> j = j') /\
  (forall l, l < 2 -> (0 < ex_w l)%R) /\
  (forall i j m, i < 2 -> j < 2 -> m < 2 ->
     ex_res i j m = false -> (ex_w i + ex_w j - ex_w m <> 0)%R).
Proof. exact ex_hyps. Qed.
Print Assumptions anharmonic_constants_exact.

(** C34, what holds: E0 is the formula with the reported terms left out plus
    [e0_excess], which vanishes when nothing is reported *)
Theorem e0_exact_partial : forall n f4 (w : nat -> R) f3 fm1 fm2 res,
  reported fm1 fm2 res ->
  asym_lists fm1 fm2 ->
  (forall i j j', In (i, j) fm1 -> In (i, j') fm1 -> j = j') ->
  (forall l, l < n -> (0 < w l)%R) ->
  (forall i j m, i < n -> j < n -> m < n -> res i j m = false -> (w i + w j - w m <> 0)%R) ->
  make_e0 f4 w f3 (make_fermi_checks fm1 fm2) (singles n) =
  (spec_e0 n f4 w f3 res + e0_excess n w f3 res)%R.
Proof. exact e0_reported_lemma. Qed.
Example e0_exact_ex :
  reported [(1, 0)] [] ex_res /\ asym_lists [(1, 0)] [] /\
  (forall i j j', In (i, j) [(1, 0)] -> In (i, j') [(1, 0)] -> j = j') /\
  (forall l, l < 2 -> (0 < ex_w l)%R) /\
  (forall i j m, i < 2 -> j < 2 -> m < 2 ->
     ex_res i j m = false -> (ex_w i + ex_w j - ex_w m <> 0)%R).
Proof. exact ex_hyps. Qed.
Print Assumptions e0_exact_partial.

(** C34 is false for a reported resonance of either type *)
Theorem e0_exact_refuted :
  (exists n (w : nat -> R) f3 f4 fm1 fm2 res,
     (forall i, i < n -> (0 < w i)%R) /\
     fermi1 AsymmTop (singles n) w f3 = Some fm1 /\ fermi2 AsymmTop (singles n) w f3 = Some fm2 /\
     reported fm1 fm2 res /\
     (forall i j, In (i, j) fm1 <-> i = 1 /\ j = 0) /\ fm2 = [] /\
     make_e0 f4 w f3 (make_fermi_checks fm1 fm2) (singles n) <> spec_e0 n f4 w f3 res) /\
  (exists n (w : nat -> R) f3 f4 fm1 fm2 res,
     (forall i, i < n -> (0 < w i)%R) /\
     fermi1 AsymmTop (singles n) w f3 = Some fm1 /\ fermi2 AsymmTop (singles n) w f3 = Some fm2 /\
     reported fm1 fm2 res /\
     fm1 = [] /\ (forall i j k, In (i, j, k) fm2 <-> i = 2 /\ j = 1 /\ k = 0) /\
     make_e0 f4 w f3 (make_fermi_checks fm1 fm2) (singles n) <> spec_e0 n f4 w f3 res).
Proof. exact e0_refuted_lemma. Qed.
Print Assumptions e0_exact_refuted.

(** C60 *)
Theorem ground_state_untouched :
  forall (F : Type) (N : Num F) eig2 f3 fm1 fm2 nvib modes t (eng : list F),
  Permutation (flat_map members modes) (seq 0 nvib) ->
  restst_tables nvib (ioff (nvib + 1)) modes = Some t ->
  length eng = length (t_states t) ->
  (forall i j, In (i, j) fm1 -> j < nvib) ->
  (forall i j k, In (i, j, k) fm2 -> k < nvib) ->
  exists eng', enrgy eig2 f3 (make_fermi_checks fm1 fm2) modes t eng = Some eng' /\
    length eng' = length eng /\ nth_error eng' 0 = nth_error eng 0.
Proof. exact (@ground_kept_lemma). Qed.
Example ground_state_untouched_ex :
  let eig (a b c : Q) := (a - 1, c + 1, (1, 0))%Q in
  (let* t := restst_tables 2 (ioff 3) (singles 2) in
   let* e := enrgy eig (fun _ _ _ => 40)%Q (make_fermi_checks [(1, 0)] []) (singles 2) t
     [5; 105; 55; 205; 106; 155]%Q in Some (map Qred e))
  = Some [5; 106; 55; 205; 105; 155]%Q.
Proof. vm_compute. reflexivity. Qed.
Print Assumptions ground_state_untouched.
