(** Properties C89 and C90: the energy levels of an asymmetric top, and the couplings of
    its Fermi resonances, from perturbation theory of coupled harmonic oscillators. *)
From Coq Require Import Reals Lra List ZArith Arith Lia Bool.
From Verif Require Import Num Loops Index Modes ModesFacts StatesFacts ResFacts
  Anharm AnharmFacts EnergyFacts FermiFacts FermiWitness PerturbFacts PerturbSum PerturbLevels.
Import ListNotations.
Open Scope nat_scope.
Local Open Scope R_scope.

(** C89: [perturbed] is the energy from Rayleigh-Schroedinger perturbation theory, with the
    cubic terms in second order over any complete list [us] of intermediate states, less
    the transitions of the reported resonances.  The levels of the program add the constant
    [angular_shift] (the program leaves the constant part of the energy of the vibrational
    angular momentum out) and the constant [e0_excess] of C34, which is zero if nothing is
    reported. *)
Theorem levels_second_order :
  forall n (w : nat -> R) f3 f4 zeta B gc fm1 fm2 res (v : nat -> nat) v2 us,
  (forall i j k, f3 i j k = f3 j i k) -> (forall i j k, f3 i j k = f3 i k j) ->
  (forall i j k l, f4 i j k l = f4 j i k l) -> (forall i j k l, f4 i j k l = f4 i k j l) ->
  (forall i j k l, f4 i j k l = f4 i j l k) ->
  (forall i j a, zeta i j a = - zeta j i a) ->
  reported fm1 fm2 res -> asym_lists fm1 fm2 ->
  (forall i j j', In (i, j) fm1 -> In (i, j') fm1 -> j = j') ->
  (forall i, (i < n)%nat -> 0 < w i) ->
  (forall i j m, (i < n)%nat -> (j < n)%nat -> (m < n)%nat ->
     res i j m = false -> w i + w j - w m <> 0) ->
  intermediate n f3 v us ->
  level w (singles n) (xcalc n f4 w f3 zeta B fm1 fm2) gc
    (make_e0 f4 w f3 (make_fermi_checks fm1 fm2) (singles n)) v v2
  = Some (perturbed n w f3 f4 zeta B res v us + angular_shift n zeta B + e0_excess n w f3 res).
Proof. exact levels_second_order_lemma. Qed.
Example levels_second_order_ex :
  let f3 := fun _ _ _ : nat => 7 in
  let f4 := fun _ _ _ _ : nat => 3 in
  let zeta := fun i j _ : nat => INR i - INR j in
  let v := fun i : nat => i in
  (forall i j k, f3 i j k = f3 j i k) /\ (forall i j k, f3 i j k = f3 i k j) /\
  (forall i j k l, f4 i j k l = f4 j i k l) /\ (forall i j k l, f4 i j k l = f4 i k j l) /\
  (forall i j k l, f4 i j k l = f4 i j l k) /\
  (forall i j a, zeta i j a = - zeta j i a) /\
  reported [(1, 0)]%nat [] ex_res /\ asym_lists [(1, 0)]%nat [] /\
  (forall i j j', In (i, j) [(1, 0)]%nat -> In (i, j') [(1, 0)]%nat -> j = j') /\
  (forall i, (i < 2)%nat -> 0 < ex_w i) /\
  (forall i j m, (i < 2)%nat -> (j < 2)%nat -> (m < 2)%nat ->
     ex_res i j m = false -> ex_w i + ex_w j - ex_w m <> 0) /\
  (exists us, intermediate 2 f3 v us) /\
  angular_shift 2 zeta (fun _ => 2) = 3.
Proof.
  cbv zeta. destruct ex_hyps as (H1 & H2 & H3 & H4 & H5).
  do 5 (split; [reflexivity|]). split; [intros; lra|].
  do 5 (split; [assumption|]). split; [apply intermediate_states_exist_lemma; reflexivity|].
  unfold angular_shift, Rsum. cbn. lra.
Qed.
Print Assumptions levels_second_order.

(** such a list of intermediate states always exists *)
Theorem intermediate_states_exist : forall n f3 (v : nat -> nat),
  (forall i j k, f3 i j k = f3 j i k) -> (forall i j k, f3 i j k = f3 i k j) ->
  exists us, intermediate n f3 v us.
Proof. exact intermediate_states_exist_lemma. Qed.
Example intermediate_states_exist_ex :
  cubic 1 (fun _ _ _ => 6) (ket 1 (fun _ => 0%nat)) (fun _ => 3%nat) <> 0.
Proof. exact cubic_nonzero_ex. Qed.
Print Assumptions intermediate_states_exist.

(** C90: the coupling of every two-level problem is the matrix element of the cubic terms
    between its two states *)
Theorem fermi_coupling_is_element : forall fm1 fm2 n (f3 : nat -> nat -> nat -> R),
  (forall i j k, f3 i j k = f3 j i k) -> (forall i j k, f3 i j k = f3 i k j) ->
  asym_lists fm1 fm2 ->
  (forall i j, In (i, j) fm1 -> (i < n)%nat /\ (j < n)%nat) ->
  (forall i j k, In (i, j, k) fm2 -> (i < n)%nat /\ (j < n)%nat /\ (k < n)%nat) ->
  exists t ops,
    restst_tables n (ioff (n + 1)) (singles n) = Some t /\
    enrgy_ops (make_fermi_checks fm1 fm2) (singles n) t = Some ops /\
    forall o, In o ops -> exists p q vp vq,
      op_levels o = (p, q) /\
      nth_error (t_states t) p = Some (I1st vp) /\ nth_error (t_states t) q = Some (I1st vq) /\
      coupling f3 o = cubic n f3 (ket n (counts vp)) (counts vq).
Proof. exact coupling_element_lemma. Qed.
Example fermi_coupling_is_element_ex :
  asym_lists [(2, 1)]%nat [(2, 1, 0)]%nat /\
  (let* t := restst_tables 3 (ioff 4) (singles 3) in
   enrgy_ops (make_fermi_checks [(2, 1)]%nat [(2, 1, 0)]%nat) (singles 3) t)
  = Some [Rs2 9 1 1 2 0; Rs1 6 2 2 1 false].
Proof.
  split; [|reflexivity]. split.
  - intros i j [E|[]]. injection E as <- <-. discriminate.
  - intros i j k [E|[]]. injection E as <- <- <-. lia.
Qed.
Print Assumptions fermi_coupling_is_element.
