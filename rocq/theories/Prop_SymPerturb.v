(** Properties C91 and C92: symmetric tops agree with asymmetric tops of the same force
    field, and their levels are those of perturbation theory. *)
From Coq Require Import Reals Lra List Arith Lia Bool Permutation Sorted.
From Verif Require Import Num Loops Index Modes VibRot Anharm SymAnharm ModesFacts StatesFacts ResFacts
  AnharmFacts VibRotFacts EnergyFacts SymExact SymE0 PerturbFacts PerturbSum PerturbLevels SymPerturb SymLevels SymRotFacts StateQuanta.
Import ListNotations.
Open Scope nat_scope.
Local Open Scope R_scope.

(** C91: the constants of the symmetric top code are combinations of the constants of the
    asymmetric top code, given the same force field.  [e0_gap] is what C36 found missing
    from E0; it is zero for nonlinear molecules with at most two pairs. *)
Theorem sym_from_asym :
  forall n modes (w : nat -> R) f3 f4 zeta B r wila x g e0,
  top_field n modes w f3 f4 zeta B r wila ->
  xcals f4 w f3 zeta B r [] [] modes wila = Some (x, g, e0) ->
  let ns := nondeg modes in
  let ts := degs modes in
  let xa := xcalc n f4 w f3 zeta B [] [] in
  let ea := make_e0 f4 w f3 (make_fermi_checks [] []) (singles n) in
  (forall k l, In k ns -> In l ns -> x k l = xa k l) /\
  (forall k a b, In k ns -> In (a, b) ts -> x k a = xa k a /\ xa k b = xa k a) /\
  (forall a b, In (a, b) ts -> x a a = xa a a /\ xa b b = xa a a /\ g a a = xa a b / 2 - xa a a) /\
  (forall a b c d, In (a, b) ts -> In (c, d) ts -> a <> c ->
     x a c = (xa a c + xa a d) / 2 /\ xa b d = xa a c /\ xa b c = xa a d) /\
  e0 = ea + / 2 * Rsum ts (fun p => g (fst p) (fst p) - B 2%nat * Rsqr (zeta (fst p) (snd p) 2%nat))
       + e0_gap r modes w f3.
Proof. exact constants_lemma. Qed.
Example sym_from_asym_ex :
  nondeg tmodes = [0%nat] /\ degs tmodes = [(1, 2)%nat] /\
  (forall wila, top_field 3 tmodes tw tf3 tf4 tzeta tB OblateSymmTop wila) /\
  exists s, xcals tf4 tw tf3 tzeta tB OblateSymmTop [] [] tmodes (fun _ _ => 0) = Some s.
Proof. destruct t_example as (H1 & H2 & H3 & H4 & _). auto. Qed.
Print Assumptions sym_from_asym.

(** C92: the levels of the program from the diagonal of second-order perturbation theory in
    the states with [v i] quanta in mode i.  They differ by a constant, by the g terms being
    taken for definite l instead of the mean of l squared, and by the polarisation of states
    with two excited pairs, which have no definite l. *)
Theorem sym_levels_second_order :
  forall n modes (w : nat -> R) f3 f4 zeta B r wila x g e0,
  top_field n modes w f3 f4 zeta B r wila ->
  xcals f4 w f3 zeta B r [] [] modes wila = Some (x, g, e0) ->
  let ns := nondeg modes in
  let ts := degs modes in
  forall v v1 v2 us,
  intermediate n f3 v us ->
  (forall i k, nth_error ns i = Some k -> v1 i = v k) ->
  (forall i a b, nth_error ts i = Some (a, b) -> fst (v2 i) = (v a + v b)%nat) ->
  level w modes x (Some g) e0 v1 v2 = Some (
    perturbed n w f3 f4 zeta B none v us + angular_shift n zeta B
    - / 2 * Rsum ts (fun p => B 2%nat * Rsqr (zeta (fst p) (snd p) 2%nat))
    + e0_gap r modes w f3
    + (l_part g ts (fun i => snd (v2 i)) - Rsum ts (fun p => g (fst p) (fst p) * mean_l2 n v (fst p) (snd p)))
    - polar_part (xcalc n f4 w f3 zeta B [] []) ts v).
Proof. exact levels_lemma. Qed.
Example sym_levels_second_order_ex :
  (forall wila, top_field 3 tmodes tw tf3 tf4 tzeta tB OblateSymmTop wila) /\
  (exists us, intermediate 3 tf3 (delta 1) us) /\
  mean_l2 3 (delta 1) 1 2 = 1 /\
  / 2 * Rsum (degs tmodes) (fun p => tB 2 * Rsqr (tzeta (fst p) (snd p) 2)) = 18 / 100.
Proof. destruct t_example as (_ & _ & H3 & _ & H5 & _ & H7 & H8). auto. Qed.
Print Assumptions sym_levels_second_order.

(** for states of definite l with at most one excited pair, in molecules that are not linear
    and have at most two pairs, only the constant remains *)
Theorem sym_levels_definite :
  forall n modes (w : nat -> R) f3 f4 zeta B r wila x g e0,
  top_field n modes w f3 f4 zeta B r wila ->
  xcals f4 w f3 zeta B r [] [] modes wila = Some (x, g, e0) ->
  let ns := nondeg modes in
  let ts := degs modes in
  forall v v1 v2 us,
  is_linear r = false -> (length ts <= 2)%nat ->
  intermediate n f3 v us -> definite modes v (fun i => snd (v2 i)) ->
  (forall i k, nth_error ns i = Some k -> v1 i = v k) ->
  (forall i a b, nth_error ts i = Some (a, b) -> fst (v2 i) = (v a + v b)%nat) ->
  level w modes x (Some g) e0 v1 v2 = Some (
    perturbed n w f3 f4 zeta B none v us + angular_shift n zeta B
    - / 2 * Rsum ts (fun p => B 2%nat * Rsqr (zeta (fst p) (snd p) 2%nat))).
Proof. exact levels_small_lemma. Qed.
Example sym_levels_definite_ex :
  (forall wila, top_field 3 tmodes tw tf3 tf4 tzeta tB OblateSymmTop wila) /\
  is_linear OblateSymmTop = false /\ (length (degs tmodes) <= 2)%nat /\
  (exists us, intermediate 3 tf3 (delta 1) us) /\
  definite tmodes (delta 1) (fun _ => 1%nat).
Proof. destruct t_example as (_ & _ & H3 & _ & H5 & H6 & _). repeat split; try apply H3; try apply H6; auto; cbn; lia. Qed.
Print Assumptions sym_levels_definite.

(** the same for the table of levels: entry [m] belongs to state [m], whose quanta are those in the
    entries of its constructor *)
Theorem sym_state_levels :
  forall n modes (w : nat -> R) f3 f4 zeta B r wila x g e0,
  top_field n modes w f3 f4 zeta B r wila ->
  xcals f4 w f3 zeta B r [] [] modes wila = Some (x, g, e0) ->
  forall states m st v us,
  nth_error states m = Some st -> intermediate n f3 v us ->
  (forall p k, nth_error (nondeg modes) p = Some k -> v k = single_quanta st p) ->
  (forall p s t, nth_error (degs modes) p = Some (s, t) -> (v s + v t)%nat = fst (pair_quanta st p)) ->
  exists eng, part1 w modes x (Some g) e0 states = Some eng /\ length eng = length states /\
    nth_error eng m = Some (
      perturbed n w f3 f4 zeta B none v us + angular_shift n zeta B
      - / 2 * Rsum (degs modes) (fun p => B 2%nat * Rsqr (zeta (fst p) (snd p) 2%nat))
      + e0_gap r modes w f3
      + (l_part g (degs modes) (fun i => snd (pair_quanta st i))
         - Rsum (degs modes) (fun p => g (fst p) (fst p) * mean_l2 n v (fst p) (snd p)))
      - polar_part (xcalc n f4 w f3 zeta B [] []) (degs modes) v).
Proof. exact state_level_lemma. Qed.
Example sym_state_levels_ex :
  let st := I12st [1; 0; 0]%nat [(1, 1); (0, 0); (0, 0)]%nat in
  let v := fun i : nat => match i with O => 1%nat | 1%nat => 1%nat | _ => 0%nat end in
  (forall wila, top_field 3 tmodes tw tf3 tf4 tzeta tB OblateSymmTop wila) /\
  (exists s, xcals tf4 tw tf3 tzeta tB OblateSymmTop [] [] tmodes (fun _ _ => 0) = Some s) /\
  (exists us, intermediate 3 tf3 v us) /\ wide tmodes st /\
  (forall p k, nth_error (nondeg tmodes) p = Some k -> v k = single_quanta st p) /\
  (forall p s t, nth_error (degs tmodes) p = Some (s, t) -> (v s + v t)%nat = fst (pair_quanta st p)).
Proof. exact state_example. Qed.
Print Assumptions sym_state_levels.

(** the mean of l squared *)
Theorem mean_l2_closed : forall n (v : nat -> nat) a b, (a < n)%nat -> (b < n)%nat -> a <> b ->
  mean_l2 n v a b = 2 * ((INR (v a) + / 2) * (INR (v b) + / 2)) - / 2.
Proof. exact mean_l2_value. Qed.
Example mean_l2_closed_ex : mean_l2 3 (fun _ => 1%nat) 1 2 = 4.
Proof. rewrite mean_l2_closed by lia. cbn. lra. Qed.
Print Assumptions mean_l2_closed.
