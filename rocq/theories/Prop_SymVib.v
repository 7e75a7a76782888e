(** Property C98: the vibration-rotation constants of symmetric tops and linear molecules
    agree with those of asymmetric tops, and the rotational constants of their states with
    perturbation theory. *)
From Coq Require Import Reals Lra List Arith Lia Bool Permutation.
From Verif Require Import Num Loops Index Modes VibRot ModesFacts StatesFacts AnharmFacts VibRotFacts
  SymRotFacts PerturbFacts PerturbLevels SymPerturb SymLevels VibPerturb SymVib StateQuanta.
Import ListNotations.
Open Scope R_scope.

(** No resonances are reported for the symmetric top.  In the asymmetric top code the
    partners of each pair are reported about the unique axis, because their frequencies are
    equal.  The mean over the two other axes is the constant of the symmetric top. *)
Theorem sym_alpha_from_asym :
  forall n modes (w : nat -> R) f3 f4 zeta B I r wl,
  top_field n modes w f3 f4 zeta B r wl ->
  axial_inertia (nondeg modes) (degs modes) wl I (if is_prolate r then 0%nat else 1%nat) ->
  (r = Linear -> linear_inertia (degs modes) wl zeta) ->
  (forall i j, (i < n)%nat -> (j < n)%nat -> i <> j ->
     ~ In (i, j) (degs modes) -> ~ In (j, i) (degs modes) -> w i <> w j) ->
  let al := sym_alpha B I w wl zeta f3 r modes [] in
  let aa := alpha n B I w wl zeta f3 (map (fun p => (fst p, snd p, 2%nat)) (degs modes)) in
  (forall k, In k (nondeg modes) ->
     aa k 2%nat = al k 2%nat /\ / 2 * (aa k 0%nat + aa k 1%nat) = al k 1%nat) /\
  (forall s t, In (s, t) (degs modes) ->
     (aa s 2%nat = al s 2%nat /\ / 2 * (aa s 0%nat + aa s 1%nat) = al s 1%nat) /\
     (aa t 2%nat = al s 2%nat /\ / 2 * (aa t 0%nat + aa t 1%nat) = al s 1%nat)).
Proof. exact alphas_lemma. Qed.
Example sym_alpha_from_asym_ex :
  nondeg tmodes = [0%nat] /\ degs tmodes = [(1, 2)%nat] /\
  top_field 3 tmodes tw tf3 tf4 tzeta tB OblateSymmTop ex_wl /\
  axial_inertia (nondeg tmodes) (degs tmodes) ex_wl ex_I (if is_prolate OblateSymmTop then 0%nat else 1%nat) /\
  (forall i j, (i < 3)%nat -> (j < 3)%nat -> i <> j ->
     ~ In (i, j) (degs tmodes) -> ~ In (j, i) (degs tmodes) -> tw i <> tw j) /\
  tzeta 1 2 2 = 3 / 10 /\ tzeta 0 1 0 = / 2.
Proof.
  refine (conj eq_refl (conj eq_refl (conj (t_field _) (conj _ (conj _ (conj eq_refl eq_refl)))))).
  - split; try reflexivity; try (cbn; lia); intros;
      repeat match goal with
        | H : In _ (nondeg tmodes) |- _ => destruct H as [H|[]]; subst
        | H : In _ (degs tmodes) |- _ => destruct H as [H|[]]; injection H as <- <- end;
      cbn; repeat split; lra.
  - intros [|[|[|i]]] [|[|[|j]]] Hi Hj N A C; try lia; cbn in *; try lra; exfalso; tauto.
Qed.
Print Assumptions sym_alpha_from_asym.

(** The constants that [alphas] gives a state: the mean of [rot_const] over the axes 0 and 1
    and the one about axis 2, for every way [v] of distributing the quanta of each pair over
    its partners.  The exchange of quanta between partners is left out of the second order
    sums ([rep]).  [rounding] comes from the constant 0.086112 of the code, as in C97. *)
Theorem sym_rot_constants_second_order :
  forall n modes (w : nat -> R) f3 f4 zeta B I r wl,
  top_field n modes w f3 f4 zeta B r wl ->
  axial_inertia (nondeg modes) (degs modes) wl I (if is_prolate r then 0%nat else 1%nat) ->
  (r = Linear -> linear_inertia (degs modes) wl zeta) ->
  (forall i j, (i < n)%nat -> (j < n)%nat -> i <> j ->
     ~ In (i, j) (degs modes) -> ~ In (j, i) (degs modes) -> w i <> w j) ->
  forall K lam (rep : nat -> nat -> bool),
  2 * K * lam ^ 2 = 1 -> 0 < I 1%nat -> B 1%nat = K / I 1%nat ->
  (forall i j, rep i j = true <-> In (i, j) (degs modes) \/ In (j, i) (degs modes)) ->
  let rot := rot_const n w f3 zeta (fun k y z => wl k (acol y z)) I K lam rep in
  let off x := rounding n B w wl f3 lam x in
  forall states m st v,
  r <> SphericalTop -> (forall s, In s states -> wide modes s) ->
  nth_error states m = Some st ->
  ((forall p k, nth_error (nondeg modes) p = Some k -> v k = single_quanta st p) /\
   (forall p s t, nth_error (degs modes) p = Some (s, t) -> (v s + v t)%nat = fst (pair_quanta st p))) ->
  exists rows row, alphas B I w wl zeta f3 r modes states [] = Some rows /\ nth_error rows m = Some row /\
    snd (fst row) = / 2 * (rot 0%nat v + rot 1%nat v) + / 2 * (off 0%nat v + off 1%nat v) /\
    (is_linear r = false -> 0 < I 2%nat -> B 2%nat = K / I 2%nat -> snd row = rot 2%nat v + off 2%nat v).
Proof. exact state_rot_lemma. Qed.
Example sym_rot_constants_second_order_ex :
  let st := I12st [1; 0; 0]%nat [(1, 1); (0, 0); (0, 0)]%nat in
  let v := fun i : nat => match i with O => 1%nat | 1%nat => 1%nat | _ => 0%nat end in
  top_field 3 tmodes tw tf3 tf4 tzeta tB OblateSymmTop ex_wl /\
  2 * 2 * (/ 2) ^ 2 = 1 /\ 0 < ex_I 1 /\ tB 1 = 2 / ex_I 1 /\ 0 < ex_I 2 /\ tB 2 = 2 / ex_I 2 /\
  (forall i j, ((i =? 1) && (j =? 2) || (i =? 2) && (j =? 1))%nat = true
     <-> In (i, j) (degs tmodes) \/ In (j, i) (degs tmodes)) /\
  wide tmodes st /\
  (forall p k, nth_error (nondeg tmodes) p = Some k -> v k = single_quanta st p) /\
  (forall p s t, nth_error (degs tmodes) p = Some (s, t) -> (v s + v t)%nat = fst (pair_quanta st p)).
Proof.
  cbv zeta. split; [apply t_field|]. unfold ex_I, tB. repeat (split; [lra|]).
  split.
  { intros i j. cbn [degs tmodes flat_map get2 app In]. rewrite orb_true_iff, !andb_true_iff, !Nat.eqb_eq. split.
    - intros [[-> ->]|[-> ->]]; auto.
    - intros [[E|[]]|[E|[]]]; injection E as <- <-; auto. }
  split; [split; cbn; lia|]. split.
  - intros [|p] k E; [injection E as <-; reflexivity|destruct p; discriminate].
  - intros [|p] s t E; [injection E as <- <-; reflexivity|destruct p; discriminate].
Qed.
Print Assumptions sym_rot_constants_second_order.
