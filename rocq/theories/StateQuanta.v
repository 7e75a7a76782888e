(** The quanta of a state read off its constructor, and the levels and rotational constants of
    every state of a table. *)
From Coq Require Import Reals Lra List Arith Lia Bool Permutation.
From Verif Require Import Num Loops Index Modes VibRot Anharm SymAnharm ModesFacts StatesFacts ResFacts
  AnharmFacts VibRotFacts EnergyFacts SymExact SymE0 SymRotFacts FinishFacts PerturbFacts PerturbSum PerturbLevels SymPerturb SymLevels VibPerturb SymVib.
Import ListNotations.
Open Scope nat_scope.
Local Open Scope R_scope.

(** quanta in nondegenerate mode number [p]; quanta and l of pair number [p] *)
Definition single_quanta (st : state) (p : nat) : nat :=
  match st with I1st u => nth p u 0%nat | I12st u _ => nth p u 0%nat | _ => 0%nat end.
Definition pair_quanta (st : state) (p : nat) : nat * nat :=
  match st with I2st u => nth p u (0, 0)%nat | I12st _ u => nth p u (0, 0)%nat | _ => (0, 0)%nat end.

Lemma single_quanta_i1 st p : nth p (state_i1 st) 0%nat = single_quanta st p.
Proof. destruct st; cbn [state_i1 single_quanta]; auto; apply nth_repeat_0. Qed.
Lemma pair_quanta_i2 st p : nth p (state_i2 st) (0, 0)%nat = pair_quanta st p.
Proof. destruct st; cbn [state_i2 pair_quanta]; auto; apply nth_repeat_0. Qed.

Lemma state_rot_lemma :
  forall n modes (w : nat -> R) f3 f4 zeta B I r wl,
  top_field n modes w f3 f4 zeta B r wl ->
  axial_inertia (nondeg modes) (degs modes) wl I (if is_prolate r then 0%nat else 1%nat) ->
  (r = Linear -> linear_inertia (degs modes) wl zeta) ->
  (forall i j, (i < n)%nat -> (j < n)%nat -> i <> j ->
     ~ In (i, j) (degs modes) -> ~ In (j, i) (degs modes) -> w i <> w j) ->
  forall K lam (rep : nat -> nat -> bool),
  2 * K * lam ^ 2 = 1 -> 0 < I 1%nat -> B 1%nat = K / I 1%nat ->
  (forall i j, rep i j = true <-> In (i, j) (degs modes) \/ In (j, i) (degs modes)) ->
  let rot := rot_const n w f3 zeta (fun k y z => wl k (acol y z)) I K lam rep in
  let off x := rounding n B w wl f3 lam x in
  forall states m st v,
  r <> SphericalTop -> (forall s, In s states -> wide modes s) ->
  nth_error states m = Some st ->
  ((forall p k, nth_error (nondeg modes) p = Some k -> v k = single_quanta st p) /\
   (forall p s t, nth_error (degs modes) p = Some (s, t) -> (v s + v t)%nat = fst (pair_quanta st p))) ->
  exists rows row, alphas B I w wl zeta f3 r modes states [] = Some rows /\ nth_error rows m = Some row /\
    snd (fst row) = / 2 * (rot 0%nat v + rot 1%nat v) + / 2 * (off 0%nat v + off 1%nat v) /\
    (is_linear r = false -> 0 < I 2%nat -> B 2%nat = K / I 2%nat -> snd row = rot 2%nat v + off 2%nat v).
Proof.
  intros n modes w f3 f4 zeta B I r wl TF AI LI Dw K lam rep HK HI HB Hrep rot off states m st v Hr Hw Hm [V1 V2].
  apply (states_lemma n modes w f3 f4 zeta B I r wl TF AI LI Dw K lam rep HK HI HB Hrep states m st v Hr Hw Hm).
  split.
  - intros p k Hp. rewrite single_quanta_i1. auto.
  - intros p s t Hp. rewrite pair_quanta_i2. eauto.
Qed.

Lemma state_level_lemma :
  forall n modes (w : nat -> R) f3 f4 zeta B r wila x g e0,
  top_field n modes w f3 f4 zeta B r wila ->
  xcals f4 w f3 zeta B r [] [] modes wila = Some (x, g, e0) ->
  forall states m st v us,
  nth_error states m = Some st -> intermediate n f3 v us ->
  (forall p k, nth_error (nondeg modes) p = Some k -> v k = single_quanta st p) ->
  (forall p s t, nth_error (degs modes) p = Some (s, t) -> (v s + v t)%nat = fst (pair_quanta st p)) ->
  exists eng, part1 w modes x (Some g) e0 states = Some eng /\ length eng = length states /\
    nth_error eng m = Some (
      perturbed n w f3 f4 zeta B none v us + angular_shift n zeta B
      - / 2 * Rsum (degs modes) (fun p => B 2%nat * Rsqr (zeta (fst p) (snd p) 2%nat))
      + e0_gap r modes w f3
      + (l_part g (degs modes) (fun i => snd (pair_quanta st i))
         - Rsum (degs modes) (fun p => g (fst p) (fst p) * mean_l2 n v (fst p) (snd p)))
      - polar_part (xcalc n f4 w f3 zeta B [] []) (degs modes) v).
Proof.
  intros n modes w f3 f4 zeta B r wila x g e0 TF E states m st v us Hm Hu V1 V2.
  pose proof (levels_lemma n modes w f3 f4 zeta B r wila x g e0 TF E v
    (fun i => nth i (state_i1 st) 0%nat) (fun i => nth i (state_i2 st) (0, 0)%nat) us Hu) as L.
  assert (L' := L ltac:(intros i k Hk; cbv beta; rewrite single_quanta_i1; symmetry; auto) ltac:(intros i a b Hk; cbv beta; rewrite pair_quanta_i2; symmetry; auto)).
  clear L.
  assert (Hg : Some g <> None \/ n2dm modes = 0%nat) by (left; discriminate).
  exists (map (state_energy modes w x (Some g) e0) states).
  split; [now apply part1_R|]. split; [apply map_length|]. rewrite nth_error_map, Hm. cbn [option_map].
  unfold state_energy. rewrite level_R in L' by assumption. rewrite L'. f_equal. f_equal. f_equal. f_equal.
  unfold l_part. apply Rsum_ext. intros i _. apply Rsum_ext. intros j _. now rewrite !pair_quanta_i2.
Qed.

Lemma state_example :
  let st := I12st [1; 0; 0]%nat [(1, 1); (0, 0); (0, 0)]%nat in
  let v := fun i : nat => match i with O => 1%nat | 1%nat => 1%nat | _ => 0%nat end in
  (forall wila, top_field 3 tmodes tw tf3 tf4 tzeta tB OblateSymmTop wila) /\
  (exists s, xcals tf4 tw tf3 tzeta tB OblateSymmTop [] [] tmodes (fun _ _ => 0) = Some s) /\
  (exists us, intermediate 3 tf3 v us) /\ wide tmodes st /\
  (forall p k, nth_error (nondeg tmodes) p = Some k -> v k = single_quanta st p) /\
  (forall p s t, nth_error (degs tmodes) p = Some (s, t) -> (v s + v t)%nat = fst (pair_quanta st p)).
Proof.
  cbv zeta. split; [exact t_field|]. split; [eexists; reflexivity|].
  split; [apply intermediate_states_exist_lemma; apply (t_field (fun _ _ => 0))|].
  split; [split; cbn; lia|]. split.
  - intros [|p] k E; [injection E as <-; reflexivity|destruct p; discriminate].
  - intros [|p] s t E; [injection E as <- <-; reflexivity|destruct p; discriminate].
Qed.
