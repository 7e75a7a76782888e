(** Molecules with a threefold axis and a mirror plane: the rotational constants of the states. *)
From Coq Require Import Reals Lra List ZArith Arith Lia Bool Permutation Sorted FunctionalExtensionality.
From Verif Require Import Num Loops ListFacts Index LoadFacts Modes ModesFacts ResFacts
  StatesFacts IndexFacts Anharm AnharmFacts EnergyFacts VibRot Distort Transform TransformFacts
  RotFacts NormalFacts HarmFacts ModeFacts DistortFacts EckartFacts InertiaFacts SymAnharm
  Polyads Report OutputFacts VibRotFacts SymRotFacts Geom IrrepFacts Finish FinishFacts
  PerturbFacts PerturbLevels SymE0 SymExact VibPerturb SymVib SymPerturb SymLevels RunFacts RunSecond RunRot
  Threefold ThreeForm ThreeModes ThreeRun.
Import ListNotations.
Open Scope nat_scope.
Local Open Scope R_scope.

(** ** what the code for oblate tops leaves out *)

(** the columns xz and yz of the first partners exchanged *)
Definition exchanged (fs : list nat) (wl : nat -> nat -> R) (k c : nat) : R :=
  if existsb (Nat.eqb k) fs then match c with 3%nat => wl k 4%nat | 4%nat => wl k 3%nat | _ => wl k c end else wl k c.
Lemma exchanged_in fs wl k c : In k fs -> exchanged fs wl k c = match c with 3%nat => wl k 4%nat | 4%nat => wl k 3%nat | _ => wl k c end.
Proof.
  intros H. unfold exchanged. replace (existsb (Nat.eqb k) fs) with true; [reflexivity|].
  symmetry. apply existsb_exists. exists k. now rewrite Nat.eqb_refl.
Qed.
Lemma exchanged_out fs wl k c : ~ In k fs -> exchanged fs wl k c = wl k c.
Proof.
  intros H. unfold exchanged. destruct (existsb (Nat.eqb k) fs) eqn:E; [|reflexivity].
  apply existsb_exists in E as (x & Hx & E). apply Nat.eqb_eq in E as <-. contradiction.
Qed.
Lemma exchanged_col fs wl k c : c <> 3%nat -> c <> 4%nat -> exchanged fs wl k c = wl k c.
Proof. intros N3 N4. unfold exchanged. destruct (existsb _ _); [|reflexivity]. do 5 (destruct c as [|c]; [congruence|]). reflexivity. Qed.
Lemma exchanged_sq fs wl k : exchanged fs wl k 3 ^ 2 + exchanged fs wl k 4 ^ 2 = wl k 3%nat ^ 2 + wl k 4%nat ^ 2.
Proof. unfold exchanged. destruct (existsb _ _); ring. Qed.

Section Gap.
  Variables (n : nat) (modes : list mode) (w : nat -> R) (f3 : nat -> nat -> nat -> R)
    (f4 : nat -> nat -> nat -> nat -> R) (zeta : nat -> nat -> nat -> R) (B I : nat -> R)
    (wl : nat -> nat -> R).
  Hypothesis TF : top_field n modes w f3 f4 zeta B OblateSymmTop wl.
  Let ns := nondeg modes.
  Let ts := degs modes.
  Hypothesis AI : axial_inertia ns ts wl I 0.
  Let wl' := exchanged (firsts modes) wl.
  Let al := sym_alpha B I w wl zeta f3 OblateSymmTop modes [].
  Let al' := sym_alpha B I w wl' zeta f3 OblateSymmTop modes [].
  Let part := Hpart n modes w f3 f4 zeta B OblateSymmTop wl TF.
  Let part0 := tf_modes _ _ _ _ _ _ _ _ _ TF.

  Lemma is_first s t : In (s, t) ts -> In s (firsts modes).
  Proof. intros H. apply in_map_iff. exists (s, t). auto. Qed.
  Lemma not_first_n k : In k ns -> ~ In k (firsts modes).
  Proof.
    intros Hk ([s t] & <- & H)%in_map_iff.
    destruct (apart_nt n modes w f3 f4 zeta B OblateSymmTop wl TF s s t Hk H) as [Q _]. now apply Q.
  Qed.
  Lemma not_first_t s t : In (s, t) ts -> ~ In t (firsts modes).
  Proof.
    intros H ([s' t'] & E & H')%in_map_iff. cbn [fst] in E. subst s'.
    pose proof (ts_nd n ns ts part) as Nd. unfold ts in *. revert H H' Nd. clear.
    induction (degs modes) as [|[a b] l IH]; [intros []|]. cbn [flat_map app In fst snd].
    intros H H' Nd. inversion Nd as [|? ? N1 Nd1]; subst. inversion Nd1 as [|? ? N2 Nd2]; subst.
    assert (In_l : forall u v, In (u, v) l -> In u (flat_map (fun '(a, b) => [a; b]) l) /\ In v (flat_map (fun '(a, b) => [a; b]) l)).
    { intros u v Q. split; apply in_flat_map; exists (u, v); cbn; auto. }
    destruct H as [H|H], H' as [H'|H'].
    - injection H as -> ->. injection H' as -> ->. apply N1. cbn; auto.
    - injection H as -> ->. apply N2. now apply (In_l t t').
    - injection H' as -> ->. apply N1. right. now apply (In_l s t).
    - now apply IH.
  Qed.

  Lemma exchanged_field : top_field n modes w f3 f4 zeta B OblateSymmTop wl'.
  Proof.
    pose proof TF as [T1 T2 T3 T4 T5 T6 T7 T8 T9 T10 T11 (ax & T12 & T13)]. constructor; try assumption.
    exists ax. split; [|exact T13].
    assert (E : forall a b c, In (a, b) ts -> wl' b c = wl b c).
    { intros a b c H. apply exchanged_out. now apply not_first_t with a. }
    assert (U : forall P Q P' Q' : Prop, (P <-> P') -> (Q <-> Q') -> (P /\ Q <-> P' /\ Q')) by tauto.
    unfold cor_axis in *. cbv zeta in *.
    assert (W : (is_linear OblateSymmTop = false /\ (forall a b, In (a, b) (degs modes) -> ~ Rabs (wl' b 3%nat) <= 1 / 1000000)
        /\ exists a b, In (a, b) (degs modes) /\ Rabs (wl' b 4%nat) <= 1 / 1000000)
      <-> (is_linear OblateSymmTop = false /\ (forall a b, In (a, b) (degs modes) -> ~ Rabs (wl b 3%nat) <= 1 / 1000000)
        /\ exists a b, In (a, b) (degs modes) /\ Rabs (wl b 4%nat) <= 1 / 1000000)).
    { apply U; [reflexivity|]. apply U.
      - split; intros Q a b H; specialize (Q a b H); now rewrite (E a b) in *.
      - split; intros (a & b & H & Q); exists a, b; rewrite (E a b) in *; auto. }
    destruct T12 as [A1 A2]. split; [rewrite A1|rewrite A2]; rewrite W; reflexivity.
  Qed.

  Lemma exchanged_inertia : axial_inertia ns ts wl' I 1.
  Proof.
    pose proof AI as [A1 A2 A3 A4 A5 A6]. constructor; try lia; try exact A1; cbn [acol Nat.sub] in *.
    - intros k Hk. unfold wl'. rewrite !exchanged_out by now apply not_first_n. now apply A2.
    - intros s t H. unfold wl'. rewrite !exchanged_col by lia. now apply A3.
    - intros s t H. unfold wl'. rewrite !(exchanged_in _ _ s) by now apply is_first with t. now apply (A4 s t).
    - intros s t H. unfold wl'. rewrite !(exchanged_out _ _ t) by now apply not_first_t with s.
      rewrite !(exchanged_in _ _ s) by now apply is_first with t. now apply (A5 s t).
  Qed.

  (** the constants of asymmetric tops do not see the exchange *)
  Lemma exchanged_alpha i : (i < n)%nat ->
    alpha n B I w wl' zeta f3 (partners ts) i 2 = alpha n B I w wl zeta f3 (partners ts) i 2 /\
    alpha n B I w wl' zeta f3 (partners ts) i 0 + alpha n B I w wl' zeta f3 (partners ts) i 1
    = alpha n B I w wl zeta f3 (partners ts) i 0 + alpha n B I w wl zeta f3 (partners ts) i 1.
  Proof.
    intros Hi. pose proof (ai_I _ _ _ _ _ AI) as I01. pose proof (exchanged_sq (firsts modes) wl i) as Q. fold wl' in Q.
    destruct (tf_axial _ _ _ _ _ _ _ _ _ TF) as (ax & _ & Ax). pose proof (axial_b _ _ _ _ _ _ _ _ Ax) as B01.
    assert (E : forall k c, c <> 3%nat -> c <> 4%nat -> wl' k c = wl k c) by (intros; now apply exchanged_col).
    rewrite !alpha_terms by (exact Hi || lia). cbn [acol].
    assert (E5 : forall j, wl' j 5%nat = wl j 5%nat) by (intros; apply E; lia).
    assert (E0 : forall j, wl' j 0%nat = wl j 0%nat) by (intros; apply E; lia).
    assert (E1 : forall j, wl' j 1%nat = wl j 1%nat) by (intros; apply E; lia).
    assert (E2 : forall j, wl' j 2%nat = wl j 2%nat) by (intros; apply E; lia).
    rewrite (Rsum_ext (fun j => wl' j 5%nat * f3 i i j * w i / (w j * sqrt (w j))) (fun j => wl j 5%nat * f3 i i j * w i / (w j * sqrt (w j)))) by (intros; now rewrite E5).
    rewrite (Rsum_ext (fun j => wl' j 0%nat * f3 i i j * w i / (w j * sqrt (w j))) (fun j => wl j 0%nat * f3 i i j * w i / (w j * sqrt (w j)))) by (intros; now rewrite E0).
    rewrite (Rsum_ext (fun j => wl' j 2%nat * f3 i i j * w i / (w j * sqrt (w j))) (fun j => wl j 2%nat * f3 i i j * w i / (w j * sqrt (w j)))) by (intros; now rewrite E2).
    rewrite E0, E1, E2, E5, I01, B01. set (x := wl' i 3%nat ^ 2) in *. replace (wl' i 4%nat ^ 2) with (wl i 3%nat ^ 2 + wl i 4%nat ^ 2 - x) by lra.
    unfold Rdiv. split; ring.
  Qed.

  (** what the code leaves out of the constants of a pair *)
  Definition lost_axis (s : nat) : R := 2 * B 2%nat ^ 2 / w s * (3 / 4 * (wl s 3%nat ^ 2 / I 1%nat)).
  Definition lost_perp (s : nat) : R := 2 * B 1%nat ^ 2 / w s * (3 / 8 * (wl s 3%nat ^ 2 / I 2%nat)).

  Lemma cubic_same c k : c <> 3%nat -> c <> 4%nat ->
    cubic_a w wl' f3 modes c k = cubic_a w wl f3 modes c k /\ cubic_b w wl' f3 modes c k = cubic_b w wl f3 modes c k.
  Proof.
    intros N3 N4. unfold cubic_a, cubic_b. rewrite !nsum_R.
    split; apply Rsum_ext; intros j _; unfold wl'; now rewrite exchanged_col.
  Qed.
  Lemma sym_alpha_exchanged :
    (forall k, In k ns -> al' k 2%nat = al k 2%nat /\ al' k 1%nat = al k 1%nat) /\
    (forall s t, In (s, t) ts -> al' s 2%nat = al s 2%nat + lost_axis s /\ al' s 1%nat = al s 1%nat + lost_perp s).
  Proof.
    destruct (make_alpha_cells n modes B I w wl zeta f3 [] part0 OblateSymmTop 4 2) as (C1 & C2).
    destruct (make_alpha_cells n modes B I w wl' zeta f3 [] part0 OblateSymmTop 4 2) as (C1' & C2').
    change al with (make_alpha B I w wl zeta f3 OblateSymmTop modes (make_icorol []) 2 1 0 5 4 2 1).
    change al' with (make_alpha B I w wl' zeta f3 OblateSymmTop modes (make_icorol []) 2 1 0 5 4 2 1).
    change (@nil coriolis_t) with (@nil (nat * nat * nat)). split.
    - intros k Hk. unfold ns, nondeg in Hk. rewrite <- map_m1 in Hk. apply in_map_iff in Hk as (kk & <- & Hkk%in_seq).
      destruct (C1 kk) as [-> ->]; [lia|]. destruct (C1' kk) as [-> ->]; [lia|].
      unfold alpha_a_nondeg, alpha_b_nondeg. cbv zeta.
      rewrite (proj1 (cubic_same 5 _ ltac:(lia) ltac:(lia))), (proj2 (cubic_same 2 _ ltac:(lia) ltac:(lia))).
      unfold wl'. rewrite !exchanged_col by lia. auto.
    - intros s t H. pose proof H as H0. unfold ts, degs in H. rewrite <- map_m2 in H. apply in_map_iff in H as (kk & E & Hkk%in_seq).
      assert (Es : fst (m2 modes kk) = s) by now rewrite E.
      destruct (C2 kk) as [D2 D1]; [lia|]. destruct (C2' kk) as [D2' D1']; [lia|]. rewrite Es in *.
      rewrite D2, D1, D2', D1'.
      unfold alpha_a_deg, alpha_b_deg. rewrite Es. cbv zeta.
      rewrite (proj1 (cubic_same 5 _ ltac:(lia) ltac:(lia))), (proj2 (cubic_same 2 _ ltac:(lia) ltac:(lia))).
      unfold wl'. rewrite (exchanged_col _ _ s 2) by lia. rewrite (exchanged_in _ _ s 4) by now apply is_first with t.
      destruct (ai_s _ _ _ _ _ AI s t H0) as [_ Z4]. cbn [acol Nat.sub] in Z4. rewrite Z4.
      unfold lost_axis, lost_perp, nsq. cbn [nadd nmul ndiv nsub Rnum nlit]. rewrite !nz_R. unfold Rdiv. split; lra.
  Qed.
End Gap.

(** ** the corrections of a state *)
Section States.
  Variables (n : nat) (modes : list mode) (w : nat -> R) (f3 : nat -> nat -> nat -> R)
    (f4 : nat -> nat -> nat -> nat -> R) (zeta : nat -> nat -> nat -> R) (B I : nat -> R)
    (r : rotor) (wl : nat -> nat -> R).
  Hypothesis Hr : r = OblateSymmTop \/ r = ProlateSymmTop.
  Hypothesis TF : top_field n modes w f3 f4 zeta B r wl.
  Hypothesis AI : axial_inertia (nondeg modes) (degs modes) wl I 0.
  Hypothesis apart : forall i j, (i < n)%nat -> (j < n)%nat -> i <> j ->
    ~ In (i, j) (degs modes) -> ~ In (j, i) (degs modes) -> w i <> w j.
  Variables (K lam : R) (rep : nat -> nat -> bool).
  Hypothesis HK : 2 * K * lam ^ 2 = 1.
  Hypothesis HI : forall y, (y < 3)%nat -> 0 < I y.
  Hypothesis HB : forall y, (y < 3)%nat -> B y = K / I y.
  Hypothesis Hrep : forall i j, rep i j = true <-> In (i, j) (degs modes) \/ In (j, i) (degs modes).
  Let al := sym_alpha B I w wl zeta f3 r modes [].
  Let rot := rot_const n w f3 zeta (fun k y z => wl k (acol y z)) I K lam rep.
  Let off (x : nat) := rounding n B w wl f3 lam x.

  (** a term of each pair, once for every quantum and once for the zero point motion *)
  Definition per_pair (ts : list (nat * nat)) (c : nat -> R) (v : occ) : R :=
    Rsum ts (fun p => c (fst p) * (INR (v (fst p)) + INR (v (snd p)) + 1)).

  Lemma sym_vib_gap (g g' c : nat -> R) st v : filled modes st v ->
    (forall k, In k (nondeg modes) -> g' k = g k) -> (forall s t, In (s, t) (degs modes) -> g' s = g s + c s) ->
    sym_vib modes g st = sym_vib modes g' st - per_pair (degs modes) c v.
  Proof.
    intros [F1 F2] G1 G2. unfold sym_vib, per_pair.
    rewrite <- (Rsum_nth_seq (0%nat, 0%nat) (degs modes)).
    rewrite (Rsum_ext (fun p => g' (nth p (nondeg modes) 0%nat) * _) (fun p => g (nth p (nondeg modes) 0%nat) * (INR (nth p (state_i1 st) 0%nat) + / 2)))
      by (intros p Hp%in_seq; rewrite G1; [reflexivity|apply nth_In; lia]).
    match goal with |- ?a + ?b = ?a + ?d - ?e => enough (d = b + e) by lra end.
    rewrite <- Rsum_plus. apply Rsum_ext. intros p Hp%in_seq.
    assert (E : nth_error (degs modes) p = Some (nth p (degs modes) (0%nat, 0%nat))) by (apply nth_error_nth_lt; lia).
    destruct (nth p (degs modes) (0%nat, 0%nat)) as [s t] eqn:En. cbn [fst snd].
    rewrite (G2 s t (nth_error_In _ _ E)), <- (F2 p s t E), plus_INR. ring.
  Qed.

  Lemma aa_states st v (g : nat -> nat -> R) : filled modes st v ->
    let aa := alpha n B I w wl zeta f3 (partners (degs modes)) in
    (forall k, In k (nondeg modes) -> aa k 2%nat = g k 2%nat /\ / 2 * (aa k 0%nat + aa k 1%nat) = g k 1%nat) ->
    (forall s t, In (s, t) (degs modes) ->
      (aa s 2%nat = g s 2%nat /\ / 2 * (aa s 0%nat + aa s 1%nat) = g s 1%nat) /\
      (aa t 2%nat = g s 2%nat /\ / 2 * (aa t 0%nat + aa t 1%nat) = g s 1%nat)) ->
    sym_vib modes (fun i => g i 1%nat) st = / 2 * (rot 0%nat v + rot 1%nat v) - B 1%nat + / 2 * (off 0%nat v + off 1%nat v) /\
    sym_vib modes (fun i => g i 2%nat) st = rot 2%nat v - B 2%nat + off 2%nat v.
  Proof.
    intros Hv aa A1 A2.
    destruct (tf_axial _ _ _ _ _ _ _ _ _ TF) as (ax & _ & Ax). pose proof (axial_b _ _ _ _ _ _ _ _ Ax) as B01.
    assert (TS : forall x, (x < 3)%nat -> B x + Rsum (seq 0 n) (fun i => aa i x * (INR (v i) + / 2)) = rot x v + off x v).
    { intros x Hx. apply (top_state n modes w f3 f4 zeta B I r wl TF apart K lam rep HK Hrep x v Hx); auto. }
    split.
    - rewrite (sym_vib_sum n modes w f3 f4 zeta B I r wl TF apart K lam rep Hrep _ (fun i => / 2 * (aa i 0%nat + aa i 1%nat)) st v Hv).
      + pose proof (TS 0%nat ltac:(lia)) as E0. pose proof (TS 1%nat ltac:(lia)) as E1.
        assert (Es : Rsum (seq 0 n) (fun i => / 2 * (aa i 0%nat + aa i 1%nat) * (INR (v i) + / 2))
          = / 2 * (Rsum (seq 0 n) (fun i => aa i 0%nat * (INR (v i) + / 2)) + Rsum (seq 0 n) (fun i => aa i 1%nat * (INR (v i) + / 2)))).
        { rewrite <- Rsum_plus, <- Rsum_scal. apply Rsum_ext. intros i _. ring. }
        rewrite Es. rewrite B01 in E0. lra.
      + intros k Hk. now apply A1.
      + intros s t H. destruct (A2 s t H) as [[_ ->] [_ ->]]. auto.
    - rewrite (sym_vib_sum n modes w f3 f4 zeta B I r wl TF apart K lam rep Hrep _ (fun i => aa i 2%nat) st v Hv).
      + pose proof (TS 2%nat ltac:(lia)) as E2. lra.
      + intros k Hk. now apply A1.
      + intros s t H. destruct (A2 s t H) as [[-> _] [-> _]]. auto.
  Qed.

  Lemma states_gap st v : filled modes st v ->
    sym_vib modes (fun i => al i 1%nat) st = / 2 * (rot 0%nat v + rot 1%nat v) - B 1%nat + / 2 * (off 0%nat v + off 1%nat v)
      - (if is_prolate r then 0 else per_pair (degs modes) (lost_perp w B I wl) v) /\
    sym_vib modes (fun i => al i 2%nat) st = rot 2%nat v - B 2%nat + off 2%nat v
      - (if is_prolate r then 0 else per_pair (degs modes) (lost_axis w B I wl) v).
  Proof.
    intros Hv. assert (Nl : r <> Linear) by (destruct Hr; congruence).
    destruct Hr as [E|E]; rewrite E; cbn [is_prolate].
    - pose proof TF as TF'. rewrite E in TF'. destruct (sym_alpha_exchanged n modes w f3 f4 zeta B I wl TF' AI) as [X1 X2].
      set (wl' := exchanged (firsts modes) wl) in *.
      destruct (alphas_lemma n modes w f3 f4 zeta B I OblateSymmTop wl' ltac:(eapply exchanged_field; eassumption)
        (exchanged_inertia n modes w f3 f4 zeta B I wl TF' AI) ltac:(discriminate) apart) as [A1 A2].
      pose proof (exchanged_alpha n modes w f3 f4 zeta B I wl TF' AI) as XA. fold wl' in XA.
      destruct (aa_states st v (sym_alpha B I w wl' zeta f3 OblateSymmTop modes []) Hv) as [S1 S2].
      { intros k Hk. pose proof (nn n modes w f3 f4 zeta B OblateSymmTop wl TF' k Hk) as Lk.
        destruct (XA k Lk) as [<- <-]. now apply A1. }
      { intros s t H. destruct (tt n modes w f3 f4 zeta B OblateSymmTop wl TF' s t H) as [Ls Lt].
        destruct (XA s Ls) as [<- <-]. destruct (XA t Lt) as [<- <-]. now apply A2. }
      unfold al. rewrite E. split.
      + rewrite (sym_vib_gap _ (fun i => sym_alpha B I w wl' zeta f3 OblateSymmTop modes [] i 1%nat) (lost_perp w B I wl) st v Hv).
        * now rewrite S1.
        * intros k Hk. now apply X1.
        * intros s t H. now apply (X2 s t).
      + rewrite (sym_vib_gap _ (fun i => sym_alpha B I w wl' zeta f3 OblateSymmTop modes [] i 2%nat) (lost_axis w B I wl) st v Hv).
        * now rewrite S2.
        * intros k Hk. now apply X1.
        * intros s t H. now apply (X2 s t).
    - destruct (alphas_lemma n modes w f3 f4 zeta B I r wl TF) as [A1 A2]; try assumption; try congruence.
      { rewrite E. exact AI. }
      destruct (aa_states st v al Hv A1 A2) as [-> ->]. rewrite !Rminus_0_r. auto.
  Qed.
End States.
