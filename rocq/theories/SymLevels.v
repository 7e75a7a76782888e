(** The levels of symmetric tops: from the constants of the program to the energies of
    perturbation theory. *)
From Coq Require Import Reals Lra Lia List Arith Bool Permutation Sorted.
From Verif Require Import Num Loops Index Modes VibRot Anharm SymAnharm ListFacts ModesFacts StatesFacts
  ResFacts AnharmFacts VibRotFacts TransformFacts ModeFacts HarmFacts EnergyFacts SymFacts SymExact SymE0
  SymWitness PerturbFacts PerturbSum PerturbLevels SymPerturb.
Import ListNotations.
Open Scope R_scope.

(** ** the mean of the squared angular momentum *)
Lemma pos_ext l (psi phi : occ -> R) u : (forall u, psi u = phi u) -> pos l psi u = pos l phi u.
Proof. intros E. unfold pos. now rewrite !E. Qed.
Lemma mom_ext l (psi phi : occ -> R) u : (forall u, psi u = phi u) -> mom l psi u = mom l phi u.
Proof. intros E. unfold mom. now rewrite !E. Qed.
Lemma turn_ext a b (psi phi : occ -> R) u : (forall u, psi u = phi u) -> turn a b psi u = turn a b phi u.
Proof.
  intros E. unfold turn.
  rewrite (pos_ext a _ (mom b phi)), (pos_ext b (mom a psi) (mom a phi)); [reflexivity| |];
    intros u'; now apply mom_ext.
Qed.

Section MeanL2.
  Variables (n : nat) (v : occ) (a b : nat).
  Hypothesis Ha : (a < n)%nat.
  Hypothesis Hb : (b < n)%nat.
  Hypothesis Hab : a <> b.
  Let zt (k l _x : nat) : R :=
    if (k =? a)%nat then if (l =? b)%nat then 1 else 0
    else if (k =? b)%nat then if (l =? a)%nat then -1 else 0 else 0.
  Let w1 (_ : nat) : R := 1.
  Let h i := INR (v i) + / 2.

  Lemma zt_anti i j x : zt i j x = - zt j i x.
  Proof.
    unfold zt. destruct (Nat.eqb_spec i a), (Nat.eqb_spec j b), (Nat.eqb_spec i b), (Nat.eqb_spec j a);
      subst; try congruence; lra.
  Qed.

  Lemma turn_angular psi u : angular n w1 zt 0 psi u = turn a b psi u.
  Proof.
    unfold angular, turn.
    rewrite (Rsum_ext _ (fun k => (if (k =? a)%nat then pos k (mom b psi) u else 0)
      + (if (k =? b)%nat then - pos k (mom a psi) u else 0))).
    - rewrite Rsum_plus, (Rsum_single (fun k => pos k (mom b psi) u)), (Rsum_single (fun k => - pos k (mom a psi) u));
        [lra|apply seq_NoDup|apply in_seq; lia|apply seq_NoDup|apply in_seq; lia].
    - intros k _. unfold zt, w1.
      assert (Q : sqrt (1 / 1) = 1) by (replace (1 / 1) with 1 by lra; apply sqrt_1). rewrite ?Q.
      destruct (Nat.eqb_spec k a) as [->|Na].
      + destruct (Nat.eqb_spec a b); [congruence|].
        rewrite (Rsum_ext _ (fun l => if (l =? b)%nat then pos a (mom l psi) u else 0)).
        * rewrite (Rsum_single (fun l => pos a (mom l psi) u)); [lra|apply seq_NoDup|apply in_seq; lia].
        * intros l _. destruct (l =? b)%nat; lra.
      + destruct (Nat.eqb_spec k b) as [->|Nb].
        * rewrite (Rsum_ext _ (fun l => if (l =? a)%nat then - pos b (mom l psi) u else 0)).
          -- rewrite (Rsum_single (fun l => - pos b (mom l psi) u)); [lra|apply seq_NoDup|apply in_seq; lia].
          -- intros l _. destruct (l =? a)%nat; lra.
        * rewrite Rsum_0; [lra|]. intros; lra.
  Qed.

  Lemma mean_l2_value : mean_l2 n v a b = 2 * (h a * h b) - / 2.
  Proof.
    unfold mean_l2.
    rewrite (turn_ext a b _ (angular n w1 zt 0 (ket n v))) by (intros; symmetry; apply turn_angular).
    rewrite <- turn_angular.
    rewrite (angular_value n w1 zt v zt_anti (fun _ _ => Rlt_0_1) 0). cbv beta.
    rewrite Ropp_involutive.
    set (c := 2 * (h a * h b) - / 2).
    set (hi := Nat.max a b). set (lo := Nat.min a b).
    rewrite (Rsum_ext _ (fun k => if (k =? hi)%nat then c else 0)).
    - rewrite (Rsum_single (fun _ => c)); [reflexivity|apply seq_NoDup|apply in_seq; lia].
    - intros k _.
      destruct (Nat.eqb_spec k hi) as [->|Ne].
      + rewrite (Rsum_ext _ (fun l => if (l =? lo)%nat then c else 0)).
        * rewrite (Rsum_single (fun _ => c)); [reflexivity|apply seq_NoDup|apply in_seq; lia].
        * intros l _. unfold zt, w1, c, h, hi, lo.
          destruct (Nat.max_spec a b) as [[L M]|[L M]]; rewrite M;
          destruct (Nat.min_spec a b) as [[L' M']|[L' M']]; rewrite M'; try lia;
          destruct (Nat.eqb_spec a b); try congruence; destruct (Nat.eqb_spec b a); try congruence;
          rewrite ?Nat.eqb_refl;
          destruct (Nat.eqb_spec l a), (Nat.eqb_spec l b); subst; try congruence;
          repeat match goal with |- context [(?x <? ?y)%nat] => destruct (Nat.ltb_spec x y); try lia end; try lra.
      + apply Rsum_0. intros l _. unfold zt, hi in *.
        destruct (Nat.ltb_spec l k); [|reflexivity].
        destruct (Nat.eqb_spec k a), (Nat.eqb_spec l b), (Nat.eqb_spec k b), (Nat.eqb_spec l a); subst; try lia; lra.
  Qed.
End MeanL2.

(** ** the specification *)

(** the force field of a symmetric top or linear molecule: the modes are numbered from 0 and
    come singly or in pairs, nothing is resonant, and the axis of symmetry has index 2 *)
Record top_field (n : nat) (modes : list mode) (w : nat -> R) (f3 : nat -> nat -> nat -> R)
  (f4 : nat -> nat -> nat -> nat -> R) (zeta : nat -> nat -> nat -> R) (B : nat -> R)
  (r : rotor) (wila : nat -> nat -> R) : Prop := {
  tf_modes : Permutation (flat_map members modes) (seq 0 n);
  tf_single : forall i j k, ~ In (I3 i j k) modes;
  tf_sorted : StronglySorted lt (firsts modes);
  tf_w : forall i, (i < n)%nat -> 0 < w i;
  tf_apart : forall i j m, (i < n)%nat -> (j < n)%nat -> (m < n)%nat -> w i + w j - w m <> 0;
  tf_f3a : forall i j k, f3 i j k = f3 j i k;
  tf_f3b : forall i j k, f3 i j k = f3 i k j;
  tf_f4a : forall i j k l, f4 i j k l = f4 j i k l;
  tf_f4b : forall i j k l, f4 i j k l = f4 i k j l;
  tf_f4c : forall i j k l, f4 i j k l = f4 i j l k;
  tf_zeta : forall i j a, zeta i j a = - zeta j i a;
  tf_axial : exists ax, cor_axis r (degs modes) wila ax /\
    axial (nondeg modes) (degs modes) w f3 f4 zeta B ax
}.

(** what the constant of the program lacks: see C72 *)
Definition e0_gap (r : rotor) (modes : list mode) (w : nat -> R) f3 : R :=
  if is_linear r then
    Rsum (firsts modes) (se_ddn w f3 none (nondeg modes) (firsts modes)) + se_ddd w f3 none (firsts modes)
    - se_dd w f3 none (firsts modes)
  else lost modes w f3.

(** states in which two different pairs are both polarised along one of their two modes are
    not states of definite l *)
Definition polar_part (xa : nat -> nat -> R) (ts : list (nat * nat)) (v : occ) : R :=
  / 2 * Rsum ts (fun p => Rsum ts (fun q => if (fst p =? fst q)%nat then 0 else
    (xa (fst p) (fst q) - xa (fst p) (snd q)) / 2 *
    ((INR (v (fst p)) - INR (v (snd p))) * (INR (v (fst q)) - INR (v (snd q)))))).

(** the terms of the g constants in the term formula, for the quantum numbers l *)
Definition l_part (g : nat -> nat -> R) (ts : list (nat * nat)) (l : nat -> nat) : R :=
  Rsum (seq 0 (length ts)) (fun i => Rsum (seq 0 (i + 1)) (fun j =>
    g (fst (nth i ts (0, 0)%nat)) (fst (nth j ts (0, 0)%nat)) * (INR (l i) * INR (l j)))).

(** ** from the constants of an asymmetric top *)
Lemma modes_part modes : (forall i j k, ~ In (I3 i j k) modes) ->
  Permutation (nondeg modes ++ flat_map (fun '(a, b) => [a; b]) (degs modes)) (flat_map members modes).
Proof.
  unfold nondeg, degs. induction modes as [|m modes IH]; intros H; [constructor|].
  assert (H' : forall i j k, ~ In (I3 i j k) modes) by (intros i j k I; apply (H i j k); now right).
  specialize (IH H'). destruct m as [i|i j|i j k]; cbn [flat_map get1 get2 members app].
  - now constructor.
  - rewrite <- IH. rewrite !Permutation_app_comm with (l := flat_map get1 modes).
    cbn [app]. do 2 constructor. now rewrite Permutation_app_comm.
  - exfalso. apply (H i j k). now left.
Qed.

Lemma none_flags : reported [] [] none /\ asym_lists [] [].
Proof.
  split; [exact none_reported|]. split; cbn; tauto.
Qed.

Lemma e0_excess_none n w f3 : e0_excess n w f3 none = 0.
Proof.
  unfold e0_excess, none.
  rewrite !Rsum_0; [lra| |].
  - intros k _. apply Rsum_0. intros l _. apply Rsum_0. reflexivity.
  - intros k _. apply Rsum_0. intros l _. now destruct (l =? k)%nat.
Qed.

Lemma Rsum_nth_seq {A} (d : A) (l : list A) (h : A -> R) :
  Rsum (seq 0 (length l)) (fun i => h (nth i l d)) = Rsum l h.
Proof. rewrite <- (Rsum_map (fun i => nth i l d) h), map_nth_seq. reflexivity. Qed.

Section Constants.
  Variables (n : nat) (modes : list mode) (w : nat -> R) (f3 : nat -> nat -> nat -> R)
    (f4 : nat -> nat -> nat -> nat -> R) (zeta : nat -> nat -> nat -> R) (B : nat -> R)
    (r : rotor) (wila : nat -> nat -> R).
  Variables (x g : nat -> nat -> R) (e0 : R).
  Hypothesis TF : top_field n modes w f3 f4 zeta B r wila.
  Hypothesis EX : xcals f4 w f3 zeta B r [] [] modes wila = Some (x, g, e0).
  Let ns := nondeg modes.
  Let ts := degs modes.
  Let xa := xcalc n f4 w f3 zeta B [] [].
  Let ea := make_e0 f4 w f3 (make_fermi_checks [] []) (singles n).

  Lemma Hpart : Permutation (ns ++ flat_map (fun '(a, b) => [a; b]) ts) (seq 0 n).
  Proof. rewrite <- (tf_modes _ _ _ _ _ _ _ _ _ TF). apply modes_part, (tf_single _ _ _ _ _ _ _ _ _ TF). Qed.

  Lemma xa_same k : (k < n)%nat -> xa k k = spec_xkk n f4 w f3 none k.
  Proof.
    intros Hk. destruct none_flags as [Hr Ha].
    apply (xcalc_exact_lemma n f4 w f3 zeta B [] [] none Hr Ha (tf_w _ _ _ _ _ _ _ _ _ TF)
      (fun i j m Hi Hj Hm _ => tf_apart _ _ _ _ _ _ _ _ _ TF i j m Hi Hj Hm)). exact Hk.
  Qed.
  Lemma xa_diff k l : (k < n)%nat -> (l < n)%nat -> k <> l -> xa k l = spec_xkl n f4 w f3 zeta B none k l.
  Proof.
    intros Hk Hl Ne. destruct none_flags as [Hr Ha].
    assert (Hd : forall i j m, (i < n)%nat -> (j < n)%nat -> (m < n)%nat -> none i j m = false -> w i + w j - w m <> 0).
    { intros i j m Hi Hj Hm _. now apply (tf_apart _ _ _ _ _ _ _ _ _ TF). }
    destruct (xcalc_exact_lemma n f4 w f3 zeta B [] [] none Hr Ha (tf_w _ _ _ _ _ _ _ _ _ TF) Hd) as [_ X2].
    destruct (Nat.lt_ge_cases l k).
    - destruct (X2 k l) as [E _]; [lia|lia|]. exact E.
    - destruct (X2 l k) as [E _]; [lia|lia|]. unfold xa. rewrite xcalc_sym_lemma, E.
      destruct (tf_axial _ _ _ _ _ _ _ _ _ TF) as (ax & _ & Ax).
      apply (X_sym n w f3 f4 zeta B); apply TF.
  Qed.

  Lemma constants_lemma :
    (forall k l, In k ns -> In l ns -> x k l = xa k l) /\
    (forall k a b, In k ns -> In (a, b) ts -> x k a = xa k a /\ xa k b = xa k a) /\
    (forall a b, In (a, b) ts -> x a a = xa a a /\ xa b b = xa a a /\ g a a = xa a b / 2 - xa a a) /\
    (forall a b c d, In (a, b) ts -> In (c, d) ts -> a <> c ->
       x a c = (xa a c + xa a d) / 2 /\ xa b d = xa a c /\ xa b c = xa a d) /\
    e0 = ea + / 2 * Rsum ts (fun p => g (fst p) (fst p) - B 2%nat * Rsqr (zeta (fst p) (snd p) 2%nat))
         + e0_gap r modes w f3.
  Proof.
    destruct TF as [T1 T2 T3 T4 T5 T6 T7 T8 T9 T10 T11 (ax & T12 & T13)].
    destruct (sym_exact_lemma n modes f4 w f3 zeta B r wila x g e0 T1 T4 T5 EX)
      as (Q1 & Q2 & Q3 & Q4 & (axis & Hc & Q5) & _ & _).
    rewrite (cor_axis_unique _ _ _ _ _ Hc T12) in Q5. fold ns ts in Q1, Q2, Q3, Q4, Q5, T13.
    pose proof Hpart as HP.
    assert (Nn : forall k, In k ns -> (k < n)%nat) by (intros; now apply (ns_n n ns ts HP)).
    assert (Nt : forall a b, In (a, b) ts -> (a < n)%nat /\ (b < n)%nat) by (intros; now apply (ts_n n ns ts HP)).
    pose proof (ts_nd n ns ts HP) as Td.
    assert (Dj : forall k a b, In k ns -> In (a, b) ts -> k <> a /\ k <> b).
    { intros k a b Hk Hab. pose proof (NoDup_app_inv _ _ (part_nd n ns ts HP)) as (_ & _ & Dj).
      split; intros ->; apply (Dj _ Hk); apply in_flat_map; exists (a, b) + exists (a, b); cbn; auto. }
    assert (Xs : forall k l, spec_xkl n f4 w f3 zeta B none k l = spec_xkl n f4 w f3 zeta B none l k)
      by (intros; now apply (X_sym n w f3 f4 zeta B)).
    assert (XND : forall k p, In k ns -> In p ts -> spec_xkl n f4 w f3 zeta B none k (fst p) = sx_nd f4 w f3 zeta B none ns ts k (fst p)
      /\ spec_xkl n f4 w f3 zeta B none k (snd p) = spec_xkl n f4 w f3 zeta B none k (fst p))
      by (intros; now apply (x_nd n ns ts w f3 f4 zeta B ax)).
    assert (XDD1 : forall p, In p ts -> spec_xkk n f4 w f3 none (fst p) = sx_dd1 f4 w f3 none ns ts (fst p)
      /\ spec_xkk n f4 w f3 none (snd p) = spec_xkk n f4 w f3 none (fst p))
      by (intros; now apply (x_dd1 n ns ts w f3 f4 zeta B ax)).
    assert (GDD1 : forall p, In p ts -> spec_xkl n f4 w f3 zeta B none (fst p) (snd p)
      = 2 * (sg_dd1 f4 w f3 zeta B none ns ts (fst p) (snd p) + spec_xkk n f4 w f3 none (fst p)))
      by (intros; now apply (g_dd1 n ns ts w f3 f4 zeta B ax)).
    assert (XDD : forall p q, In p ts -> In q ts ->
      spec_xkl n f4 w f3 zeta B none (fst p) (fst q) + spec_xkl n f4 w f3 zeta B none (fst p) (snd q)
        = 2 * sx_dd f4 w f3 zeta B none ns ts ax (fst p) (fst q) (snd q) /\
      spec_xkl n f4 w f3 zeta B none (snd p) (snd q) = spec_xkl n f4 w f3 zeta B none (fst p) (fst q) /\
      spec_xkl n f4 w f3 zeta B none (snd p) (fst q) = spec_xkl n f4 w f3 zeta B none (fst p) (snd q))
      by (intros; now apply (x_dd n ns ts w f3 f4 zeta B ax)).
    assert (C1 : forall k l, In k ns -> In l ns -> x k l = xa k l).
    { intros k l Hk Hl. destruct (Nat.eq_dec k l) as [<-|Ne].
      - rewrite xa_same, (Q1 k Hk) by auto. symmetry.
        now apply (x_nn1 n ns ts w f3 f4 zeta B ax).
      - rewrite xa_diff by auto. pose proof (In_nth_error _ _ Hk) as [p Ep]. pose proof (In_nth_error _ _ Hl) as [q Eq].
        destruct (Nat.lt_trichotomy p q) as [Lt|[->|Lt]].
        + destruct (Q2 q p l k Lt Eq Ep) as [A1 A2]. rewrite A2, A1, Xs. symmetry.
          now apply (x_nn n ns ts w f3 f4 zeta B ax).
        + congruence.
        + destruct (Q2 p q k l Lt Ep Eq) as [A1 _]. rewrite A1. symmetry.
          now apply (x_nn n ns ts w f3 f4 zeta B ax). }
    assert (C2 : forall k a b, In k ns -> In (a, b) ts -> x k a = xa k a /\ xa k b = xa k a).
    { intros k a b Hk Hab. destruct (Dj k a b Hk Hab). destruct (Nt a b Hab).
      rewrite !xa_diff by auto.
      destruct (Q3 k a b Hk Hab) as (A1 & _). cbv zeta in A1. rewrite A1.
      destruct (XND k (a, b) Hk Hab) as [X1 X2].
      cbn [fst snd] in X1, X2. rewrite X2, X1. auto. }
    assert (C3 : forall a b, In (a, b) ts -> x a a = xa a a /\ xa b b = xa a a /\ g a a = xa a b / 2 - xa a a).
    { intros a b Hab. destruct (Nt a b Hab).
      assert (a <> b) by exact (proj1 (pair_facts ts (a, b) (a, b) Td Hab Hab)).
      rewrite !xa_same, xa_diff by auto.
      destruct (Q4 a b Hab) as (A1 & _ & A3 & _). rewrite A1, A3.
      destruct (XDD1 (a, b) Hab) as [X1 X2].
      pose proof (GDD1 (a, b) Hab) as X3.
      cbn [fst snd] in X1, X2, X3. rewrite X2, X3, <- X1. repeat split; lra. }
    refine (conj C1 (conj C2 (conj C3 (conj _ _)))).
    - intros a b c d Hab Hcd Ne. destruct (Nt a b Hab), (Nt c d Hcd).
      assert (a <> d) by exact (proj1 (pair_facts ts (a, b) (c, d) Td Hab Hcd)).
      assert (c <> b) by exact (proj1 (pair_facts ts (c, d) (a, b) Td Hcd Hab)).
      assert (b <> d) by (intros E; injection (proj2 (pair_facts ts (a, b) (c, d) Td Hab Hcd) E); auto).
      rewrite !xa_diff by auto.
      destruct (XDD (a, b) (c, d) Hab Hcd) as (X1 & X2 & X3).
      cbn [fst snd] in X1, X2, X3. split; [|split; assumption].
      pose proof (In_nth_error _ _ Hab) as [p Ep]. pose proof (In_nth_error _ _ Hcd) as [q Eq].
      destruct (Nat.lt_trichotomy p q) as [Lt|[->|Lt]].
      + destruct (Q5 q p c d a b Lt Eq Ep) as (_ & A2 & _). cbv zeta in A2. rewrite A2.
        destruct (XDD (c, d) (a, b) Hcd Hab) as (Y1 & Y2 & Y3).
        cbn [fst snd] in Y1, Y2, Y3. rewrite (Xs c a), (Xs c b), X3 in Y1. lra.
      + congruence.
      + destruct (Q5 p q a b c d Lt Ep Eq) as (A1 & _). cbv zeta in A1. rewrite A1. lra.
    - rewrite (sym_e0_lemma n modes f4 w f3 T1 T4 T5 zeta B r wila x g e0 T3 EX).
      assert (EL : spec_sym_e0 f4 w f3 none ns (map fst ts) = spec_e0 n f4 w f3 none
        + / 2 * Rsum ts (fun p => sg_dd1 f4 w f3 zeta B none ns ts (fst p) (snd p)
            - B 2%nat * Rsqr (zeta (fst p) (snd p) 2%nat)))
        by (now apply (e0_lemma n ns ts w f3 f4 zeta B ax)).
      change (map fst ts) with (firsts modes) in EL. fold ns.
      assert (EA : ea = spec_e0 n f4 w f3 none).
      { destruct none_flags as [Hr Ha]. unfold ea.
        rewrite (e0_reported_lemma n f4 w f3 [] [] none Hr Ha); [|intros ? ? ? []|exact T4|intros; now apply T5].
        rewrite (e0_excess_none n w f3). lra. }
      rewrite (Rsum_ext (fun p => g (fst p) (fst p) - _)
        (fun p => sg_dd1 f4 w f3 zeta B none ns ts (fst p) (snd p) - B 2%nat * Rsqr (zeta (fst p) (snd p) 2%nat))).
      2:{ intros [a b] Hab. cbn [fst snd]. destruct (Q4 a b Hab) as (_ & _ & A3 & _). now rewrite A3. }
      rewrite EA. unfold e0_gap. destruct (is_linear r).
      + fold ns. unfold spec_sym_e0 in EL. lra.
      + rewrite EL. lra.
  Qed.

  (** ** the levels *)
  Lemma levels_lemma v v1 v2 us :
    intermediate n f3 v us ->
    (forall i k, nth_error ns i = Some k -> v1 i = v k) ->
    (forall i a b, nth_error ts i = Some (a, b) -> fst (v2 i) = (v a + v b)%nat) ->
    level w modes x (Some g) e0 v1 v2 = Some (
      perturbed n w f3 f4 zeta B none v us + angular_shift n zeta B
      - / 2 * Rsum ts (fun p => B 2%nat * Rsqr (zeta (fst p) (snd p) 2%nat))
      + e0_gap r modes w f3
      + (l_part g ts (fun i => snd (v2 i)) - Rsum ts (fun p => g (fst p) (fst p) * mean_l2 n v (fst p) (snd p)))
      - polar_part xa ts v).
  Proof.
    intros Hus V1 V2. destruct constants_lemma as (C1 & C2 & C3 & C4 & C5).
    pose proof TF as [T1 T2 T3 T4 T5 T6 T7 T8 T9 T10 T11 (ax & T12 & T13)]. fold ns ts in T13.
    pose proof Hpart as HP.
    rewrite level_R by (left; discriminate). f_equal. unfold spec_level. cbn [gval].
    rewrite n1dm_eq, n2dm_eq, i1mode_eq, i2mode_eq.
    change (flat_map get1 modes) with ns. change (flat_map get2 modes) with ts.
    unfold m1, m2. rewrite i1mode_eq, i2mode_eq.
    change (flat_map get1 modes) with ns. change (flat_map get2 modes) with ts.
    set (h := fun i => INR (v i) + / 2). set (H := fun p : nat * nat => h (fst p) + h (snd p)).
    set (dd := (0, 0)%nat).
    assert (V1' : forall i, In i (seq 0 (length ns)) -> INR (v1 i) + / 2 = h (nth i ns 0%nat)).
    { intros i Hi. apply in_seq in Hi. unfold h. f_equal. f_equal. apply V1. now apply nth_error_nth'. }
    assert (V2' : forall i, In i (seq 0 (length ts)) -> INR (fst (v2 i)) + 1 = H (nth i ts dd)).
    { intros i Hi. apply in_seq in Hi. unfold H, h.
      rewrite (V2 i (fst (nth i ts dd)) (snd (nth i ts dd))), plus_INR; [lra|].
      rewrite <- surjective_pairing. apply nth_error_nth'. lia. }
    assert (In1 : forall i, In i (seq 0 (length ns)) -> In (nth i ns 0%nat) ns)
      by (intros i Hi; apply in_seq in Hi; apply nth_In; lia).
    assert (In2 : forall i, In i (seq 0 (length ts)) -> In (nth i ts dd) ts)
      by (intros i Hi; apply in_seq in Hi; apply nth_In; lia).
    assert (Sub : forall i j m, In i (seq 0 m) -> In j (seq 0 (i + 1)) -> In j (seq 0 m))
      by (intros i j m Hi Hj; apply in_seq in Hi, Hj; apply in_seq; lia).
    set (Kn := fun k l => xa k l * (h k * h l)).
    set (Kd := fun p q : nat * nat =>
      (if (fst q =? fst p)%nat then xa (fst p) (fst p) else (xa (fst p) (fst q) + xa (fst p) (snd q)) / 2) * (H p * H q)).
    assert (Ks : forall p q, In p ts -> In q ts -> x (fst p) (fst q) * (H p * H q) = Kd p q).
    { intros [a b] [c d] Hp Hq. unfold Kd. cbn [fst snd]. destruct (Nat.eqb_spec c a) as [->|Ne].
      - destruct (C3 a b Hp) as [-> _]. reflexivity.
      - destruct (C4 a b c d Hp Hq) as [-> _]; [congruence|]. reflexivity. }
    rewrite (Rsum_ext (fun i => w (nth i ns 0%nat) * _) (fun i => w (nth i ns 0%nat) * h (nth i ns 0%nat)))
      by (intros i Hi; now rewrite V1').
    rewrite (Rsum_ext (fun i => w (fst (nth i ts dd)) * _) (fun i => w (fst (nth i ts dd)) * H (nth i ts dd)))
      by (intros i Hi; now rewrite V2').
    rewrite (Rsum_ext (fun i => Rsum (seq 0 (i + 1)) (fun j => x (nth i ns 0%nat) (nth j ns 0%nat) * _))
      (fun i => Rsum (seq 0 (i + 1)) (fun j => Kn (nth i ns 0%nat) (nth j ns 0%nat)))).
    2:{ intros i Hi. apply Rsum_ext. intros j Hj. rewrite !V1' by eauto. unfold Kn.
        rewrite C1 by eauto. reflexivity. }
    rewrite (Rsum_ext (fun i => Rsum (seq 0 (length ts)) (fun j => x (nth i ns 0%nat) (fst (nth j ts dd)) * _))
      (fun i => Rsum (seq 0 (length ts)) (fun j =>
        xa (nth i ns 0%nat) (fst (nth j ts dd)) * (h (nth i ns 0%nat) * H (nth j ts dd))))).
    2:{ intros i Hi. apply Rsum_ext. intros j Hj. rewrite V1', V2' by eauto.
        pose proof (In2 j Hj) as I2. destruct (nth j ts dd) as [a b]. cbn [fst].
        destruct (C2 (nth i ns 0%nat) a b (In1 i Hi) I2) as [-> _]. reflexivity. }
    rewrite (Rsum_ext (fun i => Rsum (seq 0 (i + 1)) (fun j => x (fst (nth i ts dd)) (fst (nth j ts dd)) * _))
      (fun i => Rsum (seq 0 (i + 1)) (fun j => Kd (nth i ts dd) (nth j ts dd)))).
    2:{ intros i Hi. apply Rsum_ext. intros j Hj. rewrite !V2' by eauto. apply Ks; eauto. }
    assert (Xs : forall a b, xa a b = xa b a) by (intros; apply xcalc_sym_lemma).
    rewrite (tri_list 0%nat Kn ns) by (intros a b _ _; unfold Kn; rewrite Xs; ring).
    rewrite (tri_list dd Kd ts).
    2:{ intros [a b] [c d] Hp Hq. unfold Kd. cbn [fst snd]. rewrite (Nat.eqb_sym a c).
        destruct (Nat.eqb_spec c a) as [->|Ne]; [ring|].
        destruct (C4 a b c d Hp Hq) as (_ & _ & E); [congruence|].
        rewrite (Xs c a), (Xs c b), E. ring. }
    rewrite (Rsum_nth_seq 0%nat ns (fun k => w k * h k)).
    rewrite (Rsum_nth_seq dd ts (fun p => w (fst p) * H p)).
    rewrite (Rsum_ext (fun i => Rsum (seq 0 (length ts)) _)
      (fun i => Rsum ts (fun q => xa (nth i ns 0%nat) (fst q) * (h (nth i ns 0%nat) * H q)))).
    2:{ intros i _. apply (Rsum_nth_seq dd ts (fun q => xa (nth i ns 0%nat) (fst q) * (h (nth i ns 0%nat) * H q))). }
    rewrite (Rsum_nth_seq 0%nat ns (fun k => Rsum ts (fun q => xa k (fst q) * (h k * H q)))).
    pose proof (constants_sum n w f3 f4 zeta B none v T6 T7 T8 T9 T10 T11 (fun _ _ _ => eq_refl)
      ltac:(discriminate) T4 (fun i j m Hi Hj Hm _ => T5 i j m Hi Hj Hm) us Hus) as CS. cbv beta in CS.
    assert (Nn : forall k, In k ns -> (k < n)%nat) by (intros; now apply (ns_n n ns ts HP)).
    assert (Nt : forall a b, In (a, b) ts -> (a < n)%nat /\ (b < n)%nat) by (intros; now apply (ts_n n ns ts HP)).
    pose proof (ts_nd n ns ts HP) as Td.
    assert (Dj : forall k a b, In k ns -> In (a, b) ts -> k <> a /\ k <> b).
    { intros k a b Hk Hab. pose proof (NoDup_app_inv _ _ (part_nd n ns ts HP)) as (_ & _ & Dj).
      split; intros ->; apply (Dj _ Hk); apply in_flat_map; exists (a, b); cbn; auto. }
    assert (LS : Rsum (seq 0 n) (fun k => spec_xkk n f4 w f3 none k * (h k * h k))
      + Rsum (seq 0 n) (fun k => Rsum (seq 0 k) (fun l => spec_xkl n f4 w f3 zeta B none k l * (h k * h l)))
      = / 2 * (Rsum ns (fun k => Rsum ns (Kn k)) + Rsum ns (fun k => Kn k k))
        + Rsum ns (fun k => Rsum ts (fun q => xa k (fst q) * (h k * H q)))
        + / 2 * (Rsum ts (fun p => Rsum ts (Kd p)) + Rsum ts (fun p => Kd p p))
        + Rsum ts (fun p => 2 * g (fst p) (fst p) * (h (fst p) * h (snd p)))
        + polar_part xa ts v).
    { etransitivity; [apply (level_sum n ns ts w f3 f4 zeta B ax HP T13 T6 T7 T8 T9 T10 T11 T4 h)|].
      assert (KN : forall k l, In k ns -> In l ns ->
        (if (l =? k)%nat then spec_xkk n f4 w f3 none k else spec_xkl n f4 w f3 zeta B none k l) * (h k * h l) = Kn k l).
      { intros k l Hk Hl. unfold Kn. f_equal. destruct (Nat.eqb_spec l k) as [->|Ne].
        - symmetry. now apply xa_same, Nn.
        - symmetry. apply xa_diff; auto. }
      assert (KD : forall p q, In p ts -> In q ts ->
        (if (fst q =? fst p)%nat then spec_xkk n f4 w f3 none (fst p) else
          (spec_xkl n f4 w f3 zeta B none (fst p) (fst q) + spec_xkl n f4 w f3 zeta B none (fst p) (snd q)) / 2)
        * ((h (fst p) + h (snd p)) * (h (fst q) + h (snd q))) = Kd p q).
      { intros [a b] [c d] Hp Hq. unfold Kd. cbn [fst snd]. unfold H. cbn [fst snd]. f_equal.
        destruct (Nt a b Hp), (Nt c d Hq).
        destruct (Nat.eqb_spec c a) as [->|Ne].
        - symmetry. now apply xa_same.
        - rewrite !xa_diff; auto. exact (proj1 (pair_facts ts (a, b) (c, d) Td Hp Hq)). }
      repeat match goal with |- Rplus _ _ = Rplus _ _ => apply f_equal2 end.
      - apply f_equal, f_equal2.
        + apply Rsum_ext. intros k Hk. apply Rsum_ext. intros l Hl. now apply KN.
        + apply Rsum_ext. intros k Hk. now apply (KN k k).
      - apply Rsum_ext. intros k Hk. apply Rsum_ext. intros [a b] Hq. cbn [fst snd].
        destruct (Nt a b Hq), (Dj k a b Hk Hq). rewrite xa_diff by auto. reflexivity.
      - apply f_equal, f_equal2.
        + apply Rsum_ext. intros k Hk. apply Rsum_ext. intros l Hl. now apply KD.
        + apply Rsum_ext. intros k Hk. now apply (KD k k).
      - apply Rsum_ext. intros [a b] Hp. cbn [fst snd]. f_equal. f_equal.
        destruct (sym_exact_lemma n modes f4 w f3 zeta B r wila x g e0 T1 T4 T5 EX) as (_ & _ & _ & Q4 & _).
        destruct (Q4 a b Hp) as (_ & _ & A3 & _). now rewrite A3.
      - unfold polar_part. apply f_equal, Rsum_ext. intros [a b] Hp. apply Rsum_ext. intros [c d] Hq. cbn [fst snd].
        destruct (Nt a b Hp), (Nt c d Hq).
        destruct (Nat.eqb_spec a c) as [->|Ne]; [reflexivity|].
        rewrite !xa_diff; auto; [|exact (proj1 (pair_facts ts (a, b) (c, d) Td Hp Hq))].
        unfold h. f_equal. ring. }
    assert (WS : Rsum (seq 0 n) (fun k => w k * h k) = Rsum ns (fun k => w k * h k) + Rsum ts (fun p => w (fst p) * H p)).
    { rewrite (S_split n ns ts HP), Rplus_assoc. f_equal. rewrite <- Rsum_plus. apply Rsum_ext.
      intros [a b] Hp. cbn [fst snd]. rewrite <- (axial_w _ _ _ _ _ _ _ _ T13 a b Hp). unfold H. cbn [fst snd]. ring. }
    assert (GS : Rsum ts (fun p => 2 * g (fst p) (fst p) * (h (fst p) * h (snd p)))
      = Rsum ts (fun p => g (fst p) (fst p) * mean_l2 n v (fst p) (snd p)) + / 2 * Rsum ts (fun p => g (fst p) (fst p))).
    { rewrite <- Rsum_scal, <- Rsum_plus. apply Rsum_ext. intros [a b] Hp. cbn [fst snd].
      destruct (Nt a b Hp). rewrite mean_l2_value; auto; [unfold h; ring|].
      exact (proj1 (pair_facts ts (a, b) (a, b) Td Hp Hp)). }
    assert (EA : ea = spec_e0 n f4 w f3 none).
    { destruct none_flags as [Hr Ha]. unfold ea.
      rewrite (e0_reported_lemma n f4 w f3 [] [] none Hr Ha); [|intros ? ? ? []|exact T4|intros; now apply T5].
      rewrite (e0_excess_none n w f3). lra. }
    assert (CS' : Rsum (seq 0 n) (fun k => w k * h k)
      + (Rsum (seq 0 n) (fun k => spec_xkk n f4 w f3 none k * (h k * h k))
        + Rsum (seq 0 n) (fun k => Rsum (seq 0 k) (fun l => spec_xkl n f4 w f3 zeta B none k l * (h k * h l))))
      + spec_e0 n f4 w f3 none
      = perturbed n w f3 f4 zeta B none v us + angular_shift n zeta B) by exact CS.
    rewrite WS, LS, GS in CS'. rewrite Rsum_minus, EA in C5. rewrite C5. unfold l_part. fold dd. lra.
  Qed.

  (** states in which at most one pair is excited, by one quantum or by one quantum in each
      of its modes *)
  Definition definite (v : occ) (l : nat -> nat) : Prop :=
    (forall i a b, nth_error ts i = Some (a, b) ->
       (v a = 0%nat /\ v b = 0%nat /\ l i = 0%nat) \/ (v a = 1%nat /\ v b = 0%nat /\ l i = 1%nat)
       \/ (v a = 0%nat /\ v b = 1%nat /\ l i = 1%nat) \/ (v a = 1%nat /\ v b = 1%nat /\ l i = 2%nat)) /\
    (forall i j, (i < length ts)%nat -> (j < length ts)%nat -> l i <> 0%nat -> l j <> 0%nat -> i = j).

  Lemma definite_polar v l : definite v l -> polar_part xa ts v = 0.
  Proof.
    intros [D1 D2]. unfold polar_part. rewrite Rsum_0; [lra|]. intros [a b] Hp. apply Rsum_0. intros [c d] Hq.
    cbn [fst snd]. destruct (Nat.eqb_spec a c) as [|Ne]; [reflexivity|].
    apply In_nth_error in Hp as [i Hi], Hq as [j Hj].
    assert (Li : (i < length ts)%nat) by (apply nth_error_Some; congruence).
    assert (Lj : (j < length ts)%nat) by (apply nth_error_Some; congruence).
    assert (Nij : i <> j) by (intros ->; congruence).
    destruct (D1 i a b Hi) as [(-> & -> & E)|[(-> & -> & E)|[(-> & -> & E)|(-> & -> & E)]]];
    destruct (D1 j c d Hj) as [(-> & -> & E')|[(-> & -> & E')|[(-> & -> & E')|(-> & -> & E')]]];
      try (exfalso; apply Nij, D2; [assumption|assumption|congruence|congruence]); cbn [INR]; lra.
  Qed.

  Lemma definite_l v l : definite v l ->
    l_part g ts l = Rsum ts (fun p => g (fst p) (fst p) * mean_l2 n v (fst p) (snd p)).
  Proof.
    intros [D1 D2]. unfold l_part.
    rewrite <- (Rsum_nth_seq (0, 0)%nat ts (fun p => g (fst p) (fst p) * mean_l2 n v (fst p) (snd p))).
    apply Rsum_ext. intros i Hi. apply in_seq in Hi.
    rewrite (Rsum_ext _ (fun j => if (j =? i)%nat then
      g (fst (nth j ts (0, 0)%nat)) (fst (nth j ts (0, 0)%nat)) * (INR (l j) * INR (l j)) else 0)).
    - rewrite (Rsum_single (fun j => g (fst (nth j ts (0, 0)%nat)) (fst (nth j ts (0, 0)%nat)) * (INR (l j) * INR (l j))));
        [|apply seq_NoDup|apply in_seq; lia].
      f_equal. assert (E : nth_error ts i = Some (nth i ts (0, 0)%nat)) by (apply nth_error_nth'; lia).
      destruct (nth i ts (0, 0)%nat) as [a b]. cbn [fst snd].
      pose proof (nth_error_In _ _ E) as Hab. destruct (ts_n n ns ts Hpart a b Hab) as [Ha Hb].
      pose proof (proj1 (pair_facts ts (a, b) (a, b) (ts_nd n ns ts Hpart) Hab Hab)) as Ne.
      rewrite mean_l2_value by auto.
      destruct (D1 i a b E) as [(-> & -> & ->)|[(-> & -> & ->)|[(-> & -> & ->)|(-> & -> & ->)]]]; cbn [INR]; lra.
    - intros j Hj. apply in_seq in Hj. destruct (Nat.eqb_spec j i) as [->|Ne]; [reflexivity|].
      destruct (Nat.eq_dec (l i) 0) as [->|Ni]; [cbn [INR]; lra|].
      destruct (Nat.eq_dec (l j) 0) as [->|Nj]; [cbn [INR]; lra|].
      exfalso. apply Ne, D2; auto; lia.
  Qed.

  Lemma levels_small_lemma v v1 v2 us :
    is_linear r = false -> (length ts <= 2)%nat ->
    intermediate n f3 v us -> definite v (fun i => snd (v2 i)) ->
    (forall i k, nth_error ns i = Some k -> v1 i = v k) ->
    (forall i a b, nth_error ts i = Some (a, b) -> fst (v2 i) = (v a + v b)%nat) ->
    level w modes x (Some g) e0 v1 v2 = Some (
      perturbed n w f3 f4 zeta B none v us + angular_shift n zeta B
      - / 2 * Rsum ts (fun p => B 2%nat * Rsqr (zeta (fst p) (snd p) 2%nat))).
  Proof.
    intros Li Ln Hus Df V1 V2. rewrite (levels_lemma v v1 v2 us Hus V1 V2). f_equal.
    rewrite (definite_l v _ Df), (definite_polar v _ Df). unfold e0_gap. rewrite Li.
    pose proof TF as [T1 T2 T3 T4 T5 _ _ _ _ _ _ _].
    rewrite (lost_small n modes f4 w f3 T4 T5 T3); [lra|]. unfold firsts. now rewrite map_length.
  Qed.
End Constants.

(** ** an example: one nondegenerate and one pair of degenerate modes *)
Definition tmodes : list mode := [I1 0; I2 1 2]%nat.
Definition tw (i : nat) : R := match i with 0%nat => 10 | _ => 7 end.
Definition ones (l : list nat) : nat := count_occ Nat.eq_dec l 1%nat.
Definition twos (l : list nat) : nat := count_occ Nat.eq_dec l 2%nat.
Definition tf3 (i j k : nat) : R :=
  match ones [i; j; k], twos [i; j; k] with
  | 0%nat, 0%nat => 1 | 2%nat, 0%nat | 0%nat, 2%nat => 2 | 3%nat, 0%nat => 3 | 1%nat, 2%nat => -3 | _, _ => 0
  end.
Definition tf4 (i j k l : nat) : R :=
  match ones [i; j; k; l], twos [i; j; k; l] with
  | 0%nat, 0%nat => 5 | 2%nat, 0%nat | 0%nat, 2%nat => 7 | 4%nat, 0%nat | 0%nat, 4%nat => 9 | 2%nat, 2%nat => 3 | _, _ => 0
  end.
Definition tzeta (i j a : nat) : R :=
  match i, j, a with
  | 1%nat, 2%nat, 2%nat => 3 / 10 | 2%nat, 1%nat, 2%nat => - (3 / 10)
  | 0%nat, 1%nat, 0%nat => / 2 | 1%nat, 0%nat, 0%nat => - / 2
  | 0%nat, 2%nat, 1%nat => / 2 | 2%nat, 0%nat, 1%nat => - / 2
  | _, _, _ => 0
  end.
Definition tB (a : nat) : R := match a with 2%nat => 4 | _ => 6 end.

Lemma perm_ones l l' : Permutation l l' -> ones l = ones l' /\ twos l = twos l'.
Proof. intros P. unfold ones, twos. split; now apply Permutation_count_occ. Qed.

Lemma tw_apart : forall i j m, (i < 3)%nat -> (j < 3)%nat -> (m < 3)%nat -> tw i + tw j - tw m <> 0.
Proof. intros [|[|[|i]]] [|[|[|j]]] [|[|[|m]]] Hi Hj Hm; cbn; try lia; lra. Qed.

Lemma t_axial ax : (ax <= 1)%nat -> axial [0%nat] [(1, 2)%nat] tw tf3 tf4 tzeta tB ax.
Proof.
  intros Hx.
  split; intros;
    repeat match goal with
      | H : In _ [_] |- _ => destruct H as [H|[]]; try (injection H as <- <-); try subst end;
    try exact Hx; cbn; unfold Rsqr; try (destruct ax as [|[|]]; [| |lia]; cbn; unfold Rsqr); repeat split; lra.
Qed.

Lemma t_field wila : top_field 3 tmodes tw tf3 tf4 tzeta tB OblateSymmTop wila.
Proof.
  split.
  - apply Permutation_refl.
  - intros i j k [H|[H|[]]]; discriminate.
  - repeat constructor.
  - intros [|[|[|i]]] Hi; cbn; lra || lia.
  - exact tw_apart.
  - intros i j k. unfold tf3. destruct (perm_ones [i; j; k] [j; i; k]) as [-> ->]; [constructor|reflexivity].
  - intros i j k. unfold tf3. destruct (perm_ones [i; j; k] [i; k; j]) as [-> ->]; [repeat constructor|reflexivity].
  - intros i j k l. unfold tf4. destruct (perm_ones [i; j; k; l] [j; i; k; l]) as [-> ->]; [constructor|reflexivity].
  - intros i j k l. unfold tf4. destruct (perm_ones [i; j; k; l] [i; k; j; l]) as [-> ->]; [repeat constructor|reflexivity].
  - intros i j k l. unfold tf4. destruct (perm_ones [i; j; k; l] [i; j; l; k]) as [-> ->]; [repeat constructor|reflexivity].
  - intros [|[|[|i]]] [|[|[|j]]] [|[|[|a]]]; cbn; lra.
  - exists (xcals_ixyz OblateSymmTop (degs tmodes) wila). split; [apply axis_lemma|].
    apply t_axial. unfold xcals_ixyz. repeat match goal with |- context [if ?b then _ else _] => destruct b end; lia.
Qed.

Lemma t_example :
  nondeg tmodes = [0%nat] /\ degs tmodes = [(1, 2)%nat] /\
  (forall wila, top_field 3 tmodes tw tf3 tf4 tzeta tB OblateSymmTop wila) /\
  (exists s, xcals tf4 tw tf3 tzeta tB OblateSymmTop [] [] tmodes (fun _ _ => 0) = Some s) /\
  (exists us, intermediate 3 tf3 (delta 1) us) /\
  definite tmodes (delta 1) (fun _ => 1%nat) /\
  mean_l2 3 (delta 1) 1 2 = 1 /\
  / 2 * Rsum (degs tmodes) (fun p => tB 2 * Rsqr (tzeta (fst p) (snd p) 2)) = 18 / 100.
Proof.
  refine (conj eq_refl (conj eq_refl (conj t_field (conj _ (conj _ (conj _ (conj _ _))))))).
  - eexists. reflexivity.
  - apply intermediate_states_exist_lemma; apply (t_field (fun _ _ => 0)).
  - split.
    + intros [|i] a b E; [|destruct i; discriminate]. injection E as <- <-. cbn. auto.
    + cbn. lia.
  - rewrite mean_l2_value by lia. cbn. lra.
  - cbn. unfold Rsqr. lra.
Qed.
