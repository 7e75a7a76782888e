(** Resonance polyads over the reals. *)
From Coq Require Import Reals Lra Lia List ZArith Arith Bool Sorted.
From Verif Require Import Num Loops Index Modes Anharm Polyads ListFacts LoadFacts ModesFacts StatesFacts
  ResFacts AnharmFacts EnergyFacts PolyadFacts.
Import ListNotations.
Open Scope R_scope.

(** ** matrix elements of the dimensionless coordinate between harmonic oscillator states *)
Definition ho1 (n m : nat) : R :=
  if (m =? n + 1)%nat then sqrt ((INR n + 1) / 2)
  else if (n =? m + 1)%nat then sqrt ((INR m + 1) / 2) else 0.
(** of its square *)
Definition ho2 (n m : nat) : R := Rsum (seq 0 (n + 2)) (fun k => ho1 n k * ho1 k m).

Definition apart (q q' : nat -> nat) (i d : nat) : Prop := (q i = q' i + d \/ q' i = q i + d)%nat.

Lemma ho1_apart q q' i : apart q q' i 1 -> ho1 (q i) (q' i) = sqrt ((INR (Nat.min (q i) (q' i)) + 1) / 2).
Proof.
  unfold apart, ho1. intros [E|E]; rewrite E.
  - rewrite Nat.eqb_refl, Nat.min_r by lia.
    replace (q' i =? q' i + 1 + 1)%nat with false by (symmetry; apply Nat.eqb_neq; lia). reflexivity.
  - rewrite Nat.eqb_refl, Nat.min_l by lia. reflexivity.
Qed.
Lemma Rsum_at (l : list nat) (f : nat -> R) a : NoDup l -> In a l -> (forall k, In k l -> k <> a -> f k = 0) ->
  Rsum l f = f a.
Proof.
  intros Hn Ha Hz. rewrite (Rsum_ext _ (fun k => if (k =? a)%nat then f k else 0)).
  - apply (Rsum_single f); assumption.
  - intros k Hk. destruct (Nat.eqb_spec k a); [reflexivity|]. now apply Hz.
Qed.
Lemma ho2_apart q q' i : apart q q' i 2 ->
  ho2 (q i) (q' i) = sqrt ((INR (Nat.min (q i) (q' i)) + 1) * (INR (Nat.min (q i) (q' i)) + 2) / 4).
Proof.
  intros A. unfold ho2. set (m := Nat.min (q i) (q' i)).
  assert (P : 0 <= INR m) by apply pos_INR.
  rewrite (Rsum_at _ _ (m + 1)).
  - assert (E : ho1 (q i) (m + 1) * ho1 (m + 1) (q' i) = sqrt ((INR m + 1) / 2) * sqrt ((INR m + 2) / 2)).
    { unfold ho1. destruct A as [E|E]; unfold m in *; rewrite E in *.
      - rewrite Nat.min_r by lia.
        replace (q' i + 1 =? q' i + 2 + 1)%nat with false by (symmetry; apply Nat.eqb_neq; lia).
        replace (q' i + 2 =? q' i + 1 + 1)%nat with true by (symmetry; apply Nat.eqb_eq; lia).
        replace (q' i =? q' i + 1 + 1)%nat with false by (symmetry; apply Nat.eqb_neq; lia).
        rewrite Nat.eqb_refl, plus_INR. cbn [INR].
        replace (INR (q' i) + 1 + 1) with (INR (q' i) + 2) by lra. apply Rmult_comm.
      - rewrite Nat.min_l by lia. rewrite Nat.eqb_refl.
        replace (q i + 2 =? q i + 1 + 1)%nat with true by (symmetry; apply Nat.eqb_eq; lia).
        rewrite plus_INR. cbn [INR]. now replace (INR (q i) + 1 + 1) with (INR (q i) + 2) by lra. }
    rewrite E, <- sqrt_mult by lra. f_equal. field.
  - apply seq_NoDup.
  - apply in_seq. unfold m. destruct A; lia.
  - intros k _ Hk. unfold ho1.
    destruct (Nat.eqb_spec k (q i + 1)), (Nat.eqb_spec (q' i) (k + 1)), (Nat.eqb_spec (q i) (k + 1)),
      (Nat.eqb_spec k (q' i + 1)); try lra; exfalso; apply Hk; unfold m; destruct A; lia.
Qed.

(** ** which modes differ *)
Lemma sorted_eq (l l' : list nat) : StronglySorted lt l -> StronglySorted lt l' ->
  (forall i, In i l <-> In i l') -> l = l'.
Proof.
  revert l'. induction l as [|a l IH]; intros l' S S' E.
  - destruct l' as [|b l']; [reflexivity|]. exfalso. apply (E b). now left.
  - destruct l' as [|b l']; [exfalso; apply (E a); now left|].
    apply StronglySorted_inv in S as [S Fa], S' as [S' Fb]. rewrite Forall_forall in Fa, Fb.
    assert (a = b) as ->.
    { destruct (proj1 (E a) (or_introl eq_refl)) as [Q|Q]; [auto|].
      destruct (proj2 (E b) (or_introl eq_refl)) as [Q'|Q']; [auto|].
      apply Fb in Q. apply Fa in Q'. lia. }
    f_equal. apply IH; [assumption..|]. intros i. split; intros I.
    + destruct (proj1 (E i) (or_intror I)) as [<-|Q]; [|exact Q]. apply Fa in I. lia.
    + destruct (proj2 (E i) (or_intror I)) as [<-|Q]; [|exact Q]. apply Fb in I. lia.
Qed.
Lemma seq_sorted a n : StronglySorted lt (seq a n).
Proof.
  revert a. induction n as [|n IH]; intros a; cbn; constructor; [apply IH|].
  apply Forall_forall. intros i Hi. apply in_seq in Hi. lia.
Qed.
Lemma filter_sorted (f : nat -> bool) l : StronglySorted lt l -> StronglySorted lt (filter f l).
Proof.
  induction 1 as [|a l S IH Fa]; cbn; [constructor|]. destruct (f a); [|exact IH].
  constructor; [exact IH|]. rewrite Forall_forall in *. intros i Hi. apply filter_In in Hi. now apply Fa.
Qed.
Lemma differing_eq n q q' l : StronglySorted lt l ->
  (forall i, In i l <-> (i < n)%nat /\ q i <> q' i) -> differing n q q' = l.
Proof.
  intros S E. apply sorted_eq; [apply filter_sorted, seq_sorted|exact S|].
  intros i. rewrite E. apply differing_in.
Qed.
Lemma moved_differing n q q' : moved n q q' = zsum (differing n q q') (fun i => Z.abs (qdiff q q' i)).
Proof.
  unfold moved, differing. generalize (seq 0 n). induction l as [|a l IH]; [reflexivity|].
  cbn [filter]. rewrite zsum_cons, IH. destruct (Nat.eqb_spec (q a) (q' a)); cbn [negb].
  - unfold qdiff at 1. lia.
  - now rewrite zsum_cons.
Qed.
Lemma apart_abs q q' i d : apart q q' i d -> Z.abs (qdiff q q' i) = Z.of_nat d.
Proof. unfold apart, qdiff. lia. Qed.

Lemma nnat_plus1 n : nnat (n + 1) = INR n + 1.
Proof. rewrite nnat_R, plus_INR. reflexivity. Qed.
Lemma Reqb_init w fm1 fm2 res a b c : reported fm1 fm2 res ->
  (res b c a = false -> w b + w c - w a <> 0) ->
  Reqb (init_res_denom w fm1 fm2 a b c) 0 = res b c a.
Proof.
  intros Hr Hd. rewrite (init_den w fm1 fm2 res _ _ _ Hr). unfold keep.
  destruct (res b c a); unfold Reqb; destruct (Req_EM_T _ _) as [E|E]; try reflexivity; [lra|].
  exfalso. specialize (Hd eq_refl).
  assert (D : w a - w b - w c <> 0) by lra. apply Rinv_neq_0_compat in D. lra.
Qed.

Section Cubic.
  Variables (w : nat -> R) (zmat f3 : nat -> nat -> nat -> R) (f4 : nat -> nat -> nat -> nat -> R)
    (rotcon : nat -> R) (i1 : list nat) (fm1 : list (nat * nat)) (fm2 : list (nat * nat * nat))
    (res : nat -> nat -> nat -> bool) (n : nat) (iirst : nat -> nat -> nat) (s t : nat).
  Hypothesis Hres : reported fm1 fm2 res.
  Hypothesis Hd : forall i j m, (i < n)%nat -> (j < n)%nat -> (m < n)%nat ->
     res i j m = false -> w i + w j - w m <> 0.
  Notation q := (fun i => iirst i s).
  Notation q' := (fun i => iirst i t).
  Notation gen := (genrsa w zmat f3 f4 rotcon i1 (init_res_denom w fm1 fm2) n iirst s t).

  Lemma type2_lemma i j k : (i < j)%nat -> (j < k)%nat -> (k < n)%nat ->
    apart q q' i 1 -> apart q q' j 1 -> apart q q' k 1 ->
    (forall m, (m < n)%nat -> m <> i -> m <> j -> m <> k -> q m = q' m) ->
    gen = Some (if res j k i || res i k j || res i j k
                then f3 i j k * (ho1 (q i) (q' i) * ho1 (q j) (q' j) * ho1 (q k) (q' k)) else 0).
  Proof.
    intros Hij Hjk Hkn Ai Aj Ak Ho. unfold genrsa. rewrite scan_eq.
    assert (D : differing n q q' = [i; j; k]).
    { apply differing_eq; [repeat constructor; lia|]. intros m. cbn [In]. split.
      - unfold apart in *. intros [<-|[<-|[<-|[]]]]; split; lia.
      - intros [Hm N]. destruct (Nat.eq_dec m i), (Nat.eq_dec m j), (Nat.eq_dec m k); auto; exfalso; auto. }
    assert (M : moved n q q' = 3%Z).
    { rewrite moved_differing, D, !zsum_cons. rewrite !(apart_abs q q' _ 1) by assumption. reflexivity. }
    rewrite M, D. cbn [Z.ltb Z.compare Pos.compare Pos.compare_cont map Z.eqb Pos.eqb entry df_idx df_min].
    rewrite nz_R. cbn [neqb Rnum].
    assert (Sy : forall a b c, res a b c = res b a c).
    { intros a b c. apply eq_iff_eq_true. rewrite !(Hres _ _ _). unfold resonant. intuition (subst; auto). }
    rewrite !(Reqb_init w fm1 fm2 res) by (auto; intros; apply Hd; auto; lia).
    rewrite (Sy k i j). destruct (_ || _ || _); [|reflexivity]. f_equal.
    rewrite !(ho1_apart q q') by assumption. unR. f_equal.
    rewrite nnat_R, !mult_INR, !plus_INR. cbn [INR].
    set (a := Nat.min (iirst i s) (iirst i t)). set (b := Nat.min (iirst j s) (iirst j t)).
    set (c := Nat.min (iirst k s) (iirst k t)).
    pose proof (pos_INR a). pose proof (pos_INR b). pose proof (pos_INR c).
    rewrite <- !sqrt_mult; try lra; [f_equal; field|].
    apply Rmult_le_pos; lra.
  Qed.

  Lemma type1_lemma i j : i <> j -> (i < n)%nat -> (j < n)%nat ->
    (forall a b, f3 a b b = f3 b b a) ->
    apart q q' i 2 -> apart q q' j 1 ->
    (forall m, (m < n)%nat -> m <> i -> m <> j -> q m = q' m) ->
    gen = Some (if res i i j then / 2 * f3 i i j * (ho2 (q i) (q' i) * ho1 (q j) (q' j)) else 0).
  Proof.
    intros Nij Hi Hj Hf Ai Aj Ho. unfold genrsa. rewrite scan_eq.
    assert (M : moved n q q' = 3%Z).
    { rewrite moved_differing. assert (D : differing n q q' = if (i <? j)%nat then [i; j] else [j; i]).
      { destruct (Nat.ltb_spec i j); apply differing_eq; try (repeat constructor; lia);
        intros m; cbn [In]; split; try (unfold apart in *; intros [<-|[<-|[]]]; split; lia);
        intros [Hm N]; destruct (Nat.eq_dec m i), (Nat.eq_dec m j); auto; exfalso; auto. }
      rewrite D. destruct (i <? j)%nat; rewrite !zsum_cons, (apart_abs q q' i 2), (apart_abs q q' j 1) by assumption;
        reflexivity. }
    assert (D : differing n q q' = if (i <? j)%nat then [i; j] else [j; i]).
    { destruct (Nat.ltb_spec i j); apply differing_eq; try (repeat constructor; lia);
      intros m; cbn [In]; split; try (unfold apart in *; intros [<-|[<-|[]]]; split; lia);
      intros [Hm N]; destruct (Nat.eq_dec m i), (Nat.eq_dec m j); auto; exfalso; auto. }
    assert (V : sqrt (nnat ((Nat.min (iirst i s) (iirst i t) + 1) * (Nat.min (iirst i s) (iirst i t) + 2)
                 * (Nat.min (iirst j s) (iirst j t) + 1)) / 8) = ho2 (q i) (q' i) * ho1 (q j) (q' j)).
    { rewrite (ho2_apart q q' i Ai), (ho1_apart q q' j Aj).
      set (a := Nat.min (iirst i s) (iirst i t)). set (b := Nat.min (iirst j s) (iirst j t)).
      pose proof (pos_INR a). pose proof (pos_INR b).
      rewrite nnat_R, !mult_INR, !plus_INR. cbn [INR].
      rewrite <- !sqrt_mult; try lra; [f_equal; field|].
      assert (0 <= (INR a + 1) * (INR a + 2)) by (apply Rmult_le_pos; lra). lra. }
    rewrite M, D. destruct (Nat.ltb_spec i j);
      cbn [Z.ltb Z.compare Pos.compare Pos.compare_cont map Z.eqb Pos.eqb entry df_idx df_min df_d].
    - rewrite (apart_abs q q' i 2 Ai). cbn [Z.of_nat Z.eqb Pos.eqb Pos.of_succ_nat Pos.succ].
      rewrite nz_R. cbn [neqb Rnum].
      rewrite (Reqb_init w fm1 fm2 res) by (auto; intros; apply Hd; auto).
      destruct (res i i j); [|reflexivity]. f_equal. unR. rewrite nlit_half. now rewrite V.
    - rewrite (apart_abs q q' j 1 Aj). cbn [Z.of_nat Z.eqb Pos.eqb Pos.of_succ_nat Pos.succ].
      rewrite nz_R. cbn [neqb Rnum].
      rewrite (Reqb_init w fm1 fm2 res) by (auto; intros; apply Hd; auto).
      destruct (res i i j); [|reflexivity]. f_equal. unR. rewrite nlit_half. now rewrite V, Hf.
  Qed.
End Cubic.

(** ** energies of the states *)
Section Energy.
  Variables (w : nat -> R) (x : nat -> nat -> R) (n : nat) (e0 : R).
  (** the vibrational term formula of an asymmetric top *)
  Definition term (v : nat -> nat) : R :=
    Rsum (seq 0 n) (fun i => w i * (INR (v i) + / 2))
    + Rsum (seq 0 n) (fun i => Rsum (seq 0 (i + 1)) (fun j => x i j * ((INR (v i) + / 2) * (INR (v j) + / 2)))).

  Lemma mode_at_seq i : (i < n)%nat -> mode_at (seq 0 n) i = i.
  Proof. intros Hi. unfold mode_at. now rewrite seq_nth. Qed.
  Lemma nlit_quarter : nlit 1 4 = / 4.
  Proof. cbn. lra. Qed.
  Lemma polyad_energy_R v :
    polyad_energy w (seq 0 n) e0 x v = term v - term (fun _ => 0%nat).
  Proof.
    unfold polyad_energy, polyad_zpe. rewrite seq_length.
    rewrite (fold_plus_R _ (fun i => w i * (INR (v i) + / 2)
      + Rsum (seq 0 (i + 1)) (fun j => x i j * ((INR (v i) + / 2) * (INR (v j) + / 2))))).
    2:{ intros y i Hi. apply in_range in Hi. rewrite acc_add_R, range_0. unR. rewrite nnat_R, nlit_half, mode_at_seq by lia.
        rewrite Rplus_assoc. f_equal. f_equal. apply Rsum_ext. intros j Hj. apply in_seq in Hj.
        rewrite nnat_R, mode_at_seq by lia. ring. }
    rewrite (fold_plus_R _ (fun i => w i * / 2 + Rsum (seq 0 (i + 1)) (fun j => x i j * / 4))).
    2:{ intros y i Hi. apply in_range in Hi. rewrite acc_add_R, range_0. unR. rewrite nlit_half, nlit_quarter, mode_at_seq by lia.
        rewrite Rplus_assoc. f_equal. f_equal. apply Rsum_ext. intros j Hj. apply in_seq in Hj.
        rewrite mode_at_seq by lia. reflexivity. }
    unR. unfold term. rewrite range_0, !Rsum_plus.
    replace (Rsum (seq 0 n) (fun i => w i * (INR 0 + / 2))) with (Rsum (seq 0 n) (fun i => w i * / 2)).
    2:{ apply Rsum_ext. intros. cbn [INR]. lra. }
    replace (Rsum (seq 0 n) (fun i => Rsum (seq 0 (i + 1)) (fun j => x i j * ((INR 0 + / 2) * (INR 0 + / 2)))))
      with (Rsum (seq 0 n) (fun i => Rsum (seq 0 (i + 1)) (fun j => x i j * / 4))).
    2:{ apply Rsum_ext. intros. apply Rsum_ext. intros. cbn [INR]. lra. }
    lra.
  Qed.
  Lemma polyad_fund p : (p < n)%nat -> (forall i j, x i j = x j i) ->
    nth_error (make_funds n w x) p = Some (polyad_energy w (seq 0 n) e0 x (delta p)).
  Proof.
    intros Hp Sy. rewrite polyad_energy_R. unfold term, make_funds.
    rewrite range_0, nth_error_map_seq by exact Hp. f_equal.
    rewrite (fold_plus_R _ (fun j => / 2 * (if (j =? p)%nat then 0 else x p j))).
    2:{ intros y j _. rewrite nlit_half. destruct (j =? p)%nat; cbn; lra. }
    rewrite Rsum_scal. pose proof (tri_diff x (/ 2) p n Hp (fun i j _ _ => Sy i j)) as T.
    pose proof (Rsum_delta w (/ 2) p n Hp) as L. cbn [INR] in *. rewrite nz_R. cbn [nadd nmul Rnum].
    match goal with |- ?a = ?b + ?c - (?d + ?f) => replace (b + c - (d + f)) with ((b - d) + (c - f)) by ring end.
    rewrite L, T. lra.
  Qed.
End Energy.

(** ** the quartic resonance constants without Fermi resonances *)
Section Constants.
  Variables (w : nat -> R) (zmat f3 : nat -> nat -> nat -> R) (f4 : nat -> nat -> nat -> nat -> R)
    (B : nat -> R) (n : nat).
  (** 1/(k-a) + 1/(k+a) up to the factor -1: one intermediate state above, one below *)
  Definition pairfrac (a k : R) : R := 2 * k / (Rsqr a - Rsqr k).
  (** rotational coupling of the pairs a b and c d *)
  Definition corio (a b c d : nat) : R :=
    B 0%nat * zmat a b 0%nat * zmat c d 0%nat + B 1%nat * zmat a b 1%nat * zmat c d 1%nat
    + B 2%nat * zmat a b 2%nat * zmat c d 2%nat.
  Definition k_aabb (i j : nat) : R :=
    f4 i i j j / 4 - corio i j i j * Rsqr (w i + w j) / (w i * w j)
    + Rsum (seq 0 n) (fun k => f3 i i k * f3 j j k / 16 * (pairfrac (2 * w i) (w k) + pairfrac (2 * w j) (w k)))
    + Rsum (seq 0 n) (fun k => Rsqr (f3 i j k) / 4 * pairfrac (w i - w j) (w k)).
  Definition k_aaab (i j : nat) : R :=
    f4 i i i j / 2
    + Rsum (seq 0 n) (fun k => f3 i i k * f3 i j k / 8
        * (pairfrac (2 * w i) (w k) - 4 / w k + 2 * pairfrac (w i - w j) (w k) + pairfrac (w i + w j) (w k))).
  Definition k_acbc (i k j : nat) : R :=
    f4 i k j k / 2 + 2 * corio i k j k * (w i * w j + Rsqr (w k)) / (w k * sqrt (w i * w j))
    + Rsum (seq 0 n) (fun l => f3 i j l * f3 k k l / 8 * (pairfrac (w i - w j) (w l) - 2 / w l))
    + Rsum (seq 0 n) (fun l => f3 i k l * f3 j k l / 8
        * (pairfrac (w i + w k) (w l) + pairfrac (w i - w k) (w l)
           + pairfrac (w j + w k) (w l) + pairfrac (w j - w k) (w l))).
  Definition k_aabc (i j k : nat) : R :=
    f4 i i j k / 2 - 2 * corio i j i k * (w i + w j) * (w i + w k) / (w i * sqrt (w j * w k))
    + Rsum (seq 0 n) (fun l => f3 i i l * f3 j k l / 8 * (pairfrac (w j + w k) (w l) + pairfrac (2 * w i) (w l)))
    + Rsum (seq 0 n) (fun l => f3 i j l * f3 i k l / 4 * (pairfrac (w i - w j) (w l) + pairfrac (w i - w k) (w l))).

  Hypothesis Hw : forall i, (i < n)%nat -> 0 < w i.
  Hypothesis Hd : forall i j m, (i < n)%nat -> (j < n)%nat -> (m < n)%nat -> w i + w j - w m <> 0.
  Let dnm := init_res_denom w [] [].
  Let no : nat -> nat -> nat -> bool := fun _ _ _ => false.
  Lemma no_reported : reported [] [] no.
  Proof. intros i j k. unfold no, resonant. cbn. split; [discriminate|tauto]. Qed.

  Lemma den_no s1 s2 s3 : sval w s1 + sval w s2 + sval w s3 <> 0 ->
    denom w dnm s1 s2 s3 = 1 / (sval w s1 + sval w s2 + sval w s3).
  Proof.
    intros Hn. unfold dnm. rewrite (denom_lemma w [] [] no s1 s2 s3 no_reported) by auto.
    replace (dropped no s1 s2 s3) with false; [reflexivity|].
    now destruct s1, s2, s3.
  Qed.
  Lemma pair_sum i j k : (i < n)%nat -> (j < n)%nat -> (k < n)%nat ->
    denom w dnm (Minus i) (Minus j) (Minus k)
    = pairfrac (w i + w j) (w k) - denom w dnm (Plus i) (Plus j) (Minus k).
  Proof.
    intros Hi Hj Hk. pose proof (Hw i Hi). pose proof (Hw j Hj). pose proof (Hw k Hk).
    pose proof (Hd i j k Hi Hj Hk) as D. rewrite !den_no; cbn [sval]; try lra.
    unfold pairfrac, Rsqr. field. repeat split; try lra.
    replace ((w i + w j) * (w i + w j) - w k * w k) with ((w i + w j - w k) * (w i + w j + w k)) by ring.
    apply Rmult_integral_contrapositive. lra.
  Qed.
  Lemma pair_diff i j k : (i < n)%nat -> (j < n)%nat -> (k < n)%nat ->
    denom w dnm (Minus i) (Plus j) (Minus k)
    = pairfrac (w i - w j) (w k) - denom w dnm (Plus i) (Minus j) (Minus k).
  Proof.
    intros Hi Hj Hk. pose proof (Hw i Hi). pose proof (Hw j Hj). pose proof (Hw k Hk).
    pose proof (Hd i k j Hi Hk Hj) as D. pose proof (Hd j k i Hj Hk Hi) as D'. rewrite !den_no; cbn [sval]; try lra.
    unfold pairfrac, Rsqr. field. repeat split; try lra.
    replace ((w i - w j) * (w i - w j) - w k * w k) with ((w i - w j - w k) * (w i - w j + w k)) by ring.
    apply Rmult_integral_contrapositive. lra.
  Qed.
  Lemma over_R f : over (seq 0 n) f = Rsum (seq 0 n) f.
  Proof.
    unfold over. rewrite acc_add_R, seq_length, range_0. unR. rewrite Rplus_0_l. apply Rsum_ext.
    intros k Hk. apply in_seq in Hk. now rewrite mode_at_seq by lia.
  Qed.
  Lemma over_sub_R f : over_sub (seq 0 n) f = - Rsum (seq 0 n) f.
  Proof.
    unfold over_sub. rewrite acc_sub_R, seq_length, range_0. unR. rewrite Rminus_0_l. f_equal. apply Rsum_ext.
    intros k Hk. apply in_seq in Hk. now rewrite mode_at_seq by lia.
  Qed.
  Lemma neg_Rsum {A} (l : list A) f : - Rsum l f = Rsum l (fun k => - f k).
  Proof. rewrite Rsum_opp. reflexivity. Qed.

  Lemma aabb_R i j : (i < n)%nat -> (j < n)%nat ->
    res2a_aabb w zmat f3 f4 B (seq 0 n) dnm i j = k_aabb i j.
  Proof.
    intros Hi Hj. unfold res2a_aabb, k_aabb. rewrite !over_R. unR. f_equal; [f_equal|].
    - unfold cor, corio, nsq, Rsqr. unR. unfold Rminus. f_equal. pose proof (Hw i Hi). pose proof (Hw j Hj). field; lra.
    - apply Rsum_ext. intros k Hk. apply in_seq in Hk. assert (Hk' : (k < n)%nat) by lia.
      rewrite (pair_sum i i k), (pair_sum j j k) by assumption.
      replace (2 * w i) with (w i + w i) by ring. replace (2 * w j) with (w j + w j) by ring.
      rewrite nlit_half. replace (nlit 1 8) with (/ 8) by (cbn; lra). field.
    - apply Rsum_ext. intros k Hk. apply in_seq in Hk. assert (Hk' : (k < n)%nat) by lia.
      rewrite (pair_diff i j k) by assumption. rewrite nlit_half. unfold nsq, Rsqr. unR. field.
  Qed.
  Lemma aaab_R i j : (i < n)%nat -> (j < n)%nat ->
    res2a_aaab w f3 f4 (seq 0 n) dnm i j = k_aaab i j.
  Proof.
    intros Hi Hj. unfold res2a_aaab, k_aaab. rewrite !over_sub_R. unR.
    match goal with |- ?a + 0 + - ?b + - ?c = _ => replace (a + 0 + - b + - c) with (a + (- b + - c)) by ring end.
    f_equal. rewrite <- Ropp_plus_distr, <- Rsum_plus, neg_Rsum.
    apply Rsum_ext. intros k Hk. apply in_seq in Hk. assert (Hk' : (k < n)%nat) by lia.
    rewrite (pair_sum i i k), (pair_sum i j k), (pair_diff i j k) by assumption.
    replace (2 * w i) with (w i + w i) by ring.
    rewrite nlit_half, nlit_quarter. pose proof (Hw k Hk'). field. lra.
  Qed.
  Lemma acbc_R i k j : (i < n)%nat -> (k < n)%nat -> (j < n)%nat ->
    res2a_acbc w zmat f3 f4 B (seq 0 n) dnm i k j = k_acbc i k j.
  Proof.
    intros Hi Hk Hj. unfold res2a_acbc, k_acbc. rewrite !over_sub_R, !neg_Rsum. unR. f_equal; [f_equal|].
    - apply Rsum_ext. intros l Hl. apply in_seq in Hl. assert (Hl' : (l < n)%nat) by lia.
      rewrite (pair_diff i j l) by assumption. rewrite nlit_half, nlit_quarter. pose proof (Hw l Hl'). field. lra.
    - apply Rsum_ext. intros l Hl. apply in_seq in Hl. assert (Hl' : (l < n)%nat) by lia.
      rewrite (pair_sum i k l), (pair_diff i k l), (pair_sum j k l), (pair_diff j k l) by assumption.
      rewrite nlit_half, nlit_quarter. field.
  Qed.
  Lemma aabc_R i j k : (i < n)%nat -> (j < n)%nat -> (k < n)%nat ->
    res2a_aabc w zmat f3 f4 B (seq 0 n) dnm i j k = k_aabc i j k.
  Proof.
    intros Hi Hj Hk. unfold res2a_aabc, k_aabc. rewrite !over_sub_R, !neg_Rsum. unR. f_equal; [f_equal|].
    - rewrite nlit_half. unfold cor, corio. unR. unfold Rdiv. ring.
    - apply Rsum_ext. intros l Hl. apply in_seq in Hl. assert (Hl' : (l < n)%nat) by lia.
      rewrite (pair_sum j k l), (pair_sum i i l) by assumption.
      replace (2 * w i) with (w i + w i) by ring. rewrite nlit_half, nlit_quarter. field.
    - apply Rsum_ext. intros l Hl. apply in_seq in Hl. assert (Hl' : (l < n)%nat) by lia.
      rewrite (pair_diff i k l), (pair_diff i j l) by assumption. rewrite nlit_half. field.
  Qed.

  Notation res2 := (res2a w zmat f3 f4 B (seq 0 n) dnm).
  (** which constant is used for which pattern of indices *)
  Lemma res2a_lemma a b c : (a < n)%nat -> (b < n)%nat -> (c < n)%nat -> a <> b -> a <> c -> b <> c ->
    res2 a a b b = Some (k_aabb a b) /\ res2 a a a b = Some (k_aaab a b) /\
    res2 a c b c = Some (k_acbc a c b) /\ res2 a a b c = Some (k_aabc a b c).
  Proof.
    intros Ha Hb Hc N1 N2 N3. unfold res2a. rewrite !Nat.eqb_refl. cbn [andb].
    replace (a =? b)%nat with false by (symmetry; now apply Nat.eqb_neq).
    replace (a =? c)%nat with false by (symmetry; now apply Nat.eqb_neq).
    replace (b =? c)%nat with false by (symmetry; now apply Nat.eqb_neq).
    cbn [andb negb]. rewrite !mode_at_seq by assumption.
    rewrite aabb_R, aaab_R, acbc_R, aabc_R by assumption. auto.
  Qed.
End Constants.

(** ** quartic couplings *)
Lemma net_differing n q q' : net n q q' = zsum (differing n q q') (qdiff q q').
Proof.
  unfold net, differing. generalize (seq 0 n). induction l as [|a l IH]; [reflexivity|].
  cbn [filter]. rewrite zsum_cons, IH. destruct (Nat.eqb_spec (q a) (q' a)); cbn [negb].
  - unfold qdiff at 1. lia.
  - now rewrite zsum_cons.
Qed.

Section QuarticAny.
  Variables (w : nat -> R) (zmat f3 : nat -> nat -> nat -> R) (f4 : nat -> nat -> nat -> nat -> R)
    (B : nat -> R) (n : nat) (iirst : nat -> nat -> nat) (s t : nat) (dnm : nat -> nat -> nat -> R).
  Notation q := (fun i => iirst i s).
  Notation q' := (fun i => iirst i t).
  Notation gen := (genrsa w zmat f3 f4 B (seq 0 n) dnm n iirst s t).
  Notation r_aabb := (res2a_aabb w zmat f3 f4 B (seq 0 n) dnm).
  Notation r_aaab := (res2a_aaab w f3 f4 (seq 0 n) dnm).
  Notation r_acbc := (res2a_acbc w zmat f3 f4 B (seq 0 n) dnm).
  Notation r_aabc := (res2a_aabc w zmat f3 f4 B (seq 0 n) dnm).

  Lemma ho_pos m : 0 <= INR m.
  Proof. apply pos_INR. Qed.

  Lemma dd_gen i j : (i < j)%nat -> (j < n)%nat -> apart q q' i 2 -> apart q q' j 2 ->
    (q i + q j = q' i + q' j)%nat ->
    (forall m, (m < n)%nat -> m <> i -> m <> j -> q m = q' m) ->
    gen = Some (r_aabb i j * (ho2 (q i) (q' i) * ho2 (q j) (q' j))).
  Proof.
    intros Hij Hj Ai Aj Hs Ho. unfold genrsa. rewrite scan_eq.
    assert (D : differing n q q' = [i; j]).
    { apply differing_eq; [repeat constructor; lia|]. intros m. cbn [In]. split.
      - unfold apart in *. intros [<-|[<-|[]]]; split; lia.
      - intros [Hm N]. destruct (Nat.eq_dec m i), (Nat.eq_dec m j); auto; exfalso; auto. }
    assert (M : moved n q q' = 4%Z).
    { rewrite moved_differing, D, !zsum_cons. rewrite !(apart_abs q q' _ 2) by assumption. reflexivity. }
    assert (Nt : net n q q' = 0%Z).
    { rewrite net_differing, D, !zsum_cons. cbn. unfold qdiff. lia. }
    rewrite M, D, Nt. cbn [Z.ltb Z.compare Pos.compare Pos.compare_cont map Z.eqb Pos.eqb entry df_idx df_min].
    unfold res2a. rewrite !Nat.eqb_refl. cbn [andb obind]. f_equal.
    rewrite !mode_at_seq by lia. unR. f_equal.
    rewrite !(ho2_apart q q') by assumption.
    set (a := Nat.min (iirst i s) (iirst i t)). set (b := Nat.min (iirst j s) (iirst j t)).
    pose proof (ho_pos a). pose proof (ho_pos b).
    assert (0 <= (INR a + 1) * (INR a + 2)) by (apply Rmult_le_pos; lra).
    assert (0 <= (INR b + 1) * (INR b + 2)) by (apply Rmult_le_pos; lra).
    rewrite nnat_R, !mult_INR, !plus_INR. cbn [INR].
    rewrite <- sqrt_mult by lra. f_equal. field.
  Qed.

  Lemma aabc_gen i j k : i <> j -> i <> k -> (j < k)%nat -> (i < n)%nat -> (k < n)%nat ->
    r_aabc i k j = r_aabc i j k ->
    apart q q' i 2 -> apart q q' j 1 -> apart q q' k 1 ->
    (q i + q j + q k = q' i + q' j + q' k)%nat ->
    (forall m, (m < n)%nat -> m <> i -> m <> j -> m <> k -> q m = q' m) ->
    gen = Some (r_aabc i j k * (ho2 (q i) (q' i) * ho1 (q j) (q' j) * ho1 (q k) (q' k))).
  Proof.
    intros Nij Nik Hjk Hi Hk Sy Ai Aj Ak Hs Ho. unfold genrsa. rewrite scan_eq.
    set (l := if (i <? j)%nat then [i; j; k] else if (i <? k)%nat then [j; i; k] else [j; k; i]).
    assert (D : differing n q q' = l).
    { apply differing_eq.
      - unfold l. destruct (Nat.ltb_spec i j), (Nat.ltb_spec i k); repeat constructor; lia.
      - intros m. assert (I : In m l <-> m = i \/ m = j \/ m = k).
        { unfold l. destruct (Nat.ltb_spec i j), (Nat.ltb_spec i k); cbn [In]; intuition. }
        rewrite I. split.
        + unfold apart in *. intros [->|[->| ->]]; split; lia.
        + intros [Hm N]. destruct (Nat.eq_dec m i), (Nat.eq_dec m j), (Nat.eq_dec m k); auto; exfalso; auto. }
    assert (M : moved n q q' = 4%Z).
    { rewrite moved_differing, D. unfold l. destruct (i <? j)%nat; [|destruct (i <? k)%nat]; rewrite !zsum_cons;
      rewrite (apart_abs q q' i 2), (apart_abs q q' j 1), (apart_abs q q' k 1) by assumption; reflexivity. }
    assert (Nt : net n q q' = 0%Z).
    { rewrite net_differing, D. unfold l. destruct (i <? j)%nat; [|destruct (i <? k)%nat]; rewrite !zsum_cons;
      cbn; unfold qdiff; lia. }
    assert (V : forall a b c, a = Nat.min (iirst i s) (iirst i t) ->
       b * c = (INR (Nat.min (iirst j s) (iirst j t)) + 1) * (INR (Nat.min (iirst k s) (iirst k t)) + 1) ->
       sqrt (((INR a + 1) * (INR a + 2)) * (b * c) / 16)
       = ho2 (q i) (q' i) * ho1 (q j) (q' j) * ho1 (q k) (q' k)).
    { intros a b c -> ->. rewrite (ho2_apart q q' i), (ho1_apart q q' j), (ho1_apart q q' k) by assumption.
      set (a := Nat.min (iirst i s) (iirst i t)). set (b' := Nat.min (iirst j s) (iirst j t)).
      set (c' := Nat.min (iirst k s) (iirst k t)).
      pose proof (ho_pos a). pose proof (ho_pos b'). pose proof (ho_pos c').
      assert (0 <= (INR a + 1) * (INR a + 2)) by (apply Rmult_le_pos; lra).
      rewrite <- !sqrt_mult; try lra; [f_equal; field|]. apply Rmult_le_pos; lra. }
    rewrite M, D, Nt. cbn [Z.ltb Z.compare Pos.compare Pos.compare_cont].
    assert (A2 : (Z.abs (qdiff q q' i) =? 2)%Z = true) by now rewrite (apart_abs q q' i 2).
    assert (Bj : (Z.abs (qdiff q q' j) =? 2)%Z = false) by now rewrite (apart_abs q q' j 1).
    assert (Bk : (Z.abs (qdiff q q' k) =? 2)%Z = false) by now rewrite (apart_abs q q' k 1).
    assert (R2 : forall j k, (j < n)%nat -> (k < n)%nat -> i <> j -> i <> k -> j <> k ->
      res2a w zmat f3 f4 B (seq 0 n) dnm i i j k = Some (r_aabc i j k)).
    { intros j0 k0 H1 H2 H3 H4 H5. unfold res2a. rewrite Nat.eqb_refl.
      replace (i =? j0)%nat with false by (symmetry; now apply Nat.eqb_neq).
      replace (i =? k0)%nat with false by (symmetry; now apply Nat.eqb_neq).
      replace (j0 =? k0)%nat with false by (symmetry; now apply Nat.eqb_neq).
      cbn [andb negb]. now rewrite !mode_at_seq by assumption. }
    unfold l. destruct (Nat.ltb_spec i j); [|destruct (Nat.ltb_spec i k)]; cbn [map Z.eqb Pos.eqb];
      unfold sort2a; cbn [entry df_d df_idx df_min]; rewrite ?A2, ?Bj, ?Bk; cbn [entry df_idx df_min];
      rewrite R2 by (auto; lia); cbn [obind]; f_equal; unR.
    - f_equal. rewrite <- (V _ (INR (Nat.min (iirst j s) (iirst j t)) + 1) (INR (Nat.min (iirst k s) (iirst k t)) + 1) eq_refl) by reflexivity.
      rewrite nnat_R, !mult_INR, !plus_INR. cbn [INR]. f_equal. field.
    - f_equal. rewrite <- (V _ (INR (Nat.min (iirst j s) (iirst j t)) + 1) (INR (Nat.min (iirst k s) (iirst k t)) + 1) eq_refl) by reflexivity.
      rewrite nnat_R, !mult_INR, !plus_INR. cbn [INR]. f_equal. field.
    - rewrite Sy. f_equal.
      rewrite <- (V _ (INR (Nat.min (iirst j s) (iirst j t)) + 1) (INR (Nat.min (iirst k s) (iirst k t)) + 1) eq_refl) by reflexivity.
      rewrite nnat_R, !mult_INR, !plus_INR. cbn [INR]. f_equal. field.
  Qed.

  Lemma sqrt_cube a b : 0 <= a -> 0 <= b -> sqrt (a * a * a * b / 16) = a / 2 * (sqrt (a / 2) * sqrt (b / 2)).
  Proof.
    intros Ha Hb. rewrite <- sqrt_mult by lra.
    rewrite <- (sqrt_square (a / 2)) at 1 by lra.
    rewrite <- sqrt_mult; [f_equal; field| |]; apply Rmult_le_pos; lra.
  Qed.

  Lemma oneone_gen i j : (i < j)%nat -> (j < n)%nat -> apart q q' i 1 -> apart q q' j 1 ->
    (forall m, (m < n)%nat -> m <> i -> m <> j -> q m = q' m) ->
    gen = Some ((r_aaab i j * (INR (Nat.min (q i) (q' i)) + 1) / 2
                 + r_aaab j i * (INR (Nat.min (q j) (q' j)) + 1) / 2
                 + Rsum (seq 0 n) (fun k => if ((k =? i) || (k =? j))%nat then 0
                     else r_acbc i k j * (INR (q k) + / 2)))
                * (ho1 (q i) (q' i) * ho1 (q j) (q' j))).
  Proof.
    intros Hij Hj Ai Aj Ho. unfold genrsa. rewrite scan_eq.
    assert (D : differing n q q' = [i; j]).
    { apply differing_eq; [repeat constructor; lia|]. intros m. cbn [In]. split.
      - unfold apart in *. intros [<-|[<-|[]]]; split; lia.
      - intros [Hm N]. destruct (Nat.eq_dec m i), (Nat.eq_dec m j); auto; exfalso; auto. }
    assert (M : moved n q q' = 2%Z).
    { rewrite moved_differing, D, !zsum_cons. rewrite !(apart_abs q q' _ 1) by assumption. reflexivity. }
    rewrite M, D. cbn [Z.ltb Z.compare Pos.compare Pos.compare_cont map Z.eqb Pos.eqb entry df_idx df_min].
    rewrite !(ho1_apart q q') by assumption.
    set (a := Nat.min (iirst i s) (iirst i t)). set (b := Nat.min (iirst j s) (iirst j t)).
    pose proof (ho_pos a) as Pa. pose proof (ho_pos b) as Pb.
    assert (N : i <> j) by lia.
    assert (E : forall x y, (x < n)%nat -> (y < n)%nat -> x <> y ->
      res2a w zmat f3 f4 B (seq 0 n) dnm x x x y = Some (r_aaab x y)).
    { intros x y Hx Hy Nxy. unfold res2a. rewrite Nat.eqb_refl. cbn [andb].
      replace (x =? y)%nat with false by (symmetry; now apply Nat.eqb_neq).
      now rewrite !mode_at_seq by assumption. }
    rewrite !E by lia. cbn [obind].
    set (h := sqrt ((INR a + 1) / 2) * sqrt ((INR b + 1) / 2)).
    assert (V : forall m : nat, sqrt (nmul (F := R) (nnat ((a + 1) * (b + 1))) (nsq (nadd (nnat m) (nlit 1 2))) / 16)
      = (INR m + / 2) / 2 * h).
    { intros m. unfold h, nsq. rewrite nlit_half, !nnat_R, mult_INR, !plus_INR. cbn [INR]. unR.
      pose proof (ho_pos m) as Pk. rewrite <- sqrt_mult by lra.
      rewrite <- (sqrt_square ((INR m + / 2) / 2)) by lra.
      rewrite <- sqrt_mult; [f_equal; field| |]; apply Rmult_le_pos; lra. }
    assert (Fo : forall l acc, (forall k, In k l -> (k < n)%nat) ->
      ofold (fun val3 k =>
         if negb (k =? i)%nat && negb (k =? j)%nat
         then if negb (iirst k s =? iirst k t)%nat then None
              else let* v := res2a w zmat f3 f4 B (seq 0 n) dnm i k j k in
                   Some (nadd val3 (nmul (nmul (nz 2) v)
                      (nsqrt (ndiv (nmul (nnat ((a + 1) * (b + 1))) (nsq (nadd (nnat (iirst k s)) (nlit 1 2)))) (nz 16)))))
         else Some val3) l acc
      = Some (acc + Rsum l (fun k => if ((k =? i) || (k =? j))%nat then 0
               else r_acbc i k j * (INR (iirst k s) + / 2)) * h)).
    { induction l as [|k l IH]; intros acc Hl.
      - cbn. f_equal. lra.
      - cbn [ofold]. rewrite Rsum_cons.
        destruct (Nat.eqb_spec k i) as [->|Ni]; [|destruct (Nat.eqb_spec k j) as [->|Nj]]; cbn [negb andb orb].
        + rewrite IH by (intros; apply Hl; now right). f_equal. lra.
        + rewrite IH by (intros; apply Hl; now right). f_equal. lra.
        + rewrite (Ho k) by (auto; apply Hl; now left). rewrite Nat.eqb_refl. cbn [negb].
          assert (R3 : res2a w zmat f3 f4 B (seq 0 n) dnm i k j k = Some (r_acbc i k j)).
          { unfold res2a. rewrite Nat.eqb_refl.
            replace (i =? k)%nat with false by (symmetry; apply Nat.eqb_neq; auto).
            replace (i =? j)%nat with false by (symmetry; now apply Nat.eqb_neq).
            cbn [andb negb]. rewrite !mode_at_seq; try lia; [reflexivity|]. apply Hl. now left. }
          rewrite R3. cbn [obind]. rewrite IH by (intros; apply Hl; now right). f_equal. unR.
          rewrite V. field. }
    rewrite Fo.
    2:{ intros k Hk. apply in_range in Hk. lia. }
    cbn [obind]. f_equal. rewrite nz_R, range_0. unR.
    rewrite !nnat_R, !mult_INR, !pow_INR, !plus_INR. cbn [INR].
    replace ((INR a + 1) ^ 3) with ((INR a + 1) * (INR a + 1) * (INR a + 1)) by ring.
    replace ((INR b + 1) ^ 3) with ((INR b + 1) * (INR b + 1) * (INR b + 1)) by ring.
    rewrite !sqrt_cube by lra. rewrite (Rmult_comm (sqrt ((INR b + 1) / 2))). fold h. field.
  Qed.
End QuarticAny.

Section Quartic.
  Variables (w : nat -> R) (zmat f3 : nat -> nat -> nat -> R) (f4 : nat -> nat -> nat -> nat -> R)
    (B : nat -> R) (n : nat) (iirst : nat -> nat -> nat) (s t : nat).
  Hypothesis Hw : forall i, (i < n)%nat -> 0 < w i.
  Hypothesis Hd : forall i j m, (i < n)%nat -> (j < n)%nat -> (m < n)%nat -> w i + w j - w m <> 0.
  Notation q := (fun i => iirst i s).
  Notation q' := (fun i => iirst i t).
  Notation gen := (genrsa w zmat f3 f4 B (seq 0 n) (init_res_denom w [] []) n iirst s t).

  Lemma dd_lemma i j : (i < j)%nat -> (j < n)%nat -> apart q q' i 2 -> apart q q' j 2 ->
    (q i + q j = q' i + q' j)%nat ->
    (forall m, (m < n)%nat -> m <> i -> m <> j -> q m = q' m) ->
    gen = Some (k_aabb w zmat f3 f4 B n i j * (ho2 (q i) (q' i) * ho2 (q j) (q' j))).
  Proof.
    intros Hij Hj Ai Aj Hs Ho. rewrite (dd_gen w zmat f3 f4 B n iirst s t _ i j) by assumption.
    now rewrite aabb_R by (auto; lia).
  Qed.

  Lemma k_aabc_sym i j k : (forall a b c d, f4 a b c d = f4 a b d c) -> (forall a b c, f3 a b c = f3 b a c) ->
    k_aabc w zmat f3 f4 B n i j k = k_aabc w zmat f3 f4 B n i k j.
  Proof.
    intros S4 S3. unfold k_aabc. rewrite (S4 i i j k), (Rmult_comm (w j) (w k)).
    assert (A : corio zmat B i j i k = corio zmat B i k i j) by (unfold corio; ring). rewrite A.
    f_equal; [f_equal|].
    - unfold Rdiv. ring.
    - apply Rsum_ext. intros l _. rewrite (S3 j k l). now rewrite (Rplus_comm (w j)).
    - apply Rsum_ext. intros l _. unfold Rdiv. ring.
  Qed.

  Lemma aabc_lemma i j k : i <> j -> i <> k -> (j < k)%nat -> (i < n)%nat -> (k < n)%nat ->
    (forall a b c d, f4 a b c d = f4 a b d c) -> (forall a b c, f3 a b c = f3 b a c) ->
    apart q q' i 2 -> apart q q' j 1 -> apart q q' k 1 ->
    (q i + q j + q k = q' i + q' j + q' k)%nat ->
    (forall m, (m < n)%nat -> m <> i -> m <> j -> m <> k -> q m = q' m) ->
    gen = Some (k_aabc w zmat f3 f4 B n i j k * (ho2 (q i) (q' i) * ho1 (q j) (q' j) * ho1 (q k) (q' k))).
  Proof.
    intros Nij Nik Hjk Hi Hk S4 S3 Ai Aj Ak Hs Ho.
    rewrite (aabc_gen w zmat f3 f4 B n iirst s t _ i j k); try assumption.
    - now rewrite aabc_R by (auto; lia).
    - rewrite !aabc_R by (auto; lia). now apply k_aabc_sym.
  Qed.

  Lemma oneone_lemma i j : (i < j)%nat -> (j < n)%nat -> apart q q' i 1 -> apart q q' j 1 ->
    (forall m, (m < n)%nat -> m <> i -> m <> j -> q m = q' m) ->
    gen = Some ((k_aaab w f3 f4 n i j * (INR (Nat.min (q i) (q' i)) + 1) / 2
                 + k_aaab w f3 f4 n j i * (INR (Nat.min (q j) (q' j)) + 1) / 2
                 + Rsum (seq 0 n) (fun k => if ((k =? i) || (k =? j))%nat then 0
                     else k_acbc w zmat f3 f4 B n i k j * (INR (q k) + / 2)))
                * (ho1 (q i) (q' i) * ho1 (q j) (q' j))).
  Proof.
    intros Hij Hj Ai Aj Ho. rewrite (oneone_gen w zmat f3 f4 B n iirst s t _ i j) by assumption.
    rewrite !aaab_R by (auto; lia). f_equal. f_equal. f_equal. apply Rsum_ext. intros k Hk. apply in_seq in Hk.
    destruct ((k =? i) || (k =? j))%nat; [reflexivity|]. rewrite acbc_R by (auto; lia). reflexivity.
  Qed.
End Quartic.
