(** Elements of the effective Hamiltonian between particular pairs of states. *)
From Coq Require Import Reals Lra List ZArith Arith Permutation Lia Bool FunctionalExtensionality.
From Verif Require Import Num Loops Index Modes ListFacts ModesFacts StatesFacts ResFacts
  Anharm AnharmFacts EnergyFacts Polyads PolyadFacts PolyadExact PerturbFacts PerturbSum VanVleck VanVleckSum.
Import ListNotations.
Open Scope nat_scope.
Local Open Scope R_scope.

Ltac perm4 := apply (Permutation_count_occ letter_dec); let x := fresh in intros x; cbn [count_occ];
  repeat destruct (letter_dec _ x); lia.

(** letters of one mode can be moved to the left *)
Definition of_mode (m : nat) (x : letter) : bool := (fst x =? m)%nat.
Lemma com_other x y : fst x <> fst y -> com x y = 0.
Proof. intros N. unfold com. apply Nat.eqb_neq in N. now rewrite N. Qed.
Lemma move_right (x : letter) (l l' : list letter) psi : (forall y, In y l -> fst y <> fst x) ->
  ops (x :: l ++ l') psi = ops (l ++ x :: l') psi.
Proof.
  induction l as [|y l IH]; intros H; [reflexivity|]. cbn [app].
  rewrite (ops_cons y (l ++ x :: l')), <- IH by (intros z Hz; apply H; now right).
  rewrite !ops_cons. apply functional_extensionality. intros u. rewrite opr_com, com_other.
  - ring.
  - intros E. apply (H y); [now left|auto].
Qed.
Lemma ops_left m l psi :
  ops l psi = ops (filter (of_mode m) l ++ filter (fun x => negb (of_mode m x)) l) psi.
Proof.
  induction l as [|x l IH]; [reflexivity|]. rewrite ops_cons, IH. cbn [filter].
  destruct (of_mode m x) eqn:E; cbn [negb]; [reflexivity|].
  rewrite <- move_right; [reflexivity|]. intros y Hy. apply filter_In in Hy. destruct Hy as [_ Hy].
  unfold of_mode in *. apply Nat.eqb_eq in Hy. apply Nat.eqb_neq in E. lia.
Qed.
Lemma number_up m l psi u : ops ((m, true) :: (m, false) :: l) psi u = INR (u m) / 2 * ops l psi u.
Proof.
  rewrite !ops_cons. unfold opr. cbn [fst snd]. destruct (u m) as [|k] eqn:E.
  - cbn. rewrite Rdiv_0_l || unfold Rdiv. rewrite ?Rmult_0_l, sqrt_0. ring.
  - assert (D : down m u m = k) by (unfold down; rewrite Nat.eqb_refl, E; reflexivity).
    assert (U : up m (down m u) = u).
    { apply functional_extensionality. intros i. unfold up, down. destruct (Nat.eqb_spec i m) as [->|]; lia. }
    rewrite D, U. replace (k + 1)%nat with (S k) by lia.
    rewrite <- Rmult_assoc, sqrt_sqrt; [reflexivity|]. apply Rmult_le_pos; [apply pos_INR|lra].
Qed.
Lemma number_down m l psi u : ops ((m, false) :: (m, true) :: l) psi u = (INR (u m) + 1) / 2 * ops l psi u.
Proof.
  assert (E : ops ((m, false) :: (m, true) :: l) psi u = ops ((m, true) :: (m, false) :: l) psi u + / 2 * ops l psi u).
  { rewrite !ops_cons, opr_com. unfold com. cbn [fst snd]. rewrite Nat.eqb_refl. reflexivity. }
  rewrite E, number_up. field.
Qed.
Lemma ops_pair (x y : letter) psi : fst x <> fst y -> ops [x; y] psi = ops [y; x] psi.
Proof. intros N. apply functional_extensionality. intros u. cbn. rewrite opr_com, com_other by assumption. ring. Qed.

(** permutation test *)
Definition isperm (l P : list letter) : bool :=
  forallb (fun x => count_occ letter_dec l x =? count_occ letter_dec P x)%nat (l ++ P).
Lemma isperm_iff l P : isperm l P = true <-> Permutation l P.
Proof.
  unfold isperm. rewrite forallb_forall, (Permutation_count_occ letter_dec). split.
  - intros H x. destruct (in_dec letter_dec x (l ++ P)) as [I|I].
    + now apply Nat.eqb_eq, H.
    + rewrite !(proj1 (count_occ_not_In letter_dec _ x)); [reflexivity| |]; intros J; apply I, in_or_app; auto.
  - intros H x _. apply Nat.eqb_eq. apply H.
Qed.

Section Pairs.
  Variables (n : nat) (w : nat -> R) (f3 : nat -> nat -> nat -> R) (f4 : nat -> nat -> nat -> nat -> R)
    (zeta : nat -> nat -> nat -> R) (B : nat -> R) (res : nat -> nat -> nat -> bool).
  Hypothesis Hw : forall i, (i < n)%nat -> 0 < w i.
  Hypothesis Hf1 : forall i j k, f3 i j k = f3 j i k.
  Hypothesis Hf2 : forall i j k, f3 i j k = f3 i k j.
  Hypothesis Hg1 : forall i j k l, f4 i j k l = f4 j i k l.
  Hypothesis Hg2 : forall i j k l, f4 i j k l = f4 i k j l.
  Hypothesis Hg3 : forall i j k l, f4 i j k l = f4 i j l k.
  Hypothesis Hz : forall i j a, zeta i j a = - zeta j i a.
  Hypothesis Hrs : forall i j k, res i j k = res j i k.
  Hypothesis Hrd : forall i j k, res i j k = true -> i <> k /\ j <> k.
  Notation SL := (SL n).
  Notation tsum := (tsum n).
  Notation eff := (effective n w f3 f4 zeta B res).
  Notation half := (half n w f3 res).
  Notation second := (second n w f3 res).

  Definition rot (l : list letter) : R :=
    match l with
    | [x; y; z; t] => B 0%nat * (ca w zeta 0 [x; y] * ca w zeta 0 [z; t])
        + B 1%nat * (ca w zeta 1 [x; y] * ca w zeta 1 [z; t]) + B 2%nat * (ca w zeta 2 [x; y] * ca w zeta 2 [z; t])
    | _ => 0
    end.
  Definition coef (l : list letter) : R := c4 f4 l + second l - rot l.

  Lemma effective_words u v :
    eff u v = (if near n res v u then cubic n f3 (ket n v) u else 0) + tsum 4 (fun l => coef l * ops l (ket n v) u).
  Proof.
    unfold effective. rewrite (second_words n w f3 res Hf1 Hf2 Hrs Hrd), pos4_words, !angular2_words.
    assert (A : forall a, tsum 2 (fun l => tsum 2 (fun l' => ca w zeta a l * ca w zeta a l' * ops (l ++ l') (ket n v) u))
      = tsum 4 (fun l => match l with [x; y; z; t] => ca w zeta a [x; y] * ca w zeta a [z; t] | _ => 0 end
                         * ops l (ket n v) u)) by reflexivity.
    rewrite !A, <- !tsum_scal, <- !tsum_plus.
    match goal with |- ?a + ?b + ?c - tsum 4 ?d = _ => transitivity (a + (b + c + (-1) * tsum 4 d)); [ring|] end.
    rewrite <- tsum_scal, <- !tsum_plus. f_equal. apply tsum_ext. intros l Hl _.
    destruct l as [|x [|y [|z [|t [|]]]]]; try discriminate. unfold coef, rot. ring.
  Qed.

  (** *** the denominators *)
  Definition dn (s1 s2 s3 : sign) : R :=
    keep (dropped res s1 s2 s3) (1 / (sval w s1 + sval w s2 + sval w s3)).
  Definition pf (a b : letter) (k : nat) : R :=
    dn (sgn a) (sgn b) (Minus k) + dn (sgn (bar a)) (sgn (bar b)) (Minus k).
  Lemma dn_Den a b c : dn (sgn a) (sgn b) (sgn c) = - Den w res a b c.
  Proof.
    unfold dn, Den, drop, keep. destruct (dropped res (sgn a) (sgn b) (sgn c)); [lra|].
    replace (sval w (sgn a) + sval w (sgn b) + sval w (sgn c)) with (energy w [a; b; c]).
    - destruct (Req_dec (energy w [a; b; c]) 0) as [E|E]; [|field; exact E].
      rewrite E, Ropp_0. unfold Rdiv. rewrite Rinv_0. ring.
    - destruct a as [i []], b as [j []], c as [k []]; unfold energy, es; cbn; ring.
  Qed.
  Lemma half_modes d e a b : half d e a b
    = Rsum (seq 0 n) (fun k => f3 (fst d) (fst e) k * f3 (fst a) (fst b) k / 72 * pf a b k).
  Proof.
    unfold VanVleckSum.half. rewrite SL_modes. apply Rsum_ext. intros k _. unfold pf.
    change (Minus k) with (sgn (k, false)). rewrite !dn_Den.
    replace (Den w res (bar a) (bar b) (k, false)) with (- Den w res a b (k, true)).
    - unfold es, bar. cbn [fst snd negb]. field.
    - rewrite <- (Den_bar w res). reflexivity.
  Qed.
  Lemma dn_12 s1 s2 s3 : dn s1 s2 s3 = dn s2 s1 s3.
  Proof.
    unfold dn. rewrite (Rplus_comm (sval w s1)). f_equal. destruct s1, s2, s3; cbn; auto.
  Qed.
  Lemma pf_12 a b k : pf a b k = pf b a k.
  Proof. unfold pf. now rewrite (dn_12 (sgn a)), (dn_12 (sgn (bar a))). Qed.
  Lemma pf_bar a b k : pf (bar a) (bar b) k = pf a b k.
  Proof. unfold pf. rewrite !bar_bar. apply Rplus_comm. Qed.
  Lemma half_12 d e a b : half d e a b = half e d a b.
  Proof. rewrite !half_modes. apply Rsum_ext. intros k _. now rewrite (Hf1 (fst d)). Qed.
  Lemma half_34 d e a b : half d e a b = half d e b a.
  Proof. rewrite !half_modes. apply Rsum_ext. intros k _. now rewrite (Hf1 (fst a)), (pf_12 a). Qed.

  (** *** pairs of states whose difference is a reduced word *)
  Lemma total l : of_word n l -> Rsum (seq 0 n) (fun i => IZR (shift l i)) = energy (fun _ => 1) l.
  Proof.
    intros Hl. rewrite <- (energy_sum n (fun _ => 1)) by assumption. apply Rsum_ext. intros. ring.
  Qed.
  Section Reduced.
    Variables (u v : occ) (P : list letter).
    Hypothesis HPw : of_word n P.
    Hypothesis HPl : length P = 4%nat.
    Hypothesis Huv : forall i, (i < n)%nat -> Z.of_nat (u i) = (Z.of_nat (v i) + shift P i)%Z.
    Lemma no_cubic : (if near n res v u then cubic n f3 (ket n v) u else 0) = 0.
    Proof.
      destruct (near n res v u); [|reflexivity]. rewrite pos3_words. apply tsum_0. intros l Hl Hlw.
      destruct (Req_dec (ops l (ket n v) u) 0) as [E|E]; [rewrite E; ring|exfalso].
      pose proof (ops_support n _ v u E) as S.
      assert (T : energy (fun _ => 1) l = energy (fun _ => 1) P).
      { rewrite <- !total by assumption. apply Rsum_ext. intros i Hi. apply in_seq in Hi. f_equal.
        specialize (S i ltac:(lia)). specialize (Huv i ltac:(lia)). lia. }
      destruct l as [|a [|b [|c [|]]]]; try discriminate.
      destruct P as [|p [|q [|r [|s [|]]]]]; try discriminate.
      unfold energy, es in T. cbn [fold_right] in T.
      destruct (snd a), (snd b), (snd c), (snd p), (snd q), (snd r), (snd s); lra.
    Qed.
    Hypothesis HPr : reduced P.
    Lemma only_perm : only n 4 (fun l => coef l * ops l (ket n v) u) P.
    Proof.
      intros l Hl Hlw Hn. assert (E : ops l (ket n v) u <> 0) by (intros E; apply Hn; rewrite E; ring).
      pose proof (ops_support n _ v u E) as S. apply forced_word; [exact HPr|now rewrite Hl, HPl|].
      intros i [x [Hx <-]]. assert (Hi : (fst x < n)%nat) by (apply in_app_or in Hx; destruct Hx; auto).
      specialize (S _ Hi). specialize (Huv _ Hi). lia.
    Qed.
    Lemma word_perm l : Permutation l P -> ops l (ket n v) u = ops P (ket n v) u.
    Proof. intros H. now rewrite (ops_perm P l _ (Permutation_sym H) HPr). Qed.
  End Reduced.

  Definition kdd (i j : nat) : R :=
    f4 i i j j / 4 - corio zeta B i j i j * Rsqr (w i + w j) / (w i * w j)
    + Rsum (seq 0 n) (fun k => f3 i i k * f3 j j k / 16 * (pf (i, true) (i, true) k + pf (j, true) (j, true) k))
    + Rsum (seq 0 n) (fun k => Rsqr (f3 i j k) / 4 * pf (i, true) (j, false) k).

  Lemma zeta_same i a : zeta i i a = 0.
  Proof. pose proof (Hz i i a). lra. Qed.

  Lemma dd_words i j s : (i < n)%nat -> (j < n)%nat -> i <> j ->
    let p : letter := (i, s) in let q : letter := (j, negb s) in
    coef [p; p; q; q] + coef [p; q; p; q] + coef [p; q; q; p]
      + (coef [q; q; p; p] + coef [q; p; q; p] + coef [q; p; p; q]) = kdd i j.
  Proof.
    intros Hi Hj N p q. unfold coef.
    assert (E4 : c4 f4 [p; p; q; q] + c4 f4 [p; q; p; q] + c4 f4 [p; q; q; p]
      + (c4 f4 [q; q; p; p] + c4 f4 [q; p; q; p] + c4 f4 [q; p; p; q]) = f4 i i j j / 4).
    { unfold p, q. cbn [c4 fst]. rewrite (Hg2 i j i j), (Hg3 i j j i), (Hg2 i j i j).
      rewrite (Hg1 j i j i), (Hg3 i j j i), (Hg2 i j i j), (Hg1 j i i j), (Hg2 i j i j).
      rewrite (Hg2 j j i i), (Hg1 j i j i), (Hg3 i j j i), (Hg2 i j i j). field. }
    assert (ER : rot [p; p; q; q] + rot [p; q; p; q] + rot [p; q; q; p]
      + (rot [q; q; p; p] + rot [q; p; q; p] + rot [q; p; p; q])
      = corio zeta B i j i j * Rsqr (w i + w j) / (w i * w j)).
    { unfold p, q, rot, ca, corio, es, Rsqr. cbn [fst snd]. rewrite !zeta_same, !(Hz j i).
      rewrite !sqrt_div_alt by auto. pose proof (Hw i Hi) as Wi. pose proof (Hw j Hj) as Wj.
      pose proof (sqrt_lt_R0 _ Wi) as Ri. pose proof (sqrt_lt_R0 _ Wj) as Rj.
      set (ri := sqrt (w i)) in *. set (rj := sqrt (w j)) in *.
      replace (w i) with (ri * ri) by (apply sqrt_sqrt; lra). replace (w j) with (rj * rj) by (apply sqrt_sqrt; lra).
      clearbody ri rj. destruct s; cbn [negb]; field; lra. }
    assert (ES : second [p; p; q; q] + second [p; q; p; q] + second [p; q; q; p]
      + (second [q; q; p; p] + second [q; p; q; p] + second [q; p; p; q])
      = Rsum (seq 0 n) (fun k => f3 i i k * f3 j j k / 16 * (pf (i, true) (i, true) k + pf (j, true) (j, true) k))
        + Rsum (seq 0 n) (fun k => Rsqr (f3 i j k) / 4 * pf (i, true) (j, false) k)).
    { cbn [VanVleckSum.second].
      rewrite ?(half_34 _ _ q p), ?(half_12 q p).
      transitivity (9 / 2 * half p p q q + 9 / 2 * half q q p p + 18 * half p q p q); [field|].
      rewrite !half_modes. unfold p, q. cbn [fst]. rewrite <- !Rsum_scal, <- !Rsum_plus. apply Rsum_ext. intros k _.
      replace (pf (i, s) (i, s) k) with (pf (i, true) (i, true) k)
        by (destruct s; [reflexivity|]; now rewrite <- pf_bar).
      replace (pf (j, negb s) (j, negb s) k) with (pf (j, true) (j, true) k)
        by (destruct s; [|reflexivity]; now rewrite <- pf_bar).
      replace (pf (i, s) (j, negb s) k) with (pf (i, true) (j, false) k)
        by (destruct s; [reflexivity|]; now rewrite <- pf_bar).
      unfold Rsqr. field. }
    unfold kdd. match goal with |- _ = ?a - ?b + ?c + ?d => transitivity (a - b + (c + d)); [|ring] end.
    rewrite <- E4, <- ER, <- ES. ring.
  Qed.
  Lemma reduced_dd i j s : i <> j -> reduced [(i, s); (i, s); (j, negb s); (j, negb s)].
  Proof.
    intros N x Hx Hb. cbn [In] in Hx, Hb. unfold bar in Hb.
    destruct Hx as [<-|[<-|[<-|[<-|[]]]]], Hb as [E|[E|[E|[E|[]]]]]; cbn [fst snd] in E; injection E; intros; subst;
      try (destruct s; discriminate); congruence.
  Qed.
  Ltac words_in := let y := fresh in let H := fresh in intros y H; cbn [In] in H; intuition (subst; assumption).
  Lemma eff_dd i j s u v : (i < n)%nat -> (j < n)%nat -> i <> j ->
    let P : list letter := [(i, s); (i, s); (j, negb s); (j, negb s)] in
    (forall m, (m < n)%nat -> Z.of_nat (u m) = (Z.of_nat (v m) + shift P m)%Z) ->
    eff u v = kdd i j * ops P (ket n v) u.
  Proof.
    intros Hi Hj N P S. assert (HP : of_word n P) by (unfold P; words_in).
    rewrite effective_words, (no_cubic u v P HP eq_refl S), Rplus_0_l.
    pose proof (reduced_dd i j s N) as Hr. fold P in Hr.
    rewrite (ts4ee n _ (i, s) (j, negb s) Hi Hj); [|congruence|exact (only_perm u v P HP eq_refl S Hr)].
    rewrite <- (dd_words i j s Hi Hj N).
    set (W := ops P (ket n v) u).
    repeat match goal with |- context [ops ?l (ket n v) u] => 
      replace (ops l (ket n v) u) with W by (symmetry; apply (word_perm u v P Hr l); unfold P; perm4) end.
    cbv zeta. ring.
  Qed.

  Definition kaabc (i j k : nat) : R :=
    f4 i i j k / 2 - 2 * corio zeta B i j i k * (w i + w j) * (w i + w k) / (w i * sqrt (w j * w k))
    + Rsum (seq 0 n) (fun l => f3 i i l * f3 j k l / 8 * (pf (j, true) (k, true) l + pf (i, true) (i, true) l))
    + Rsum (seq 0 n) (fun l => f3 i j l * f3 i k l / 4 * (pf (i, true) (j, false) l + pf (i, true) (k, false) l)).
  Lemma aabc_words i j k s : (i < n)%nat -> (j < n)%nat -> (k < n)%nat ->
    let p : letter := (i, s) in let q : letter := (j, negb s) in let r : letter := (k, negb s) in
    coef [p; p; q; r] + coef [p; p; r; q] + coef [p; q; p; r] + coef [p; q; r; p] + coef [p; r; p; q] + coef [p; r; q; p]
    + (coef [q; p; p; r] + coef [q; p; r; p] + coef [q; r; p; p])
    + (coef [r; p; p; q] + coef [r; p; q; p] + coef [r; q; p; p]) = kaabc i j k.
  Proof.
    intros Hi Hj Hk p q r. unfold coef.
    assert (E4 : c4 f4 [p; p; q; r] + c4 f4 [p; p; r; q] + c4 f4 [p; q; p; r] + c4 f4 [p; q; r; p] + c4 f4 [p; r; p; q] + c4 f4 [p; r; q; p]
    + (c4 f4 [q; p; p; r] + c4 f4 [q; p; r; p] + c4 f4 [q; r; p; p])
    + (c4 f4 [r; p; p; q] + c4 f4 [r; p; q; p] + c4 f4 [r; q; p; p]) = f4 i i j k / 2).
    { unfold p, q, r. cbn [c4 fst].
      assert (A1 : f4 i i k j = f4 i i j k) by apply Hg3. assert (A2 : f4 i j i k = f4 i i j k) by apply Hg2.
      assert (A3 : f4 i k i j = f4 i i j k) by (rewrite Hg2; exact A1).
      assert (A4 : f4 i j k i = f4 i i j k) by (rewrite Hg3; exact A2).
      assert (A5 : f4 i k j i = f4 i i j k) by (rewrite Hg3; exact A3).
      rewrite A1, A2, A3, A4, A5.
      rewrite (Hg1 j i i k), A2, (Hg1 j i k i), A4, (Hg2 j k i i), (Hg1 j i k i), A4.
      rewrite (Hg1 k i i j), A3, (Hg1 k i j i), A5, (Hg2 k j i i), (Hg1 k i j i), A5. field. }
    assert (ER : rot [p; p; q; r] + rot [p; p; r; q] + rot [p; q; p; r] + rot [p; q; r; p] + rot [p; r; p; q] + rot [p; r; q; p]
    + (rot [q; p; p; r] + rot [q; p; r; p] + rot [q; r; p; p])
    + (rot [r; p; p; q] + rot [r; p; q; p] + rot [r; q; p; p])
      = 2 * corio zeta B i j i k * (w i + w j) * (w i + w k) / (w i * sqrt (w j * w k))).
    { unfold p, q, r, rot, ca, corio, es. cbn [fst snd]. rewrite !zeta_same, !(Hz j i), !(Hz k i).
      rewrite !sqrt_div_alt by auto. pose proof (Hw i Hi) as Wi. pose proof (Hw j Hj) as Wj. pose proof (Hw k Hk) as Wk.
      rewrite (sqrt_mult (w j)) by lra.
      pose proof (sqrt_lt_R0 _ Wi) as Ri. pose proof (sqrt_lt_R0 _ Wj) as Rj. pose proof (sqrt_lt_R0 _ Wk) as Rk.
      set (ri := sqrt (w i)) in *. set (rj := sqrt (w j)) in *. set (rk := sqrt (w k)) in *.
      replace (w i) with (ri * ri) by (apply sqrt_sqrt; lra). replace (w j) with (rj * rj) by (apply sqrt_sqrt; lra).
      replace (w k) with (rk * rk) by (apply sqrt_sqrt; lra).
      clearbody ri rj rk. destruct s; cbn [negb]; field; lra. }
    assert (ES : second [p; p; q; r] + second [p; p; r; q] + second [p; q; p; r] + second [p; q; r; p] + second [p; r; p; q] + second [p; r; q; p]
    + (second [q; p; p; r] + second [q; p; r; p] + second [q; r; p; p])
    + (second [r; p; p; q] + second [r; p; q; p] + second [r; q; p; p])
      = Rsum (seq 0 n) (fun l => f3 i i l * f3 j k l / 8 * (pf (j, true) (k, true) l + pf (i, true) (i, true) l))
        + Rsum (seq 0 n) (fun l => f3 i j l * f3 i k l / 4 * (pf (i, true) (j, false) l + pf (i, true) (k, false) l))).
    { cbn [VanVleckSum.second].
      rewrite ?(half_34 _ _ q p), ?(half_12 q p), ?(half_34 _ _ r p), ?(half_12 r p), ?(half_34 _ _ r q), ?(half_12 r q).
      transitivity (9 * half p p q r + 9 * half q r p p + 18 * half p q p r + 18 * half p r p q); [field|].
      rewrite !half_modes. unfold p, q, r. cbn [fst]. rewrite <- !Rsum_scal, <- !Rsum_plus. apply Rsum_ext. intros l _.
      replace (pf (i, s) (i, s) l) with (pf (i, true) (i, true) l)
        by (destruct s; [reflexivity|]; now rewrite <- pf_bar).
      replace (pf (j, negb s) (k, negb s) l) with (pf (j, true) (k, true) l)
        by (destruct s; [|reflexivity]; now rewrite <- pf_bar).
      replace (pf (i, s) (j, negb s) l) with (pf (i, true) (j, false) l)
        by (destruct s; [reflexivity|]; now rewrite <- pf_bar).
      replace (pf (i, s) (k, negb s) l) with (pf (i, true) (k, false) l)
        by (destruct s; [reflexivity|]; now rewrite <- pf_bar).
      field. }
    unfold kaabc. match goal with |- _ = ?a - ?b + ?c + ?d => transitivity (a - b + (c + d)); [|ring] end.
    rewrite <- E4, <- ER, <- ES. ring.
  Qed.
  Lemma reduced_aabc i j k s : i <> j -> i <> k -> reduced [(i, s); (i, s); (j, negb s); (k, negb s)].
  Proof.
    intros N N' x Hx Hb. cbn [In] in Hx, Hb. unfold bar in Hb.
    destruct Hx as [<-|[<-|[<-|[<-|[]]]]], Hb as [E|[E|[E|[E|[]]]]]; cbn [fst snd] in E; injection E; intros; subst;
      try (destruct s; discriminate); congruence.
  Qed.
  Lemma eff_aabc i j k s u v : (i < n)%nat -> (j < n)%nat -> (k < n)%nat -> i <> j -> i <> k -> j <> k ->
    let P : list letter := [(i, s); (i, s); (j, negb s); (k, negb s)] in
    (forall m, (m < n)%nat -> Z.of_nat (u m) = (Z.of_nat (v m) + shift P m)%Z) ->
    eff u v = kaabc i j k * ops P (ket n v) u.
  Proof.
    intros Hi Hj Hk N1 N2 N3 P S. assert (HP : of_word n P) by (unfold P; words_in).
    rewrite effective_words, (no_cubic u v P HP eq_refl S), Rplus_0_l.
    pose proof (reduced_aabc i j k s N1 N2) as Hr. fold P in Hr.
    rewrite (ts4e n _ (i, s) (j, negb s) (k, negb s) Hi Hj Hk);
      [|congruence|congruence|congruence|exact (only_perm u v P HP eq_refl S Hr)].
    rewrite <- (aabc_words i j k s Hi Hj Hk).
    set (W := ops P (ket n v) u).
    repeat match goal with |- context [ops ?l (ket n v) u] => 
      replace (ops l (ket n v) u) with W by (symmetry; apply (word_perm u v P Hr l); unfold P; perm4) end.
    cbv zeta. ring.
  Qed.
  Lemma pf_same m b l : (l < n)%nat -> pf (m, b) (m, negb b) l = - 2 / w l.
  Proof.
    intros Hl. pose proof (Hw l Hl). unfold pf, dn, sgn, bar.
    assert (R1 : res m l m = false).
    { destruct (res m l m) eqn:E; [|reflexivity]. destruct (Hrd _ _ _ E). congruence. }
    assert (R2 : res l m m = false) by now rewrite Hrs.
    destruct b; cbn [fst snd negb dropped sval]; rewrite ?R1, ?R2; unfold keep; field; lra.
  Qed.
  Lemma pf_ff a b l : pf (a, false) (b, false) l = pf (a, true) (b, true) l.
  Proof. now rewrite <- pf_bar. Qed.
  Lemma pf_ft a b l : pf (a, false) (b, true) l = pf (a, true) (b, false) l.
  Proof. now rewrite <- pf_bar. Qed.

  Definition kacbc (i k j : nat) : R :=
    f4 i k j k / 2 + 2 * corio zeta B i k j k * (w i * w j + Rsqr (w k)) / (w k * sqrt (w i * w j))
    + Rsum (seq 0 n) (fun l => f3 i j l * f3 k k l / 8 * (pf (i, true) (j, false) l - 2 / w l))
    + Rsum (seq 0 n) (fun l => f3 i k l * f3 j k l / 8
        * (pf (i, true) (k, true) l + pf (i, true) (k, false) l
           + pf (j, true) (k, true) l + pf (j, true) (k, false) l)).
  Lemma third_words i j m s b : (i < n)%nat -> (j < n)%nat -> (m < n)%nat ->
    let p : letter := (i, s) in let q : letter := (j, negb s) in
    let x : letter := (m, b) in let y : letter := (m, negb b) in
    coef [p; q; x; y] + coef [q; p; x; y] + coef [p; x; q; y] + coef [q; x; p; y] + coef [x; p; q; y] + coef [x; q; p; y] + coef [p; x; y; q] + coef [q; x; y; p] + coef [x; p; y; q] + coef [x; q; y; p] + coef [x; y; p; q] + coef [x; y; q; p] = kacbc i m j.
  Proof.
    intros Hi Hj Hm p q x y. unfold coef.
    assert (E4 : c4 f4 [p; q; x; y] + c4 f4 [q; p; x; y] + c4 f4 [p; x; q; y] + c4 f4 [q; x; p; y] + c4 f4 [x; p; q; y] + c4 f4 [x; q; p; y] + c4 f4 [p; x; y; q] + c4 f4 [q; x; y; p] + c4 f4 [x; p; y; q] + c4 f4 [x; q; y; p] + c4 f4 [x; y; p; q] + c4 f4 [x; y; q; p] = f4 i m j m / 2).
    { unfold p, q, x, y. cbn [c4 fst].
      replace (f4 i j m m) with (f4 i m j m) by (symmetry; exact (Hg2 i j m m)).
      replace (f4 j i m m) with (f4 i m j m) by (symmetry; exact (eq_trans (Hg1 j i m m) (Hg2 i j m m))).
      replace (f4 j m i m) with (f4 i m j m) by (symmetry; exact (eq_trans (Hg1 j m i m) (eq_trans (Hg2 m j i m) (Hg1 m i j m)))).
      replace (f4 m i j m) with (f4 i m j m) by (symmetry; exact (Hg1 m i j m)).
      replace (f4 m j i m) with (f4 i m j m) by (symmetry; exact (eq_trans (Hg2 m j i m) (Hg1 m i j m))).
      replace (f4 i m m j) with (f4 i m j m) by (symmetry; exact (Hg3 i m m j)).
      replace (f4 j m m i) with (f4 i m j m) by (symmetry; exact (eq_trans (Hg1 j m m i) (eq_trans (Hg3 m j m i) (eq_trans (Hg2 m j i m) (Hg1 m i j m))))).
      replace (f4 m i m j) with (f4 i m j m) by (symmetry; exact (eq_trans (Hg1 m i m j) (Hg3 i m m j))).
      replace (f4 m j m i) with (f4 i m j m) by (symmetry; exact (eq_trans (Hg3 m j m i) (eq_trans (Hg2 m j i m) (Hg1 m i j m)))).
      replace (f4 m m i j) with (f4 i m j m) by (symmetry; exact (eq_trans (Hg2 m m i j) (eq_trans (Hg1 m i m j) (Hg3 i m m j)))).
      replace (f4 m m j i) with (f4 i m j m) by (symmetry; exact (eq_trans (Hg2 m m j i) (eq_trans (Hg3 m j m i) (eq_trans (Hg2 m j i m) (Hg1 m i j m))))).
      field. }
    assert (ER : rot [p; q; x; y] + rot [q; p; x; y] + rot [p; x; q; y] + rot [q; x; p; y] + rot [x; p; q; y] + rot [x; q; p; y] + rot [p; x; y; q] + rot [q; x; y; p] + rot [x; p; y; q] + rot [x; q; y; p] + rot [x; y; p; q] + rot [x; y; q; p]
      = - (2 * corio zeta B i m j m * (w i * w j + Rsqr (w m)) / (w m * sqrt (w i * w j)))).
    { unfold p, q, x, y, rot, ca, corio, es. cbn [fst snd]. rewrite !(zeta_same m), !(Hz m i), !(Hz m j).
      rewrite !sqrt_div_alt by auto. pose proof (Hw i Hi) as Wi. pose proof (Hw j Hj) as Wj. pose proof (Hw m Hm) as Wm.
      rewrite (sqrt_mult (w i)) by lra.
      pose proof (sqrt_lt_R0 _ Wi) as Ri. pose proof (sqrt_lt_R0 _ Wj) as Rj. pose proof (sqrt_lt_R0 _ Wm) as Rm.
      set (ri := sqrt (w i)) in *. set (rj := sqrt (w j)) in *. set (rm := sqrt (w m)) in *.
      replace (w i) with (ri * ri) by (apply sqrt_sqrt; lra). replace (w j) with (rj * rj) by (apply sqrt_sqrt; lra).
      replace (w m) with (rm * rm) by (apply sqrt_sqrt; lra). unfold Rsqr.
      clearbody ri rj rm. destruct s, b; cbn [negb]; field; lra. }
    assert (ES : second [p; q; x; y] + second [q; p; x; y] + second [p; x; q; y] + second [q; x; p; y] + second [x; p; q; y] + second [x; q; p; y] + second [p; x; y; q] + second [q; x; y; p] + second [x; p; y; q] + second [x; q; y; p] + second [x; y; p; q] + second [x; y; q; p]
      = Rsum (seq 0 n) (fun l => f3 i j l * f3 m m l / 8 * (pf (i, true) (j, false) l - 2 / w l))
      + Rsum (seq 0 n) (fun l => f3 i m l * f3 j m l / 8
        * (pf (i, true) (m, true) l + pf (i, true) (m, false) l
           + pf (j, true) (m, true) l + pf (j, true) (m, false) l))).
    { cbn [VanVleckSum.second].
      rewrite ?(half_34 _ _ q p), ?(half_12 q p), ?(half_34 _ _ x p), ?(half_12 x p), ?(half_34 _ _ y p), ?(half_12 y p), ?(half_34 _ _ x q), ?(half_12 x q), ?(half_34 _ _ y q), ?(half_12 y q), ?(half_34 _ _ y x), ?(half_12 y x).
      transitivity (9 * half p q x y + 9 * half x y p q + 9 * half p x q y + 9 * half p y q x
        + 9 * half q x p y + 9 * half q y p x); [field|].
      rewrite !half_modes. unfold p, q, x, y. cbn [fst]. rewrite <- !Rsum_scal, <- !Rsum_plus. apply Rsum_ext.
      intros l Hl. apply in_seq in Hl. pose proof (Hw l ltac:(lia)).
      rewrite (pf_same m b l) by lia.
      destruct s, b; cbn [negb]; rewrite ?pf_ff, ?pf_ft; field; lra. }
    unfold kacbc. match goal with |- _ = ?a + ?b + ?c + ?d => transitivity (a - - b + (c + d)); [|ring] end.
    rewrite <- E4, <- ER, <- ES. ring.
  Qed.

  Definition kaaab (i j : nat) : R :=
    f4 i i i j / 2
    + Rsum (seq 0 n) (fun k => f3 i i k * f3 i j k / 8
        * (pf (i, true) (i, true) k - 4 / w k + 2 * pf (i, true) (j, false) k + pf (i, true) (j, true) k)).
  Lemma own_words i j s : (i < n)%nat ->
    let p : letter := (i, s) in let q : letter := (j, negb s) in let b : letter := (i, negb s) in
    coef [p; p; b; q] + coef [p; p; q; b] + coef [p; q; p; b] + coef [q; p; p; b] = coef [b; p; p; q] + coef [b; p; q; p] + coef [b; q; p; p] + coef [q; b; p; p] /\
    coef [p; p; b; q] + coef [p; p; q; b] + coef [p; q; p; b] + coef [q; p; p; b] + coef [p; b; p; q] + coef [p; b; q; p] + coef [p; q; b; p] + coef [q; p; b; p] + coef [b; p; p; q] + coef [b; p; q; p] + coef [b; q; p; p] + coef [q; b; p; p] = kaaab i j.
  Proof.
    intros Hi p q b. unfold coef.
    assert (ER : forall l, In l [[p; p; b; q]; [p; p; q; b]; [p; q; p; b]; [q; p; p; b]; [p; b; p; q]; [p; b; q; p]; [p; q; b; p]; [q; p; b; p]; [b; p; p; q]; [b; p; q; p]; [b; q; p; p]; [q; b; p; p]] -> rot l = 0).
    { intros l Hl. cbn [In] in Hl. unfold p, q, b in Hl.
      repeat (destruct Hl as [<-|Hl]; [unfold rot, ca; cbn [fst]; rewrite !zeta_same; ring|]). destruct Hl. }
    rewrite !ER by (cbn [In]; tauto). clear ER.
    assert (E4 : forall l, In l [[p; p; b; q]; [p; p; q; b]; [p; q; p; b]; [q; p; p; b]; [p; b; p; q]; [p; b; q; p]; [p; q; b; p]; [q; p; b; p]; [b; p; p; q]; [b; p; q; p]; [b; q; p; p]; [q; b; p; p]] -> c4 f4 l = f4 i i i j / 24).
    { intros l Hl. cbn [In] in Hl. unfold p, q, b in Hl.
      assert (A1 : f4 i i j i = f4 i i i j) by apply Hg3. assert (A2 : f4 i j i i = f4 i i i j) by (rewrite Hg2; exact A1).
      assert (A3 : f4 j i i i = f4 i i i j) by (rewrite Hg1; exact A2).
      repeat (destruct Hl as [<-|Hl]; [unfold c4; cbn [fst]; now rewrite ?A1, ?A2, ?A3|]). destruct Hl. }
    rewrite !E4 by (cbn [In]; tauto). clear E4. cbn [VanVleckSum.second].
    rewrite ?(half_34 _ _ q p), ?(half_12 q p), ?(half_34 _ _ b p), ?(half_12 b p), ?(half_34 _ _ q b), ?(half_12 q b). split; [ring|].
    transitivity (f4 i i i j / 2 + (9 * half p p b q + 9 * half b q p p + 18 * half p b p q + 18 * half p q p b)); [field|].
    unfold kaaab. f_equal.
    rewrite !half_modes. unfold p, q, b. cbn [fst]. rewrite <- !Rsum_scal, <- !Rsum_plus. apply Rsum_ext.
    intros l Hl. apply in_seq in Hl. pose proof (Hw l ltac:(lia)).
    rewrite (pf_same i s l) by lia.
    destruct s; cbn [negb]; rewrite ?pf_ff, ?pf_ft; field; lra.
  Qed.

  Lemma own_value i j s u v : (i < n)%nat -> i <> j ->
    let p : letter := (i, s) in let q : letter := (j, negb s) in let b : letter := (i, negb s) in
    let h := fun l => coef l * ops l (ket n v) u in
    h [p; p; b; q] + h [p; p; q; b] + h [p; q; p; b] + h [q; p; p; b] + h [p; b; p; q] + h [p; b; q; p] + h [p; q; b; p] + h [q; p; b; p] + h [b; p; p; q] + h [b; p; q; p] + h [b; q; p; p] + h [q; b; p; p]
    = kaaab i j * ((INR (u i) + if s then 0 else 1) / 2) * ops [p; q] (ket n v) u.
  Proof.
    intros Hi Nij p q b h. destruct (own_words i j s Hi) as [EA EK]. fold p q b in EA, EK.
    set (c := INR (u i) + if s then 0 else 1). set (X := ops [p; q] (ket n v) u).
    assert (Ei : (i =? i)%nat = true) by apply Nat.eqb_refl.
    assert (Ej : (j =? i)%nat = false) by (apply Nat.eqb_neq; auto).
    assert (F : forall l, ops l (ket n v) u = ops (filter (of_mode i) l ++ filter (fun x => negb (of_mode i x)) l) (ket n v) u)
      by (intros l; exact (f_equal (fun g => g u) (ops_left i l (ket n v)))).
    assert (VB : forall l, ops (p :: b :: p :: q :: l) (ket n v) u = c / 2 * ops (p :: q :: l) (ket n v) u).
    { intros l. unfold p, b, c. destruct s; cbn [negb]; [rewrite number_up|rewrite number_down]; f_equal; lra. }
    assert (VC : forall l, ops (b :: p :: p :: q :: l) (ket n v) u = (c + es p) / 2 * ops (p :: q :: l) (ket n v) u).
    { intros l. unfold p, b, c, es. cbn [snd]. destruct s; cbn [negb]; [rewrite number_down|rewrite number_up]; f_equal; lra. }
    assert (VA : forall l, ops (p :: p :: b :: q :: l) (ket n v) u = (c - es p) / 2 * ops (p :: q :: l) (ket n v) u).
    { intros l. transitivity (ops (p :: b :: p :: q :: l) (ket n v) u + com p b * ops (p :: q :: l) (ket n v) u).
      - assert (E : ops (p :: b :: q :: l) (ket n v) = fun u => ops (b :: p :: q :: l) (ket n v) u + com p b * ops (q :: l) (ket n v) u)
          by (apply functional_extensionality; intros y; rewrite !ops_cons; apply opr_com).
        rewrite (ops_cons p (p :: b :: q :: l)), E, opr_plus, opr_scal. reflexivity.
      - rewrite VB. unfold com, p, b, es. cbn [fst snd]. rewrite Ei. destruct s; cbn [negb]; field. }
    assert (WA : forall l, filter (of_mode i) l = [p; p; b] -> filter (fun x => negb (of_mode i x)) l = [q] ->
      h l = coef l * ((c - es p) / 2 * X)) by (intros l E1 E2; unfold h; rewrite F, E1, E2; cbn [app]; now rewrite VA).
    assert (WB : forall l, filter (of_mode i) l = [p; b; p] -> filter (fun x => negb (of_mode i x)) l = [q] ->
      h l = coef l * (c / 2 * X)) by (intros l E1 E2; unfold h; rewrite F, E1, E2; cbn [app]; now rewrite VB).
    assert (WC : forall l, filter (of_mode i) l = [b; p; p] -> filter (fun x => negb (of_mode i x)) l = [q] ->
      h l = coef l * ((c + es p) / 2 * X)) by (intros l E1 E2; unfold h; rewrite F, E1, E2; cbn [app]; now rewrite VC).
    assert (Fp : of_mode i p = true) by exact Ei. assert (Fb : of_mode i b = true) by exact Ei.
    assert (Fq : of_mode i q = false) by exact Ej.
    rewrite (WA [p; p; b; q]) by (cbn [filter]; rewrite ?Fp, ?Fb, ?Fq; reflexivity). rewrite (WA [p; p; q; b]) by (cbn [filter]; rewrite ?Fp, ?Fb, ?Fq; reflexivity). rewrite (WA [p; q; p; b]) by (cbn [filter]; rewrite ?Fp, ?Fb, ?Fq; reflexivity). rewrite (WA [q; p; p; b]) by (cbn [filter]; rewrite ?Fp, ?Fb, ?Fq; reflexivity).
    rewrite (WB [p; b; p; q]) by (cbn [filter]; rewrite ?Fp, ?Fb, ?Fq; reflexivity). rewrite (WB [p; b; q; p]) by (cbn [filter]; rewrite ?Fp, ?Fb, ?Fq; reflexivity). rewrite (WB [p; q; b; p]) by (cbn [filter]; rewrite ?Fp, ?Fb, ?Fq; reflexivity). rewrite (WB [q; p; b; p]) by (cbn [filter]; rewrite ?Fp, ?Fb, ?Fq; reflexivity).
    rewrite (WC [b; p; p; q]) by (cbn [filter]; rewrite ?Fp, ?Fb, ?Fq; reflexivity). rewrite (WC [b; p; q; p]) by (cbn [filter]; rewrite ?Fp, ?Fb, ?Fq; reflexivity). rewrite (WC [b; q; p; p]) by (cbn [filter]; rewrite ?Fp, ?Fb, ?Fq; reflexivity). rewrite (WC [q; b; p; p]) by (cbn [filter]; rewrite ?Fp, ?Fb, ?Fq; reflexivity).
    rewrite <- EK.
    transitivity ((coef [p; p; b; q] + coef [p; p; q; b] + coef [p; q; p; b] + coef [q; p; p; b] - (coef [b; p; p; q] + coef [b; p; q; p] + coef [b; q; p; p] + coef [q; b; p; p])) * (- es p / 2) * X
      + (coef [p; p; b; q] + coef [p; p; q; b] + coef [p; q; p; b] + coef [q; p; p; b] + coef [p; b; p; q] + coef [p; b; q; p] + coef [p; q; b; p] + coef [q; p; b; p] + coef [b; p; p; q] + coef [b; p; q; p] + coef [b; q; p; p] + coef [q; b; p; p]) * (c / 2) * X); [unfold letter in *; field|].
    rewrite EA. unfold letter in *. ring.
  Qed.

  (** *** pairs of states that differ by one quantum moved *)
  Section OneOne.
    Variables (u v : occ) (i j : nat) (s : bool).
    Hypothesis Hi : (i < n)%nat.
    Hypothesis Hj : (j < n)%nat.
    Hypothesis N : i <> j.
    Let p : letter := (i, s).
    Let q : letter := (j, negb s).
    Hypothesis Huv : forall m, (m < n)%nat -> Z.of_nat (u m) = (Z.of_nat (v m) + shift [p; q] m)%Z.
    Let W (l : list letter) : R := ops l (ket n v) u.
    Let h (l : list letter) : R := coef l * W l.
    Let Pm (m : nat) : list letter := [p; q; (m, true); (m, false)].

    Lemma one_exists l : length l = 4%nat -> of_word n l -> W l <> 0 -> exists m, (m < n)%nat /\ Permutation l (Pm m).
    Proof.
      intros Hl Hlw Hn. pose proof (ops_support n l v u Hn) as S.
      assert (S' : forall m, (m < n)%nat -> shift l m = shift [p; q] m).
      { intros m Hm. specialize (S m Hm). specialize (Huv m Hm). lia. }
      assert (Ip : In p l).
      { unfold p. apply in_direction. rewrite (S' i Hi). unfold shift, p, q, dl. cbn [fold_right fst snd].
        rewrite Nat.eqb_refl. apply Nat.eqb_neq in N. rewrite N. destruct s; cbn; lia. }
      assert (Iq : In q l).
      { unfold q. apply in_direction. rewrite (S' j Hj). unfold shift, p, q, dl. cbn [fold_right fst snd].
        rewrite Nat.eqb_refl. apply Nat.neq_sym, Nat.eqb_neq in N. rewrite N. destruct s; cbn; lia. }
      destruct (in_split _ _ Ip) as (a & b & E).
      assert (Q1 : Permutation l (p :: a ++ b)) by (rewrite E; apply Permutation_sym, Permutation_middle).
      assert (Iq' : In q (a ++ b)).
      { apply (Permutation_in _ Q1) in Iq. destruct Iq as [F|]; [|assumption]. unfold p, q in F. injection F. intros. congruence. }
      destruct (in_split _ _ Iq') as (c & d & E').
      assert (Q2 : Permutation l (p :: q :: c ++ d)).
      { rewrite Q1, E'. constructor. apply Permutation_sym, Permutation_middle. }
      pose proof (Permutation_length Q2) as L. rewrite Hl in L. cbn [length] in L.
      destruct (c ++ d) as [|x [|y [|]]] eqn:E2; try discriminate.
      assert (Hx : (fst x < n)%nat) by (apply Hlw, (Permutation_in _ (Permutation_sym Q2)); cbn; auto).
      assert (Hy : (fst y < n)%nat) by (apply Hlw, (Permutation_in _ (Permutation_sym Q2)); cbn; auto).
      exists (fst x). split; [exact Hx|]. rewrite Q2. unfold Pm. do 2 constructor.
      assert (Z : forall m, (m < n)%nat -> shift [x; y] m = 0%Z).
      { intros m Hm. specialize (S' m Hm). rewrite (shift_perm _ _ m Q2) in S'.
        change (p :: q :: [x; y]) with ([p; q] ++ [x; y]) in S'. rewrite shift_app in S'. lia. }
      pose proof (Z _ Hx) as Zx. destruct x as [m sx], y as [m' sy]. cbn [fst] in *.
      unfold shift, dl in Zx. cbn [fold_right fst snd] in Zx. rewrite Nat.eqb_refl in Zx.
      destruct (Nat.eqb_spec m m') as [<-|]; [|unfold sg in Zx; destruct sx, sy; lia].
      destruct sx, sy; cbn in Zx; try lia; [reflexivity|constructor].
    Qed.
    Lemma Pm_inj m m' : Permutation (Pm m) (Pm m') -> m = m'.
    Proof.
      unfold Pm. intros H. do 2 apply Permutation_cons_inv in H. apply Permutation_length_2 in H.
      destruct H as [[H _]|[H _]]; congruence.
    Qed.
    Let hm (m : nat) (l : list letter) : R := if isperm l (Pm m) then h l else 0.
    Lemma one_split : tsum 4 h = Rsum (seq 0 n) (fun m => tsum 4 (hm m)).
    Proof.
      rewrite <- tsum_sum. apply tsum_ext. intros l Hl Hlw.
      destruct (Req_dec (W l) 0) as [E|E].
      - unfold h. rewrite E, Rmult_0_r. symmetry. apply Rsum_0. intros m _. unfold hm, h. rewrite E.
        destruct (isperm _ _); ring.
      - destruct (one_exists l Hl Hlw E) as (m & Hm & Q).
        rewrite (Rsum_at _ _ m); [|apply seq_NoDup|apply in_seq; lia|].
        + unfold hm. now rewrite (proj2 (isperm_iff _ _) Q).
        + intros k _ Nk. unfold hm. destruct (isperm l (Pm k)) eqn:F; [|reflexivity].
          apply isperm_iff in F. exfalso. apply Nk, Pm_inj. now rewrite <- F.
    Qed.
    Lemma hm_only m P : Permutation (Pm m) P -> only n 4 (hm m) P.
    Proof.
      intros Q l _ _ Hn. unfold hm in Hn. destruct (isperm l (Pm m)) eqn:E; [|lra].
      apply isperm_iff in E. now rewrite E.
    Qed.
    Lemma hm_at m l : Permutation l (Pm m) -> hm m l = coef l * W l.
    Proof. intros Q. unfold hm. now rewrite (proj2 (isperm_iff _ _) Q). Qed.
    Let X : R := W [p; q].

    Lemma third_word m l (b : bool) : m <> i -> m <> j ->
      (filter (of_mode m) l = [(m, b); (m, negb b)]) ->
      (filter (fun x => negb (of_mode m x)) l = [p; q] \/ filter (fun x => negb (of_mode m x)) l = [q; p]) ->
      W l = (INR (u m) + (if b then 0 else 1)) / 2 * X.
    Proof.
      intros Ni Nj E1 E2. unfold W, X. rewrite (ops_left m l), E1.
      assert (E : ops (filter (fun x => negb (of_mode m x)) l) (ket n v) = ops [p; q] (ket n v)).
      { destruct E2 as [-> | ->]; [reflexivity|]. apply ops_pair. unfold p, q. cbn. auto. }
      rewrite ops_app, E, <- ops_app. cbn [app].
      destruct b; cbn [negb]; [rewrite number_up|rewrite number_down]; [f_equal; lra|reflexivity].
    Qed.
    Lemma third_value m : (m < n)%nat -> m <> i -> m <> j ->
      tsum 4 (hm m) = kacbc i m j * (INR (u m) + / 2) * X.
    Proof.
      intros Hm Ni Nj. set (x := (m, true) : letter). set (y := (m, false) : letter).
      rewrite (ts4 n _ p q x y Hi Hj Hm Hm); try (unfold p, q, x, y; congruence).
      2:{ apply hm_only. reflexivity. }
      assert (Fp : of_mode m p = false) by (apply Nat.eqb_neq; auto).
      assert (Fq : of_mode m q = false) by (apply Nat.eqb_neq; auto).
      assert (Fx : of_mode m x = true) by apply Nat.eqb_refl. assert (Fy : of_mode m y = true) by apply Nat.eqb_refl.
      assert (VT : forall l, Permutation l (Pm m) -> filter (of_mode m) l = [x; y] ->
        (filter (fun x => negb (of_mode m x)) l = [p; q] \/ filter (fun x => negb (of_mode m x)) l = [q; p]) ->
        hm m l = coef l * (INR (u m) / 2 * X)).
      { intros l Q E1 E2. rewrite (hm_at m l Q), (third_word m l true Ni Nj E1 E2). do 2 f_equal. lra. }
      assert (VF : forall l, Permutation l (Pm m) -> filter (of_mode m) l = [y; x] ->
        (filter (fun x => negb (of_mode m x)) l = [p; q] \/ filter (fun x => negb (of_mode m x)) l = [q; p]) ->
        hm m l = coef l * ((INR (u m) + 1) / 2 * X)).
      { intros l Q E1 E2. rewrite (hm_at m l Q), (third_word m l false Ni Nj E1 E2). reflexivity. }
      rewrite (VT [p; q; x; y]) by (unfold Pm; fold x y; first [perm4 | cbn [filter]; rewrite ?Fp, ?Fq, ?Fx, ?Fy; auto]). rewrite (VT [q; p; x; y]) by (unfold Pm; fold x y; first [perm4 | cbn [filter]; rewrite ?Fp, ?Fq, ?Fx, ?Fy; auto]). rewrite (VT [p; x; q; y]) by (unfold Pm; fold x y; first [perm4 | cbn [filter]; rewrite ?Fp, ?Fq, ?Fx, ?Fy; auto]). rewrite (VT [q; x; p; y]) by (unfold Pm; fold x y; first [perm4 | cbn [filter]; rewrite ?Fp, ?Fq, ?Fx, ?Fy; auto]). rewrite (VT [x; p; q; y]) by (unfold Pm; fold x y; first [perm4 | cbn [filter]; rewrite ?Fp, ?Fq, ?Fx, ?Fy; auto]). rewrite (VT [x; q; p; y]) by (unfold Pm; fold x y; first [perm4 | cbn [filter]; rewrite ?Fp, ?Fq, ?Fx, ?Fy; auto]). rewrite (VT [p; x; y; q]) by (unfold Pm; fold x y; first [perm4 | cbn [filter]; rewrite ?Fp, ?Fq, ?Fx, ?Fy; auto]). rewrite (VT [q; x; y; p]) by (unfold Pm; fold x y; first [perm4 | cbn [filter]; rewrite ?Fp, ?Fq, ?Fx, ?Fy; auto]). rewrite (VT [x; p; y; q]) by (unfold Pm; fold x y; first [perm4 | cbn [filter]; rewrite ?Fp, ?Fq, ?Fx, ?Fy; auto]). rewrite (VT [x; q; y; p]) by (unfold Pm; fold x y; first [perm4 | cbn [filter]; rewrite ?Fp, ?Fq, ?Fx, ?Fy; auto]). rewrite (VT [x; y; p; q]) by (unfold Pm; fold x y; first [perm4 | cbn [filter]; rewrite ?Fp, ?Fq, ?Fx, ?Fy; auto]). rewrite (VT [x; y; q; p]) by (unfold Pm; fold x y; first [perm4 | cbn [filter]; rewrite ?Fp, ?Fq, ?Fx, ?Fy; auto]).
      rewrite (VF [p; q; y; x]) by (unfold Pm; fold x y; first [perm4 | cbn [filter]; rewrite ?Fp, ?Fq, ?Fx, ?Fy; auto]). rewrite (VF [q; p; y; x]) by (unfold Pm; fold x y; first [perm4 | cbn [filter]; rewrite ?Fp, ?Fq, ?Fx, ?Fy; auto]). rewrite (VF [p; y; q; x]) by (unfold Pm; fold x y; first [perm4 | cbn [filter]; rewrite ?Fp, ?Fq, ?Fx, ?Fy; auto]). rewrite (VF [q; y; p; x]) by (unfold Pm; fold x y; first [perm4 | cbn [filter]; rewrite ?Fp, ?Fq, ?Fx, ?Fy; auto]). rewrite (VF [y; p; q; x]) by (unfold Pm; fold x y; first [perm4 | cbn [filter]; rewrite ?Fp, ?Fq, ?Fx, ?Fy; auto]). rewrite (VF [y; q; p; x]) by (unfold Pm; fold x y; first [perm4 | cbn [filter]; rewrite ?Fp, ?Fq, ?Fx, ?Fy; auto]). rewrite (VF [p; y; x; q]) by (unfold Pm; fold x y; first [perm4 | cbn [filter]; rewrite ?Fp, ?Fq, ?Fx, ?Fy; auto]). rewrite (VF [q; y; x; p]) by (unfold Pm; fold x y; first [perm4 | cbn [filter]; rewrite ?Fp, ?Fq, ?Fx, ?Fy; auto]). rewrite (VF [y; p; x; q]) by (unfold Pm; fold x y; first [perm4 | cbn [filter]; rewrite ?Fp, ?Fq, ?Fx, ?Fy; auto]). rewrite (VF [y; q; x; p]) by (unfold Pm; fold x y; first [perm4 | cbn [filter]; rewrite ?Fp, ?Fq, ?Fx, ?Fy; auto]). rewrite (VF [y; x; p; q]) by (unfold Pm; fold x y; first [perm4 | cbn [filter]; rewrite ?Fp, ?Fq, ?Fx, ?Fy; auto]). rewrite (VF [y; x; q; p]) by (unfold Pm; fold x y; first [perm4 | cbn [filter]; rewrite ?Fp, ?Fq, ?Fx, ?Fy; auto]).
      pose proof (third_words i j m s true Hi Hj Hm) as K1. pose proof (third_words i j m s false Hi Hj Hm) as K2.
      cbv zeta in K1, K2. cbn [negb] in K1, K2. fold p q x y in K1, K2.
      transitivity ((coef [p; q; x; y] + coef [q; p; x; y] + coef [p; x; q; y] + coef [q; x; p; y] + coef [x; p; q; y] + coef [x; q; p; y] + coef [p; x; y; q] + coef [q; x; y; p] + coef [x; p; y; q] + coef [x; q; y; p] + coef [x; y; p; q] + coef [x; y; q; p]) * (INR (u m) / 2) * X
        + (coef [p; q; y; x] + coef [q; p; y; x] + coef [p; y; q; x] + coef [q; y; p; x] + coef [y; p; q; x] + coef [y; q; p; x] + coef [p; y; x; q] + coef [q; y; x; p] + coef [y; p; x; q] + coef [y; q; x; p] + coef [y; x; p; q] + coef [y; x; q; p]) * ((INR (u m) + 1) / 2) * X); [unfold letter in *; ring|].
      rewrite K1, K2. field.
    Qed.
    Lemma own_i : tsum 4 (hm i) = kaaab i j * ((INR (u i) + if s then 0 else 1) / 2) * X.
    Proof.
      set (b := (i, negb s) : letter).
      assert (Q : Permutation (Pm i) [p; p; q; b]).
      { unfold Pm, p, q, b. destruct s; cbn [negb]; perm4. }
      rewrite (ts4e n _ p q b Hi Hj Hi); [|unfold p, q; congruence|unfold p, b; destruct s; discriminate|unfold q, b; congruence|now apply hm_only].
      pose proof (own_value i j s u v Hi N) as K. cbv zeta in K. fold p q b in K. fold (W [p; q]) in K. fold X in K.
      rewrite <- K.
      rewrite (hm_at i [p; p; b; q]) by (rewrite Q; perm4). rewrite (hm_at i [p; p; q; b]) by (rewrite Q; perm4). rewrite (hm_at i [p; q; p; b]) by (rewrite Q; perm4). rewrite (hm_at i [q; p; p; b]) by (rewrite Q; perm4). rewrite (hm_at i [p; b; p; q]) by (rewrite Q; perm4). rewrite (hm_at i [p; b; q; p]) by (rewrite Q; perm4). rewrite (hm_at i [p; q; b; p]) by (rewrite Q; perm4). rewrite (hm_at i [q; p; b; p]) by (rewrite Q; perm4). rewrite (hm_at i [b; p; p; q]) by (rewrite Q; perm4). rewrite (hm_at i [b; p; q; p]) by (rewrite Q; perm4). rewrite (hm_at i [b; q; p; p]) by (rewrite Q; perm4). rewrite (hm_at i [q; b; p; p]) by (rewrite Q; perm4).
      unfold W. unfold letter in *. ring.
    Qed.
    Lemma own_j : tsum 4 (hm j) = kaaab j i * ((INR (u j) + if s then 1 else 0) / 2) * X.
    Proof.
      set (b := (j, s) : letter).
      assert (Q : Permutation (Pm j) [q; q; p; b]).
      { unfold Pm, p, q, b. destruct s; cbn [negb]; perm4. }
      rewrite (ts4e n _ q p b Hj Hi Hj); [|unfold p, q; congruence|unfold q, b; destruct s; discriminate|unfold p, b; congruence|now apply hm_only].
      pose proof (own_value j i (negb s) u v Hj (not_eq_sym N)) as K. cbv zeta in K. rewrite Bool.negb_involutive in K. fold p q b in K.
      replace (ops [q; p] (ket n v) u) with X in K by (unfold X, W; rewrite (ops_pair p q); [reflexivity|exact N]).
      replace (if negb s then 0 else 1) with (if s then 1 else 0) in K by (destruct s; reflexivity).
      rewrite <- K.
      rewrite (hm_at j [q; q; b; p]) by (rewrite Q; perm4). rewrite (hm_at j [q; q; p; b]) by (rewrite Q; perm4). rewrite (hm_at j [q; p; q; b]) by (rewrite Q; perm4). rewrite (hm_at j [p; q; q; b]) by (rewrite Q; perm4). rewrite (hm_at j [q; b; q; p]) by (rewrite Q; perm4). rewrite (hm_at j [q; b; p; q]) by (rewrite Q; perm4). rewrite (hm_at j [q; p; b; q]) by (rewrite Q; perm4). rewrite (hm_at j [p; q; b; q]) by (rewrite Q; perm4). rewrite (hm_at j [b; q; q; p]) by (rewrite Q; perm4). rewrite (hm_at j [b; q; p; q]) by (rewrite Q; perm4). rewrite (hm_at j [b; p; q; q]) by (rewrite Q; perm4). rewrite (hm_at j [p; b; q; q]) by (rewrite Q; perm4).
      unfold W. unfold letter in *. ring.
    Qed.
    Lemma eff_one : eff u v
      = (kaaab i j * ((INR (u i) + if s then 0 else 1) / 2) + kaaab j i * ((INR (u j) + if s then 1 else 0) / 2)
         + Rsum (seq 0 n) (fun k => if ((k =? i) || (k =? j))%nat then 0 else kacbc i k j * (INR (u k) + / 2))) * X.
    Proof.
      rewrite effective_words. rewrite (no_cubic u v [p; q; p; bar p]).
      2:{ intros y Hy. cbn [In] in Hy. intuition (subst; assumption). }
      2:reflexivity.
      2:{ intros m Hm. rewrite (Huv m Hm). unfold shift, p, q, bar. cbn [fold_right fst snd]. destruct s; cbn [negb sg]; lia. }
      rewrite Rplus_0_l. change (tsum 4 (fun l => coef l * ops l (ket n v) u)) with (tsum 4 h). rewrite one_split.
      rewrite (Rsum_ext _ (fun m => (if (m =? i)%nat then kaaab i j * ((INR (u i) + if s then 0 else 1) / 2) * X else 0)
        + (if (m =? j)%nat then kaaab j i * ((INR (u j) + if s then 1 else 0) / 2) * X else 0)
        + (if ((m =? i) || (m =? j))%nat then 0 else kacbc i m j * (INR (u m) + / 2)) * X)).
      - rewrite !Rsum_plus, Rsum_scal_r.
        rewrite (Rsum_single (fun _ => kaaab i j * ((INR (u i) + if s then 0 else 1) / 2) * X)) by (apply seq_NoDup || (apply in_seq; lia)).
        rewrite (Rsum_single (fun _ => kaaab j i * ((INR (u j) + if s then 1 else 0) / 2) * X)) by (apply seq_NoDup || (apply in_seq; lia)).
        ring.
      - intros m Hm. apply in_seq in Hm. destruct (Nat.eqb_spec m i) as [->|Ni].
        + cbn [orb]. pose proof (proj2 (Nat.eqb_neq _ _) N) as NE. rewrite NE, own_i. ring.
        + destruct (Nat.eqb_spec m j) as [->|Nj]; cbn [orb].
          * rewrite own_j. ring.
          * rewrite third_value by (auto; lia). ring.
    Qed.
  End OneOne.
End Pairs.
