(** The constants g of two different pairs of degenerate modes, from the effective
    Hamiltonian. *)
From Coq Require Import Reals Lra List ZArith Arith Permutation Lia Bool FunctionalExtensionality.
From Verif Require Import Num Loops Index Modes VibRot Anharm SymAnharm ListFacts ModesFacts StatesFacts ResFacts
  AnharmFacts VibRotFacts EnergyFacts SymExact SymE0 SymWitness Polyads PolyadFacts PolyadExact
  PerturbFacts PerturbSum PerturbLevels SymPerturb SymLevels VanVleck VanVleckSum VanVleckPairs VanVleckModel.
Import ListNotations.
Open Scope nat_scope.
Local Open Scope R_scope.

Section Four.
  Variables (n : nat) (w : nat -> R) (f3 : nat -> nat -> nat -> R) (f4 : nat -> nat -> nat -> nat -> R)
    (zeta : nat -> nat -> nat -> R) (B : nat -> R) (res : nat -> nat -> nat -> bool).
  Hypothesis Hw : forall i, (i < n)%nat -> 0 < w i.
  Hypothesis Hf1 : forall i j k, f3 i j k = f3 j i k.
  Hypothesis Hf2 : forall i j k, f3 i j k = f3 i k j.
  Hypothesis Hg1 : forall i j k l, f4 i j k l = f4 j i k l.
  Hypothesis Hg2 : forall i j k l, f4 i j k l = f4 i k j l.
  Hypothesis Hg3 : forall i j k l, f4 i j k l = f4 i j l k.
  Hypothesis Hz : forall i j a, zeta i j a = - zeta j i a.
  Hypothesis Hrs : forall i j k, res i j k = res j i k.
  Hypothesis Hrd : forall i j k, res i j k = true -> i <> k /\ j <> k.
  Notation eff := (effective n w f3 f4 zeta B res).
  Notation half := (half n w f3 res).
  Notation second := (second n w f3 res).
  Notation rot := (rot w zeta B).
  Notation coef := (coef n w f3 f4 zeta B res).
  Notation pf := (pf w res).
  Lemma h12 d e a b : half d e a b = half e d a b.
  Proof. now apply half_12. Qed.
  Lemma h34 d e a b : half d e a b = half d e b a.
  Proof. now apply half_34. Qed.
  (** four different modes *)
  Definition Ca (a : nat) (x y : letter) : R := ca w zeta a [x; y] + ca w zeta a [y; x].
  Definition cor2 (x y z t : letter) : R :=
    B 0%nat * (Ca 0 x y * Ca 0 z t) + B 1%nat * (Ca 1 x y * Ca 1 z t) + B 2%nat * (Ca 2 x y * Ca 2 z t).
  Definition kfour (p q r t : letter) : R :=
    f4 (fst p) (fst q) (fst r) (fst t)
    - 2 * (cor2 p q r t + cor2 p r q t + cor2 p t q r)
    + Rsum (seq 0 n) (fun m =>
        f3 (fst p) (fst q) m * f3 (fst r) (fst t) m / 4 * (pf p q m + pf r t m)
        + f3 (fst p) (fst r) m * f3 (fst q) (fst t) m / 4 * (pf p r m + pf q t m)
        + f3 (fst p) (fst t) m * f3 (fst q) (fst r) m / 4 * (pf p t m + pf q r m)).
  Lemma four_words (p q r t : letter) :
    coef [p; q; r; t] + coef [p; q; t; r] + coef [p; r; q; t] + coef [p; r; t; q] + coef [p; t; q; r] + coef [p; t; r; q]
    + (coef [q; p; r; t] + coef [q; p; t; r] + coef [q; r; p; t] + coef [q; r; t; p] + coef [q; t; p; r] + coef [q; t; r; p])
    + (coef [r; p; q; t] + coef [r; p; t; q] + coef [r; q; p; t] + coef [r; q; t; p] + coef [r; t; p; q] + coef [r; t; q; p])
    + (coef [t; p; q; r] + coef [t; p; r; q] + coef [t; q; p; r] + coef [t; q; r; p] + coef [t; r; p; q] + coef [t; r; q; p]) = kfour p q r t.
  Proof.
    unfold coef.
    assert (E4 : c4 f4 [p; q; r; t] + c4 f4 [p; q; t; r] + c4 f4 [p; r; q; t] + c4 f4 [p; r; t; q] + c4 f4 [p; t; q; r] + c4 f4 [p; t; r; q]
    + (c4 f4 [q; p; r; t] + c4 f4 [q; p; t; r] + c4 f4 [q; r; p; t] + c4 f4 [q; r; t; p] + c4 f4 [q; t; p; r] + c4 f4 [q; t; r; p])
    + (c4 f4 [r; p; q; t] + c4 f4 [r; p; t; q] + c4 f4 [r; q; p; t] + c4 f4 [r; q; t; p] + c4 f4 [r; t; p; q] + c4 f4 [r; t; q; p])
    + (c4 f4 [t; p; q; r] + c4 f4 [t; p; r; q] + c4 f4 [t; q; p; r] + c4 f4 [t; q; r; p] + c4 f4 [t; r; p; q] + c4 f4 [t; r; q; p]) = f4 (fst p) (fst q) (fst r) (fst t)).
    { cbn [c4]. generalize (fst p) (fst q) (fst r) (fst t). intros i j k l.
      assert (A_qprt : f4 j i k l = f4 i j k l) by (rewrite Hg1; reflexivity).
      assert (A_prqt : f4 i k j l = f4 i j k l) by (rewrite Hg2; reflexivity).
      assert (A_pqtr : f4 i j l k = f4 i j k l) by (rewrite Hg3; reflexivity).
      assert (A_qrpt : f4 j k i l = f4 i j k l) by (rewrite Hg2; exact A_qprt).
      assert (A_qptr : f4 j i l k = f4 i j k l) by (rewrite Hg3; exact A_qprt).
      assert (A_rpqt : f4 k i j l = f4 i j k l) by (rewrite Hg1; exact A_prqt).
      assert (A_prtq : f4 i k l j = f4 i j k l) by (rewrite Hg3; exact A_prqt).
      assert (A_ptqr : f4 i l j k = f4 i j k l) by (rewrite Hg2; exact A_pqtr).
      assert (A_rqpt : f4 k j i l = f4 i j k l) by (rewrite Hg1; exact A_qrpt).
      assert (A_qrtp : f4 j k l i = f4 i j k l) by (rewrite Hg3; exact A_qrpt).
      assert (A_qtpr : f4 j l i k = f4 i j k l) by (rewrite Hg2; exact A_qptr).
      assert (A_rptq : f4 k i l j = f4 i j k l) by (rewrite Hg3; exact A_rpqt).
      assert (A_ptrq : f4 i l k j = f4 i j k l) by (rewrite Hg2; exact A_prtq).
      assert (A_tpqr : f4 l i j k = f4 i j k l) by (rewrite Hg1; exact A_ptqr).
      assert (A_rqtp : f4 k j l i = f4 i j k l) by (rewrite Hg3; exact A_rqpt).
      assert (A_qtrp : f4 j l k i = f4 i j k l) by (rewrite Hg2; exact A_qrtp).
      assert (A_tqpr : f4 l j i k = f4 i j k l) by (rewrite Hg1; exact A_qtpr).
      assert (A_rtpq : f4 k l i j = f4 i j k l) by (rewrite Hg2; exact A_rptq).
      assert (A_tprq : f4 l i k j = f4 i j k l) by (rewrite Hg1; exact A_ptrq).
      assert (A_rtqp : f4 k l j i = f4 i j k l) by (rewrite Hg2; exact A_rqtp).
      assert (A_tqrp : f4 l j k i = f4 i j k l) by (rewrite Hg1; exact A_qtrp).
      assert (A_trpq : f4 l k i j = f4 i j k l) by (rewrite Hg1; exact A_rtpq).
      assert (A_trqp : f4 l k j i = f4 i j k l) by (rewrite Hg1; exact A_rtqp).
      rewrite A_qprt, A_prqt, A_pqtr, A_qrpt, A_qptr, A_rpqt, A_prtq, A_ptqr, A_rqpt, A_qrtp, A_qtpr, A_rptq, A_ptrq, A_tpqr, A_rqtp, A_qtrp, A_tqpr, A_rtpq, A_tprq, A_rtqp, A_tqrp, A_trpq, A_trqp. field. }
    assert (ER : rot [p; q; r; t] + rot [p; q; t; r] + rot [p; r; q; t] + rot [p; r; t; q] + rot [p; t; q; r] + rot [p; t; r; q]
    + (rot [q; p; r; t] + rot [q; p; t; r] + rot [q; r; p; t] + rot [q; r; t; p] + rot [q; t; p; r] + rot [q; t; r; p])
    + (rot [r; p; q; t] + rot [r; p; t; q] + rot [r; q; p; t] + rot [r; q; t; p] + rot [r; t; p; q] + rot [r; t; q; p])
    + (rot [t; p; q; r] + rot [t; p; r; q] + rot [t; q; p; r] + rot [t; q; r; p] + rot [t; r; p; q] + rot [t; r; q; p]) = 2 * (cor2 p q r t + cor2 p r q t + cor2 p t q r)).
    { unfold cor2, Ca. unfold VanVleckPairs.rot. ring. }
    assert (ES : second [p; q; r; t] + second [p; q; t; r] + second [p; r; q; t] + second [p; r; t; q] + second [p; t; q; r] + second [p; t; r; q]
    + (second [q; p; r; t] + second [q; p; t; r] + second [q; r; p; t] + second [q; r; t; p] + second [q; t; p; r] + second [q; t; r; p])
    + (second [r; p; q; t] + second [r; p; t; q] + second [r; q; p; t] + second [r; q; t; p] + second [r; t; p; q] + second [r; t; q; p])
    + (second [t; p; q; r] + second [t; p; r; q] + second [t; q; p; r] + second [t; q; r; p] + second [t; r; p; q] + second [t; r; q; p])
      = Rsum (seq 0 n) (fun m =>
        f3 (fst p) (fst q) m * f3 (fst r) (fst t) m / 4 * (pf p q m + pf r t m)
        + f3 (fst p) (fst r) m * f3 (fst q) (fst t) m / 4 * (pf p r m + pf q t m)
        + f3 (fst p) (fst t) m * f3 (fst q) (fst r) m / 4 * (pf p t m + pf q r m))).
    { cbn [VanVleckSum.second].
      rewrite ?(h34 _ _ q p), ?(h12 q p), ?(h34 _ _ r p), ?(h12 r p), ?(h34 _ _ r q), ?(h12 r q),
        ?(h34 _ _ t p), ?(h12 t p), ?(h34 _ _ t q), ?(h12 t q), ?(h34 _ _ t r), ?(h12 t r).
      transitivity (18 * half p q r t + 18 * half r t p q + 18 * half p r q t + 18 * half q t p r
                    + 18 * half p t q r + 18 * half q r p t); [field|].
      rewrite !(half_modes n w f3 res). rewrite <- !Rsum_scal, <- !Rsum_plus. apply Rsum_ext. intros m _.
      field. }
    unfold kfour. rewrite <- E4, <- ER, <- ES. ring.
  Qed.
  Lemma eff_four i j k l s1 s2 s3 s4 u v : (i < n)%nat -> (j < n)%nat -> (k < n)%nat -> (l < n)%nat ->
    i <> j -> i <> k -> i <> l -> j <> k -> j <> l -> k <> l ->
    let P : list letter := [(i, s1); (j, s2); (k, s3); (l, s4)] in
    (forall m, (m < n)%nat -> Z.of_nat (u m) = (Z.of_nat (v m) + shift P m)%Z) ->
    eff u v = kfour (i, s1) (j, s2) (k, s3) (l, s4) * ops P (ket n v) u.
  Proof.
    intros Hi Hj Hk Hl N1 N2 N3 N4 N5 N6 P S.
    assert (HP : of_word n P) by (intros y H; unfold P in H; cbn [In] in H; intuition (subst; assumption)).
    rewrite (effective_words n w f3 f4 zeta B res Hf1 Hf2 Hrs Hrd).
    rewrite (no_cubic n w f3 f4 zeta B res Hw Hf1 Hf2 Hg1 Hg2 Hg3 Hz Hrs Hrd u v P HP eq_refl S), Rplus_0_l.
    assert (Hr : reduced P).
    { intros x Hx Hb. unfold P in *. cbn [In] in Hx, Hb. unfold bar in Hb.
      destruct Hx as [<-|[<-|[<-|[<-|[]]]]], Hb as [E|[E|[E|[E|[]]]]]; cbn [fst snd] in E; injection E; intros; try congruence;
        first [destruct s1; discriminate|destruct s2; discriminate|destruct s3; discriminate|destruct s4; discriminate]. }
    rewrite (ts4 n _ (i, s1) (j, s2) (k, s3) (l, s4) Hi Hj Hk Hl);
      [|congruence|congruence|congruence|congruence|congruence|congruence
       |exact (only_perm n w f3 f4 zeta B res Hw Hf1 Hf2 Hg1 Hg2 Hg3 Hz Hrs Hrd u v P HP eq_refl S Hr)].
    rewrite <- (four_words (i, s1) (j, s2) (k, s3) (l, s4)).
    set (W := ops P (ket n v) u).
    repeat match goal with |- context [ops ?l (ket n v) u] => 
      replace (ops l (ket n v) u) with W by (symmetry; apply (word_perm n u v P Hr l); unfold P; perm4) end.
    ring.
  Qed.
End Four.

Lemma abcd_value n i j k l s1 s2 s3 s4 (u v : occ) : (i < n)%nat -> (j < n)%nat -> (k < n)%nat -> (l < n)%nat ->
  i <> j -> i <> k -> i <> l -> j <> k -> j <> l -> k <> l ->
  let P : list letter := [(i, s1); (j, s2); (k, s3); (l, s4)] in
  (forall m, (m < n)%nat -> Z.of_nat (u m) = (Z.of_nat (v m) + shift P m)%Z) ->
  ops P (ket n v) u = ho1 (u i) (v i) * ho1 (u j) (v j) * ho1 (u k) (v k) * ho1 (u l) (v l).
Proof.
  intros Hi Hj Hk Hl N1 N2 N3 N4 N5 N6 P S. unfold P. rewrite !ops_back. cbn [fst ops fold_right].
  assert (Si : Z.of_nat (u i) = (Z.of_nat (v i) + sg s1)%Z).
  { rewrite (S i Hi). unfold P, shift, dl. cbn [fold_right fst snd]. rewrite Nat.eqb_refl.
    rewrite (proj2 (Nat.eqb_neq i j) N1), (proj2 (Nat.eqb_neq i k) N2), (proj2 (Nat.eqb_neq i l) N3). lia. }
  assert (Sj : Z.of_nat (u j) = (Z.of_nat (v j) + sg s2)%Z).
  { rewrite (S j Hj). unfold P, shift, dl. cbn [fold_right fst snd]. rewrite Nat.eqb_refl.
    rewrite (proj2 (Nat.eqb_neq j i) (not_eq_sym N1)), (proj2 (Nat.eqb_neq j k) N4), (proj2 (Nat.eqb_neq j l) N5). lia. }
  assert (Sk : Z.of_nat (u k) = (Z.of_nat (v k) + sg s3)%Z).
  { rewrite (S k Hk). unfold P, shift, dl. cbn [fold_right fst snd]. rewrite Nat.eqb_refl.
    rewrite (proj2 (Nat.eqb_neq k i) (not_eq_sym N2)), (proj2 (Nat.eqb_neq k j) (not_eq_sym N4)), (proj2 (Nat.eqb_neq k l) N6). lia. }
  assert (Sl : Z.of_nat (u l) = (Z.of_nat (v l) + sg s4)%Z).
  { rewrite (S l Hl). unfold P, shift, dl. cbn [fold_right fst snd]. rewrite Nat.eqb_refl.
    rewrite (proj2 (Nat.eqb_neq l i) (not_eq_sym N3)), (proj2 (Nat.eqb_neq l j) (not_eq_sym N5)), (proj2 (Nat.eqb_neq l k) (not_eq_sym N6)). lia. }
  destruct (amp_1 i s1 _ _ Si) as [Ai Ei]. destruct (amp_1 j s2 _ _ Sj) as [Aj Ej].
  destruct (amp_1 k s3 _ _ Sk) as [Ak Ek]. destruct (amp_1 l s4 _ _ Sl) as [Al El].
  rewrite !(back_other k s3) by auto. rewrite !(back_other j s2) by auto. rewrite !(back_other i s1) by auto.
  rewrite ket_1.
  - rewrite <- Ai, <- Aj, <- Ak, <- Al. ring.
  - intros m Hm. destruct (Nat.eq_dec m i) as [->|Ni]; [|destruct (Nat.eq_dec m j) as [->|Nj];
      [|destruct (Nat.eq_dec m k) as [->|Nk]; [|destruct (Nat.eq_dec m l) as [->|Nl]]]].
    + rewrite (back_other l s4), (back_other k s3), (back_other j s2), (back_same i s1) by auto. exact Ei.
    + rewrite (back_other l s4), (back_other k s3), (back_same j s2), (back_other i s1) by auto. exact Ej.
    + rewrite (back_other l s4), (back_same k s3), (back_other j s2), (back_other i s1) by auto. exact Ek.
    + rewrite (back_same l s4), (back_other k s3), (back_other j s2), (back_other i s1) by auto. exact El.
    + rewrite !back_other by auto. specialize (S m Hm). unfold P, shift, dl in S. cbn [fold_right fst snd] in S.
      rewrite (proj2 (Nat.eqb_neq m i) Ni), (proj2 (Nat.eqb_neq m j) Nj), (proj2 (Nat.eqb_neq m k) Nk), (proj2 (Nat.eqb_neq m l) Nl) in S. lia.
Qed.

(** ** the specification *)
(** one quantum each of two modes *)
Definition two (x y : nat) : occ := fun m => ((if m =? x then 1 else 0) + (if m =? y then 1 else 0))%nat.

(** ** reduction with the symmetry *)
Definition PF (s s' : bool) (x y z : R) : R :=
  let x := if s then x else - x in let y := if s' then y else - y in
  1 / (x + y - z) + 1 / (- x - y - z).
Lemma pf_none (w : nat -> R) i j m s s' : pf w none (i, s) (j, s') m = PF s s' (w i) (w j) (w m).
Proof.
  unfold pf, dn, PF, bar, sgn. cbn [fst snd].
  destruct s, s'; cbn [negb dropped sval]; unfold none, keep; f_equal; f_equal; ring.
Qed.
Lemma PF_g (w : nat -> R) k l m : 0 < w k -> 0 < w l -> 0 < w m ->
  w k + w m - w l <> 0 -> w k + w l - w m <> 0 -> w l + w m - w k <> 0 ->
  PF true false (w k) (w l) (w m) - PF true true (w k) (w l) (w m) = 8 * gfrac w none k l m.
Proof. intros. unfold PF, gfrac, keep, none. field. repeat split; lra. Qed.
Lemma PF_bar s s' x y z : PF (negb s) (negb s') x y z = PF s s' x y z.
Proof. unfold PF. rewrite Rplus_comm. destruct s, s'; cbn [negb]; f_equal; f_equal; ring. Qed.
Lemma PF_12 s s' x y z : PF s s' x y z = PF s' s y x z.
Proof. unfold PF. destruct s, s'; f_equal; f_equal; ring. Qed.

Lemma Ca_eq (w : nat -> R) zeta a i j s s' : 0 < w i -> 0 < w j -> (forall i j a, zeta i j a = - zeta j i a) ->
  Ca w zeta a (i, s) (j, s')
  = zeta i j a * ((if s' then w j else - w j) - (if s then w i else - w i)) / (sqrt (w i) * sqrt (w j)).
Proof.
  intros Wi Wj Hz. unfold Ca, ca, es. cbn [fst snd]. rewrite (Hz j i a).
  rewrite !sqrt_div_alt by assumption.
  pose proof (sqrt_lt_R0 _ Wi) as Ri. pose proof (sqrt_lt_R0 _ Wj) as Rj.
  set (ri := sqrt (w i)) in *. set (rj := sqrt (w j)) in *.
  replace (w i) with (ri * ri) by (apply sqrt_sqrt; lra). replace (w j) with (rj * rj) by (apply sqrt_sqrt; lra).
  clearbody ri rj. destruct s, s'; field; lra.
Qed.

Section Axial.
  Variables (n : nat) (ns : list nat) (ts : list (nat * nat)).
  Variables (w : nat -> R) (f3 : nat -> nat -> nat -> R) (f4 : nat -> nat -> nat -> nat -> R)
    (zeta : nat -> nat -> nat -> R) (B : nat -> R) (ax : nat).
  Hypothesis Hpart : Permutation (ns ++ flat_map (fun '(a, b) => [a; b]) ts) (seq 0 n).
  Hypothesis Hax : axial ns ts w f3 f4 zeta B ax.
  Hypothesis f3a : forall i j k, f3 i j k = f3 j i k.
  Hypothesis f3b : forall i j k, f3 i j k = f3 i k j.
  Hypothesis f4a : forall i j k l, f4 i j k l = f4 j i k l.
  Hypothesis f4b : forall i j k l, f4 i j k l = f4 i k j l.
  Hypothesis f4c : forall i j k l, f4 i j k l = f4 i j l k.
  Hypothesis za : forall i j a, zeta i j a = - zeta j i a.
  Hypothesis wpos : forall i, (i < n)%nat -> 0 < w i.
  Hypothesis wd : forall i j m, (i < n)%nat -> (j < n)%nat -> (m < n)%nat -> w i + w j - w m <> 0.
  Hypothesis Hor : forall a b c d, In (a, b) ts -> In (c, d) ts ->
    zeta b d ax = - zeta a c ax /\ zeta a d (1 - ax)%nat = zeta b c (1 - ax)%nat.
  Variables a b c d : nat.
  Hypothesis Hp : In (a, b) ts.
  Hypothesis Hq : In (c, d) ts.
  Hypothesis Hac : a <> c.

  Lemma four_modes : (a < n /\ b < n /\ c < n /\ d < n /\ a <> b /\ a <> d /\ b <> c /\ b <> d /\ c <> d)%nat.
  Proof.
    destruct (ts_n n ns ts Hpart a b Hp) as [Ha Hb]. destruct (ts_n n ns ts Hpart c d Hq) as [Hc Hd].
    pose proof (ts_nd n ns ts Hpart) as Nd.
    destruct (pair_facts ts (a, b) (c, d) Nd Hp Hq) as (P1 & P2).
    destruct (pair_facts ts (c, d) (a, b) Nd Hq Hp) as (P3 & _).
    destruct (pair_facts ts (a, b) (a, b) Nd Hp Hp) as (P5 & _).
    destruct (pair_facts ts (c, d) (c, d) Nd Hq Hq) as (P7 & _). cbn [fst snd] in *.
    repeat split; auto. intros E. specialize (P2 E). congruence.
  Qed.

  Notation eff := (effective n w f3 f4 zeta B none).
  Notation k4 := (kfour n w f3 f4 zeta B none).
  Lemma none_rs i j k : none i j k = none j i k.
  Proof. reflexivity. Qed.
  Lemma none_rd i j k : none i j k = true -> i <> k /\ j <> k.
  Proof. discriminate. Qed.
  Lemma half2 : sqrt ((0 + 1) / 2) * sqrt ((0 + 1) / 2) = / 2.
  Proof. rewrite sqrt_sqrt by lra. lra. Qed.
  Lemma two_elements x y z t : (x < n)%nat -> (y < n)%nat -> (z < n)%nat -> (t < n)%nat ->
    x <> y -> x <> z -> x <> t -> y <> z -> y <> t -> z <> t ->
    eff (two x y) (two z t) = / 4 * k4 (x, true) (y, true) (z, false) (t, false).
  Proof.
    intros Hx Hy Hz Ht N1 N2 N3 N4 N5 N6.
    assert (S : forall m, (m < n)%nat -> Z.of_nat (two x y m)
      = (Z.of_nat (two z t m) + shift [(x, true); (y, true); (z, false); (t, false)] m)%Z).
    { intros m _. unfold two, shift, dl. cbn [fold_right fst snd sg].
      repeat match goal with |- context [(?y =? ?x)%nat] => destruct (Nat.eqb_spec y x) as [?E|?E]; [try subst|] end; lia. }
    rewrite (eff_four n w f3 f4 zeta B none wpos f3a f3b f4a f4b f4c za none_rs none_rd x y z t true true false false _ _
      Hx Hy Hz Ht N1 N2 N3 N4 N5 N6 S).
    rewrite (abcd_value n x y z t true true false false _ _ Hx Hy Hz Ht N1 N2 N3 N4 N5 N6 S).
    assert (V : two x y x = 1%nat /\ two x y y = 1%nat /\ two x y z = 0%nat /\ two x y t = 0%nat /\
      two z t x = 0%nat /\ two z t y = 0%nat /\ two z t z = 1%nat /\ two z t t = 1%nat).
    { unfold two. repeat match goal with |- context [(?y =? ?x)%nat] => destruct (Nat.eqb_spec y x) as [?E|?E]; [try subst|] end;
        repeat split; try reflexivity; congruence. }
    destruct V as (-> & -> & -> & -> & -> & -> & -> & ->).
    unfold ho1. cbn [Nat.eqb Nat.add INR].
    set (h := sqrt ((0 + 1) / 2)). assert (Eh : h * h = / 2) by exact half2.
    replace (h * h * h * h) with ((h * h) * (h * h)) by ring. rewrite Eh. lra.
  Qed.

  Notation gf m := (gfrac w none a c m).
  Lemma rot_part :
    cor2 w zeta B (b, true) (c, true) (a, false) (d, false)
    + cor2 w zeta B (b, true) (a, false) (c, true) (d, false)
    + cor2 w zeta B (b, true) (d, false) (c, true) (a, false)
    - (cor2 w zeta B (b, true) (d, true) (a, false) (c, false)
       + cor2 w zeta B (b, true) (a, false) (d, true) (c, false)
       + cor2 w zeta B (b, true) (c, false) (d, true) (a, false))
    = - 4 * (- 2 * B 1%nat * Rsqr (zeta a c ax) + B 2%nat * Rsqr (zeta a d 2%nat)
             + 2 * B 2%nat * zeta a b 2%nat * zeta c d 2%nat).
  Proof.
    destruct four_modes as (Ha & Hb & Hc & Hd & _).
    pose proof (wpos a Ha) as Wa. pose proof (wpos b Hb) as Wb. pose proof (wpos c Hc) as Wc. pose proof (wpos d Hd) as Wd.
    unfold cor2. rewrite !Ca_eq by assumption.
    rewrite (wab ns ts w f3 f4 zeta B ax Hax a b Hp), (wab ns ts w f3 f4 zeta B ax Hax c d Hq).
    destruct (axial_z3 _ _ _ _ _ _ _ _ Hax a b c d Hp Hq) as (Z1 & Z2 & Z3).
    destruct (axial_z4 _ _ _ _ _ _ _ _ Hax a b c d Hp Hq) as (Y1 & Y2 & Y3 & Y4).
    destruct (axial_z5 _ _ _ _ _ _ _ _ Hax a b c d Hp Hq) as (W1 & W2 & W3).
    destruct (axial_z4 _ _ _ _ _ _ _ _ Hax a b a b Hp Hp) as (_ & _ & U1 & _).
    destruct (axial_z5 _ _ _ _ _ _ _ _ Hax a b a b Hp Hp) as (_ & U2 & _).
    destruct (Hor a b c d Hp Hq) as [O1 O2].
    assert (U3 : zeta a b (1 - ax)%nat = 0).
    { assert (zeta a a ax = 0) as T by (pose proof (za a a ax); lra). rewrite T, Rsqr_0 in U2. now apply Rsqr_0_uniq. }
    pose proof (axial_b _ _ _ _ _ _ _ _ Hax) as Eb. pose proof (axial_ax _ _ _ _ _ _ _ _ Hax) as La.
    pose proof (sqrt_lt_R0 _ Wa) as Ra. pose proof (sqrt_lt_R0 _ Wc) as Rc.
    rewrite Eb. rewrite ?(za b a), ?(za c a), ?(za d a), ?(za d b), ?(za c b), ?(za d c). rewrite ?Z1, ?Z2, ?Z3.
    assert (Q : zeta b c (1 - ax)%nat * zeta b c (1 - ax)%nat = zeta a c ax * zeta a c ax)
      by exact W3. 
    set (ra := sqrt (w a)) in *. set (rc := sqrt (w c)) in *.
    assert (Ea : w a = ra * ra) by (symmetry; apply sqrt_sqrt; lra).
    assert (Ec : w c = rc * rc) by (symmetry; apply sqrt_sqrt; lra).
    rewrite Ea, Ec. clearbody ra rc. unfold Rsqr.
    rewrite <- Q.
    destruct ax as [|[|]]; [| |lia]; cbn [Nat.sub] in *; rewrite ?O1, ?O2, ?Y1, ?Y2, ?Y3, ?Y4, ?U1, ?U3.
    - transitivity (B 1%nat * (4 * (zeta a c 0%nat * zeta a c 0%nat)) + B 1%nat * (4 * (zeta b c 1%nat * zeta b c 1%nat))
        - 4 * B 2%nat * zeta a d 2%nat * zeta a d 2%nat - 8 * B 2%nat * zeta a b 2%nat * zeta c d 2%nat); [field; lra|].
      rewrite <- Q. ring.
    - transitivity (B 1%nat * (4 * (zeta a c 1%nat * zeta a c 1%nat)) + B 1%nat * (4 * (zeta b c 0%nat * zeta b c 0%nat))
        - 4 * B 2%nat * zeta a d 2%nat * zeta a d 2%nat - 8 * B 2%nat * zeta a b 2%nat * zeta c d 2%nat); [field; lra|].
      rewrite <- Q. ring.
  Qed.

  (** the two elements differ, in the cubic terms, by the pairings ac|bd and bc|ad only *)
  Lemma cubic_at m : (m < n)%nat ->
    f3 b c m * f3 a d m / 4 * (pf w none (b, true) (c, true) m + pf w none (a, false) (d, false) m)
    + f3 b a m * f3 c d m / 4 * (pf w none (b, true) (a, false) m + pf w none (c, true) (d, false) m)
    + f3 b d m * f3 c a m / 4 * (pf w none (b, true) (d, false) m + pf w none (c, true) (a, false) m)
    - (f3 b d m * f3 a c m / 4 * (pf w none (b, true) (d, true) m + pf w none (a, false) (c, false) m)
       + f3 b a m * f3 d c m / 4 * (pf w none (b, true) (a, false) m + pf w none (d, true) (c, false) m)
       + f3 b c m * f3 d a m / 4 * (pf w none (b, true) (c, false) m + pf w none (d, true) (a, false) m))
    = 4 * (f3 b d m * f3 a c m - f3 b c m * f3 a d m) * gf m.
  Proof.
    intros Hm. destruct four_modes as (Ha & Hb & Hc & Hd & _).
    rewrite !pf_none.
    rewrite (wab ns ts w f3 f4 zeta B ax Hax a b Hp), (wab ns ts w f3 f4 zeta B ax Hax c d Hq).
    rewrite (f3a d c), (f3a d a), (f3a c a).
    change (PF false false) with (PF (negb true) (negb true)). rewrite !PF_bar.
    replace (PF true false (w c) (w a) (w m)) with (PF true false (w a) (w c) (w m)).
    2:{ rewrite (PF_12 true false (w c)). change (PF false true) with (PF (negb true) (negb false)). now rewrite PF_bar. }
    pose proof (PF_g w a c m (wpos a Ha) (wpos c Hc) (wpos m Hm)) as G.
    specialize (G (wd a m c Ha Hm Hc) (wd a c m Ha Hc Hm) (wd c m a Hc Hm Ha)).
    set (g := gfrac w none a c m) in *. clearbody g. 
    set (X := PF true false (w a) (w c) (w m)) in *. set (Y := PF true true (w a) (w c) (w m)) in *.
    clearbody X Y. replace g with ((X - Y) / 8) by lra. field.
  Qed.

  Lemma g_dd : sg_dd w f3 zeta B none ns ts ax a b c d
    = (eff (two b c) (two a d) - eff (two b d) (two a c)) / 2.
  Proof.
    destruct four_modes as (Ha & Hb & Hc & Hd & N1 & N2 & N3 & N4 & N5).
    rewrite !two_elements by auto.
    replace (k4 (b, true) (c, true) (a, false) (d, false))
      with (k4 (b, true) (d, true) (a, false) (c, false)
        + 8 * (- 2 * B 1%nat * Rsqr (zeta a c ax) + B 2%nat * Rsqr (zeta a d 2%nat)
             + 2 * B 2%nat * zeta a b 2%nat * zeta c d 2%nat)
        + 8 * (Rsum ns (fun m => Rsqr (f3 a c m) / 2 * gf m)
               - Rsum ts (fun m => Rsqr (f3 a c (fst m)) * gf (fst m)))).
    { unfold sg_dd. lra. }
    assert (EC : Rsum (seq 0 n) (fun m => 4 * (f3 b d m * f3 a c m - f3 b c m * f3 a d m) * gf m)
      = 8 * (Rsum ns (fun m => Rsqr (f3 a c m) / 2 * gf m) - Rsum ts (fun m => Rsqr (f3 a c (fst m)) * gf (fst m)))).
    { pose proof (S_split n ns ts Hpart (fun m => 4 * (f3 b d m * f3 a c m - f3 b c m * f3 a d m) * gf m)) as Sp.
      rewrite Sp, Rplus_assoc, <- Rsum_plus.
      rewrite (Rsum_ext (A := nat) _ (fun m => 8 * (Rsqr (f3 a c m) / 2 * gf m)) ns).
      2:{ intros m Hm. destruct (c_naa ns ts w f3 f4 zeta B ax Hax f3b m (a, b) (c, d) Hm Hp Hq) as (E1 & E2 & E3).
          cbn [fst snd] in *.
          assert (R1 : forall x y, f3 x y m = f3 m x y) by (intros x y; rewrite (f3b x y m), (f3a x m y); reflexivity).
          rewrite !R1, E1, E2, E3. unfold Rsqr. field. }
      rewrite (Rsum_ext (A := nat * nat) _ (fun m => (- 8) * (Rsqr (f3 a c (fst m)) * gf (fst m))) ts).
      2:{ intros [e g] He. cbn [fst snd].
          destruct (c_aaa ns ts w f3 f4 zeta B ax Hax f3a f3b (a, b) (c, d) (e, g) Hp Hq He) as (E1 & E2 & E3 & E4 & E5 & E6 & E7).
          cbn [fst snd] in *. rewrite E1, E2, E3, E4, E5, E6, E7.
          assert (Eg : gf g = gf e).
          { unfold gfrac, none, keep. rewrite (wab ns ts w f3 f4 zeta B ax Hax e g He). reflexivity. }
          rewrite Eg. unfold Rsqr. ring. }
      rewrite !Rsum_scal. ring. }
    rewrite <- EC. pose proof rot_part as RP.
    unfold kfour. cbn [fst snd].
    assert (E4 : f4 b c a d = f4 b d a c).
    { rewrite (f4c b c a d), (f4b b c d a), (f4c b d c a). reflexivity. }
    rewrite E4.
    rewrite <- (Rsum_ext _ _ (seq 0 n) (fun m Hm => cubic_at m (proj2 (proj1 (in_seq n 0 m) Hm)))).
    rewrite Rsum_minus. lra.
  Qed.
End Axial.

(** ** the product of the angular momenta of two pairs *)
(** the element of l_ab l_cd between two states *)
Definition ll (n a b c d : nat) (u v : occ) : R := - turn a b (turn c d (ket n v)) u.

Lemma turn_words a b psi u : a <> b ->
  turn a b psi u = 2 * (ops [(a, false); (b, true)] psi u - ops [(a, true); (b, false)] psi u).
Proof.
  intros N. unfold turn. rewrite !mom_ops, !pos_ops. cbv beta. rewrite !opr_plus, !opr_scal. cbv beta.
  assert (R : forall s t : bool, reduced [(a, s); (b, t)]).
  { intros s t x Hx Hb. cbn [In] in Hx, Hb. unfold bar in Hb.
    destruct Hx as [<-|[<-|[]]], Hb as [E|[E|[]]]; cbn [fst snd] in E; injection E; intros; try congruence;
      destruct s, t; discriminate. }
  assert (C : forall s t : bool, opr (b, t) (opr (a, s) psi) u = ops [(a, s); (b, t)] psi u).
  { intros s t. change (opr (b, t) (opr (a, s) psi)) with (ops [(b, t); (a, s)] psi).
    now rewrite (ops_perm _ _ psi (perm_swap (b, t) (a, s) []) (R s t)). }
  assert (C' : forall s t : bool, opr (a, s) (opr (b, t) psi) u = ops [(a, s); (b, t)] psi u) by reflexivity.
  rewrite !C, !C'.
  set (w1 := ops [(a, true); (b, true)] psi u). set (w2 := ops [(a, true); (b, false)] psi u).
  set (w3 := ops [(a, false); (b, true)] psi u). set (w4 := ops [(a, false); (b, false)] psi u).
  clearbody w1 w2 w3 w4. lra.
Qed.

Section Product.
  Variables (n a b c d : nat).
  Hypotheses (Ha : (a < n)%nat) (Hb : (b < n)%nat) (Hc : (c < n)%nat) (Hd : (d < n)%nat).
  Hypotheses (Nab : a <> b) (Nac : a <> c) (Nad : a <> d) (Nbc : b <> c) (Nbd : b <> d) (Ncd : c <> d).
  Lemma ll_words u v : ll n a b c d u v = - 4 *
    (ops [(a, false); (b, true); (c, false); (d, true)] (ket n v) u
     - ops [(a, false); (b, true); (c, true); (d, false)] (ket n v) u
     - ops [(a, true); (b, false); (c, false); (d, true)] (ket n v) u
     + ops [(a, true); (b, false); (c, true); (d, false)] (ket n v) u).
  Proof.
    unfold ll. rewrite turn_words by assumption.
    assert (T : turn c d (ket n v) = fun u => 2 * ops [(c, false); (d, true)] (ket n v) u
      + (-2) * ops [(c, true); (d, false)] (ket n v) u).
    { apply functional_extensionality. intros t. rewrite turn_words by assumption. ring. }
    rewrite T.
    assert (L : forall x y, ops [x; y] (fun u => 2 * ops [(c, false); (d, true)] (ket n v) u
        + (-2) * ops [(c, true); (d, false)] (ket n v) u) u
      = 2 * ops [x; y; (c, false); (d, true)] (ket n v) u + (-2) * ops [x; y; (c, true); (d, false)] (ket n v) u).
    { intros x y. cbn [ops fold_right].
      assert (O : forall x psi phi, opr x (fun u => 2 * psi u + (-2) * phi u) = fun u => 2 * opr x psi u + (-2) * opr x phi u).
      { intros z psi phi. apply functional_extensionality. intros t. now rewrite opr_plus, !opr_scal. }
      now rewrite !O. }
    pose proof (L (a, false) (b, true)) as L1. pose proof (L (a, true) (b, false)) as L2.
    match type of L1 with ?x = _ => match type of L2 with ?y = _ => transitivity (- (2 * (x - y))); [reflexivity|] end end.
    rewrite L1, L2. clear. unfold letter. ring.
  Qed.
  Lemma no_word s1 s2 s3 s4 u v (m : nat) : (m < n)%nat ->
    Z.of_nat (u m) <> (Z.of_nat (v m) + shift [(a, s1); (b, s2); (c, s3); (d, s4)] m)%Z ->
    ops [(a, s1); (b, s2); (c, s3); (d, s4)] (ket n v) u = 0.
  Proof.
    intros Hm Ne. destruct (Req_dec (ops [(a, s1); (b, s2); (c, s3); (d, s4)] (ket n v) u) 0) as [E|E]; [exact E|].
    exfalso. apply Ne. now apply (ops_support n _ v u E).
  Qed.
  Ltac eqbs := repeat match goal with |- context [(?y =? ?x)%nat] => destruct (Nat.eqb_spec y x) as [?E|?E]; [try subst|] end.
  Lemma word_at s1 s2 s3 s4 (u v : occ) :
    (forall m, (m < n)%nat -> Z.of_nat (u m) = (Z.of_nat (v m) + shift [(a, s1); (b, s2); (c, s3); (d, s4)] m)%Z) ->
    (u a + v a = 1)%nat -> (u b + v b = 1)%nat -> (u c + v c = 1)%nat -> (u d + v d = 1)%nat ->
    ops [(a, s1); (b, s2); (c, s3); (d, s4)] (ket n v) u = / 4.
  Proof.
    intros S Va Vb Vc Vd.
    rewrite (abcd_value n a b c d s1 s2 s3 s4 u v Ha Hb Hc Hd Nab Nac Nad Nbc Nbd Ncd S).
    assert (H1 : forall x y, (x + y = 1)%nat -> ho1 x y = sqrt ((0 + 1) / 2)).
    { intros x y E. assert (x = 0 /\ y = 1 \/ x = 1 /\ y = 0)%nat as [[-> ->]|[-> ->]] by lia; unfold ho1; cbn; f_equal; lra. }
    rewrite !H1 by assumption. set (h := sqrt ((0 + 1) / 2)).
    assert (Eh : h * h = / 2) by exact half2.
    replace (h * h * h * h) with ((h * h) * (h * h)) by ring. rewrite Eh. lra.
  Qed.
  Lemma ll_plus : ll n a b c d (two b c) (two a d) = 1.
  Proof.
    rewrite ll_words.
    rewrite (no_word false true false true _ _ c Hc), (no_word true false false true _ _ a Ha), (no_word true false true false _ _ a Ha).
    2-4: unfold two, shift, dl; cbn [fold_right fst snd sg]; eqbs; lia.
    rewrite word_at; [lra|..].
    - intros m _. unfold two, shift, dl. cbn [fold_right fst snd sg]. eqbs; lia.
    - unfold two; eqbs; lia.
    - unfold two; eqbs; lia.
    - unfold two; eqbs; lia.
    - unfold two; eqbs; lia.
  Qed.
  Lemma ll_minus : ll n a b c d (two b d) (two a c) = - 1.
  Proof.
    rewrite ll_words.
    rewrite (no_word false true true false _ _ c Hc), (no_word true false false true _ _ a Ha), (no_word true false true false _ _ a Ha).
    2-4: unfold two, shift, dl; cbn [fold_right fst snd sg]; eqbs; lia.
    rewrite word_at; [lra|..].
    - intros m _. unfold two, shift, dl. cbn [fold_right fst snd sg]. eqbs; lia.
    - unfold two; eqbs; lia.
    - unfold two; eqbs; lia.
    - unfold two; eqbs; lia.
    - unfold two; eqbs; lia.
  Qed.
End Product.

(** ** the constants of the program *)
(** the two members of the pairs are chosen alike: the perpendicular Coriolis constants have
    the signs that the symmetry gives them together with the signs of the cubic constants *)
Definition alike (r : rotor) (modes : list mode) (wila : nat -> nat -> R) (zeta : nat -> nat -> nat -> R) : Prop :=
  forall axis a b c d, cor_axis r (degs modes) wila axis -> In (a, b) (degs modes) -> In (c, d) (degs modes) ->
  zeta b d axis = - zeta a c axis /\ zeta a d (1 - axis)%nat = zeta b c (1 - axis)%nat.

Lemma g_tu_lemma : forall n modes (w : nat -> R) f3 f4 zeta B r wila x g e0,
  top_field n modes w f3 f4 zeta B r wila -> alike r modes wila zeta ->
  xcals f4 w f3 zeta B r [] [] modes wila = Some (x, g, e0) ->
  let H := effective n w f3 f4 zeta B none in
  forall a b c d, In (a, b) (degs modes) -> In (c, d) (degs modes) -> a <> c ->
  H (two b c) (two a d) - H (two b d) (two a c)
    = g a c * (ll n a b c d (two b c) (two a d) - ll n a b c d (two b d) (two a c)) /\
  ll n a b c d (two b c) (two a d) = 1 /\ ll n a b c d (two b d) (two a c) = - 1.
Proof.
  intros n modes w f3 f4 zeta B r wila x g e0 TF AL EX H a b c d Hp Hq Ne.
  pose proof (Hpart n modes w f3 f4 zeta B r wila TF) as HP.
  destruct TF as [T1 T2 T3 T4 T5 T6 T7 T8 T9 T10 T11 (ax & T12 & T13)].
  destruct (sym_exact_lemma n modes f4 w f3 zeta B r wila x g e0 T1 T4 T5 EX)
    as (_ & _ & _ & _ & (axis & Hc & Q5) & _ & _).
  rewrite (cor_axis_unique _ _ _ _ _ Hc T12) in Q5.
  assert (Hor : forall a b c d, In (a, b) (degs modes) -> In (c, d) (degs modes) ->
    zeta b d ax = - zeta a c ax /\ zeta a d (1 - ax)%nat = zeta b c (1 - ax)%nat) by (intros; now apply AL).
  destruct (four_modes n (nondeg modes) (degs modes) HP a b c d Hp Hq Ne) as (Ha & Hb & Hc' & Hd & N1 & N2 & N3 & N4 & N5).
  rewrite (ll_plus n a b c d), (ll_minus n a b c d) by assumption.
  split; [|auto].
  assert (G : forall k k2 l l2, In (k, k2) (degs modes) -> In (l, l2) (degs modes) -> k <> l ->
    sg_dd w f3 zeta B none (nondeg modes) (degs modes) ax k k2 l l2
    = (H (two k2 l) (two k l2) - H (two k2 l2) (two k l)) / 2)
    by (intros; now apply g_dd).
  pose proof (In_nth_error _ _ Hp) as [p Ep]. pose proof (In_nth_error _ _ Hq) as [q Eq].
  destruct (Nat.lt_trichotomy p q) as [Lt|[->|Lt]]; [|congruence|].
  - destruct (Q5 q p c d a b Lt Eq Ep) as (_ & _ & _ & _ & _ & E & _). rewrite E.
    cut (sg_dd w f3 zeta B none (nondeg modes) (degs modes) ax c d a b
      = sg_dd w f3 zeta B none (nondeg modes) (degs modes) ax a b c d).
    { intros ->. rewrite (G a b c d Hp Hq Ne). lra. }
    unfold sg_dd, gfrac, none, keep. rewrite (T11 c a ax).
    destruct (axial_z3 _ _ _ _ _ _ _ _ T13 a b c d Hp Hq) as (_ & _ & Z3).
    rewrite (T11 c b 2%nat), Z3.
    rewrite (Rsum_ext (A := nat) (fun m => Rsqr (f3 c a m) / 2 * _)
      (fun m => Rsqr (f3 a c m) / 2 * ((1 / (w a + w c + w m) - 1 / (w a + w m - w c) - 1 / (w a + w c - w m) - 1 / (w c + w m - w a)) / 8))).
    2:{ intros m _. rewrite (T6 c a m), (Rplus_comm (w c) (w a)). f_equal. f_equal. ring. }
    rewrite (Rsum_ext (A := nat * nat) (fun m => Rsqr (f3 c a (fst m)) * _)
      (fun m => Rsqr (f3 a c (fst m)) * ((1 / (w a + w c + w (fst m)) - 1 / (w a + w (fst m) - w c) - 1 / (w a + w c - w (fst m)) - 1 / (w c + w (fst m) - w a)) / 8))).
    2:{ intros m _. rewrite (T6 c a), (Rplus_comm (w c) (w a)). f_equal. f_equal. ring. }
    unfold Rsqr. ring.
  - destruct (Q5 p q a b c d Lt Ep Eq) as (_ & _ & _ & _ & E & _). rewrite E, (G a b c d Hp Hq Ne). lra.
Qed.

(** ** an example: one nondegenerate mode and two pairs *)
Definition gmodes : list mode := [I1 0; I2 1 2; I2 3 4]%nat.
Definition kind (i : nat) : nat := match i with 1 | 3 => 1 | 2 | 4 => 2 | _ => 0 end%nat.
Definition gw (i : nat) : R := match i with 0%nat => 10 | 1%nat | 2%nat => 7 | _ => 8 end.
Definition gf3 (i j k : nat) : R := tf3 (kind i) (kind j) (kind k).
Definition gf4 (i j k l : nat) : R := tf4 (kind i) (kind j) (kind k) (kind l).
Definition half_zeta (i j a : nat) : R :=
  match i, j, a with
  | 1%nat, 2%nat, 2%nat => 3 / 10 | 3%nat, 4%nat, 2%nat => / 5
  | 1%nat, 4%nat, 2%nat => / 10 | 2%nat, 3%nat, 2%nat => - / 10
  | 1%nat, 3%nat, 1%nat => / 4 | 2%nat, 4%nat, 1%nat => - / 4
  | 1%nat, 4%nat, 0%nat => / 4 | 2%nat, 3%nat, 0%nat => / 4
  | 0%nat, 1%nat, 0%nat => / 2 | 0%nat, 2%nat, 1%nat => / 2
  | _, _, _ => 0
  end.
Definition gzeta (i j a : nat) : R := half_zeta i j a - half_zeta j i a.

Definition gwila (_ _ : nat) : R := 0.
Lemma g_axis axis : cor_axis OblateSymmTop (degs gmodes) gwila axis -> axis = 1%nat.
Proof.
  intros [_ H]. apply H. intros (_ & N & _). apply (N 1%nat 2%nat); [now left|]. unfold gwila. rewrite Rabs_R0. lra.
Qed.
Lemma gw_apart : forall i j m, (i < 5)%nat -> (j < 5)%nat -> (m < 5)%nat -> gw i + gw j - gw m <> 0.
Proof.
  intros i j m _ _ _. assert (R : forall i, 7 <= gw i <= 10) by (intros [|[|[|?]]]; cbn; lra).
  pose proof (R i). pose proof (R j). pose proof (R m). lra.
Qed.
Lemma g_axial : axial [0%nat] [(1, 2); (3, 4)]%nat gw gf3 gf4 gzeta tB 1.
Proof.
  split; intros;
    repeat match goal with
      | H : In _ [_] |- _ => destruct H as [H|[]]; try (injection H as <- <-); try subst
      | H : In _ [_; _] |- _ => destruct H as [H|[H|[]]]; try (injection H as <- <-); try subst end;
    try lia; unfold gzeta; cbn; unfold Rsqr; repeat split; lra.
Qed.
Lemma g_field : top_field 5 gmodes gw gf3 gf4 gzeta tB OblateSymmTop gwila.
Proof.
  pose proof (t_field gwila) as T.
  split.
  - apply Permutation_refl.
  - intros i j k [H|[H|[H|[]]]]; discriminate.
  - repeat constructor.
  - intros [|[|[|i]]] Hi; cbn; lra.
  - exact gw_apart.
  - intros. apply T.
  - intros. apply T.
  - intros. apply T.
  - intros. apply T.
  - intros. apply T.
  - intros i j a. unfold gzeta. lra.
  - exists 1%nat. split; [|exact g_axial].
    pose proof (axis_lemma OblateSymmTop (degs gmodes) gwila) as A. now rewrite (g_axis _ A) in A.
Qed.
Lemma g_alike : alike OblateSymmTop gmodes gwila gzeta.
Proof.
  intros axis a b c d A Hp Hq. rewrite (g_axis _ A). clear A. cbn in Hp, Hq.
  destruct Hp as [E|[E|[]]], Hq as [E'|[E'|[]]]; injection E as <- <-; injection E' as <- <-; unfold gzeta; cbn; lra.
Qed.
Lemma g_example :
  nondeg gmodes = [0%nat] /\ degs gmodes = [(1, 2); (3, 4)]%nat /\
  top_field 5 gmodes gw gf3 gf4 gzeta tB OblateSymmTop gwila /\
  alike OblateSymmTop gmodes gwila gzeta /\
  exists s, xcals gf4 gw gf3 gzeta tB OblateSymmTop [] [] gmodes gwila = Some s.
Proof. refine (conj eq_refl (conj eq_refl (conj g_field (conj g_alike _)))). eexists. reflexivity. Qed.
