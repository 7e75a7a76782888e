(** The sextic tensor computed by [scc] is the reduced sextic form of [FormFacts]. *)
From Coq Require Import Reals Lra Lia List ZArith Arith Bool.
From Verif Require Import Num Loops Index Modes Anharm VibRot Distort.
From Verif Require Import ListFacts ModesFacts ResFacts AnharmFacts EnergyFacts VibRotFacts
  DistortFacts SexticFacts FormFacts.
Import ListNotations.
Open Scope R_scope.

Lemma cubic_sum {A} (l : list A) (k : A -> nat -> nat -> nat -> R) s x y z :
  cubic (fun a b d => Rsum l (fun u => k u a b d) / s) x y z = Rsum l (fun u => cubic (k u) x y z) / s.
Proof.
  induction l as [|u l IH]; [unfold cubic; cbn; unfold Rdiv; ring|].
  transitivity (cubic (k u) x y z / s + cubic (fun a b d => Rsum l (fun u => k u a b d) / s) x y z).
  - unfold cubic. rewrite !Rsum_cons. unfold Rdiv. ring.
  - rewrite IH, Rsum_cons. unfold Rdiv. ring.
Qed.
Lemma cubic_ext k k' x y z :
  (forall a, (a < 3)%nat -> k a a a = k' a a a) ->
  (forall a b, (a < 3)%nat -> (b < 3)%nat -> a <> b -> k a a b = k' a a b) ->
  k 0%nat 1%nat 2%nat = k' 0%nat 1%nat 2%nat -> cubic k x y z = cubic k' x y z.
Proof. intros D P T. unfold cubic. rewrite !D, !P, T by lia. reflexivity. Qed.

Section Tensor.
  Variables (nvib nfreq : nat) (B I w : nat -> R) (wl : nat -> nat -> R)
    (zm f3 : nat -> nat -> nat -> R).
  Let c := c_mat 3 nvib w I wl.
  Let tau := make_tau nvib w I wl.
  Let cc := cc_tensor nvib 3 w c zm B.
  Let cs := c_spec I w wl.

  Lemma c_spec_sym v a b : (a < 3)%nat -> (b < 3)%nat -> cs v a b = cs v b a.
  Proof.
    intros Ha Hb. unfold cs, c_spec. rewrite (acol_sym a b) by assumption. f_equal. ring.
  Qed.
  Lemma c_form_six v x y z : (v < nvib)%nat -> c_form cs v x y z = six c v x y z.
  Proof.
    intros Hv. unfold c_form. rewrite !sum3_eq. cbn [xyz].
    rewrite (c_spec_sym v 0 1), (c_spec_sym v 0 2), (c_spec_sym v 1 2) by lia.
    unfold cs. rewrite <- !(c_mat_R nvib B I w wl zm f3) by lia. cbn [acol]. unfold six, c. ring.
  Qed.

  Definition kcc (v a b d : nat) : R :=
    if (a =? b)%nat && (b =? d)%nat then cc v a a a
    else if (a =? b)%nat then cc v d a a
    else 2 * cc v 2%nat 1%nat 0%nat.
  (** the summands *)
  Definition kcor (v u a b d : nat) : R :=
    p32 (w u) * (1 / w u ^ 2 + 2 / w v ^ 2) *
    (if (a =? b)%nat && (b =? d)%nat then cs u a a * zm u v a * B a
     else if (a =? b)%nat then cs u a a * zm u v d * B d + 2 * cs u a d * zm u v a * B a
     else 2 * (cs u 1%nat 2%nat * zm u v 0%nat * B 0%nat + cs u 0%nat 2%nat * zm u v 1%nat * B 1%nat
               + cs u 0%nat 1%nat * zm u v 2%nat * B 2%nat)).
  Lemma wdiag1_acol a : (a < 3)%nat -> wdiag1 (a + 1) = acol a a.
  Proof. intros H. destruct a as [|[|[|]]]; try lia; reflexivity. Qed.
  Lemma kcc_sum v a b d : (v < nvib)%nat ->
    (a = b /\ (a < 3)%nat /\ (d < 3)%nat) \/ (a = 0 /\ b = 1 /\ d = 2)%nat ->
    kcc v a b d = Rsum (seq 0 nvib) (fun u => kcor v u a b d) / sqrt (w v).
  Proof.
    intros Hv [(<- & Ha & Hd)|(-> & -> & ->)].
    - unfold kcc, kcor. rewrite Nat.eqb_refl. cbn [andb].
      destruct (Nat.eqb_spec a d) as [<-|N].
      + unfold cc. rewrite cc_diag_lemma by (auto || lia). unfold cc_diag.
        rewrite wdiag1_acol by assumption. replace (a + 1 - 1)%nat with a by lia.
        rewrite nsum_R, range_0. cbn [ndiv nsqrt Rnum]. f_equal. apply Rsum_ext. intros u Hu.
        apply in_seq in Hu. unfold c. rewrite (c_mat_R nvib B I w wl zm f3) by lia. unfold cc_val1, nsq, p32, cs.
        cbn [ndiv nmul nadd npow32 Rnum]. rewrite !nz_R. cbn [pow]. rewrite !Rmult_1_r. ring.
      + unfold cc. destruct (cc_pairs_lemma nvib 3 w c zm B (or_intror eq_refl) v a d Hv Ha Hd N) as (-> & _).
        unfold cc_pair. rewrite wdiag1_acol by assumption. rewrite wcol1_acol by lia.
        replace (a + 1 - 1)%nat with a by lia. replace (d + 1 - 1)%nat with d by lia.
        rewrite nsum_R, range_0. cbn [ndiv nsqrt Rnum]. f_equal. apply Rsum_ext. intros u Hu.
        apply in_seq in Hu. unfold c. rewrite !(c_mat_R nvib B I w wl zm f3) by lia. unfold cc_val1, nsq, p32, cs.
        cbn [ndiv nmul nadd npow32 Rnum]. rewrite !nz_R. cbn [pow]. rewrite !Rmult_1_r. ring.
    - unfold kcc, kcor. cbn [Nat.eqb andb]. unfold cc.
      rewrite (cc_triple_lemma nvib 3 w c zm B (or_intror eq_refl) v 0 1 2) by (auto || lia).
      unfold cc_triple. rewrite !wcol1_acol by lia. cbn [Nat.add Nat.sub].
      rewrite nsum_R, range_0. cbn [ndiv nsqrt Rnum].
      unfold Rdiv. rewrite <- Rmult_assoc, <- Rsum_scal. f_equal. apply Rsum_ext. intros u Hu.
      apply in_seq in Hu. unfold c. rewrite !(c_mat_R nvib B I w wl zm f3) by lia. unfold cc_val1, nsq, p32, cs.
      cbn [ndiv nmul nadd npow32 Rnum]. rewrite !nz_R. cbn [pow]. rewrite !Rmult_1_r.
      unfold Rdiv. ring.
  Qed.
  Lemma cor_form_cubic v x y z : (v < nvib)%nat ->
    cor_form nvib B w cs zm v x y z = cubic (kcc v) x y z.
  Proof.
    intros Hv. rewrite (cubic_ext (kcc v) (fun a b d => Rsum (seq 0 nvib) (fun u => kcor v u a b d) / sqrt (w v))).
    - rewrite cubic_sum. unfold cor_form. f_equal. apply Rsum_ext. intros u Hu.
      unfold c_form. rewrite !sum3_eq. cbn [xyz].
      rewrite (c_spec_sym u 1 0), (c_spec_sym u 2 0), (c_spec_sym u 2 1) by lia.
      unfold cubic, kcor. cbn [Nat.eqb andb].
      rewrite (c_spec_sym u 1 0), (c_spec_sym u 2 0), (c_spec_sym u 2 1) by lia. ring.
    - intros a Ha. apply kcc_sum; auto.
    - intros a b Ha Hb _. apply kcc_sum; auto.
    - apply kcc_sum; auto.
  Qed.

  Definition shareB (a b d : nat) : R := 2 * Rsum (seq 0 nvib) (fun v => w v * square (kcc v) a b d).
  Lemma even_cor x y z :
    even (fun x y z => 2 * Rsum (seq 0 nvib) (fun v => w v * cor_form nvib B w cs zm v x y z ^ 2)) x y z
    = tensor_form shareB x y z.
  Proof.
    rewrite even_scal. unfold shareB. rewrite tensor_scal. f_equal.
    rewrite even_sum, tensor_sum. apply Rsum_ext. intros v Hv. apply in_seq in Hv.
    rewrite even_scal, tensor_scal. f_equal. rewrite <- even_square. apply even_ext.
    intros. rewrite cor_form_cubic by lia. reflexivity.
  Qed.

  Hypothesis f3_sym : forall u v k, f3 u v k = f3 v u k /\ f3 u v k = f3 u k v.
  Definition shareC (a b d : nat) : R := / 6 * cubes nvib f3 c a b d.
  Lemma even_cub x y z :
    even (fun x y z => / 6 * Rsum (seq 0 nvib) (fun u => Rsum (seq 0 nvib) (fun v => Rsum (seq 0 nvib) (fun k =>
        f3 u v k * c_form cs u x y z * c_form cs v x y z * c_form cs k x y z)))) x y z
    = tensor_form shareC x y z.
  Proof.
    rewrite even_scal. unfold shareC. rewrite tensor_scal. f_equal.
    rewrite <- (even_cubes nvib f3 c f3_sym). apply even_ext. intros.
    apply Rsum_ext. intros u Hu. apply Rsum_ext. intros v Hv. apply Rsum_ext. intros k Hk.
    apply in_seq in Hu, Hv, Hk. rewrite !c_form_six by lia. reflexivity.
  Qed.

  (** ** the code *)
  Hypothesis Hn : nfreq <> 6%nat.
  (** the third condition: the coefficient of the components [a] and [b] times the square of
      the remaining one *)
  Definition odd_free (tau : nat -> nat -> nat -> nat -> R) (a b : nat) : Prop :=
    tau b a a a = 0 /\ tau a b b b = 0 /\
    (let d := (3 - a - b)%nat in tau a b d d + 2 * tau a d d b = 0).
  Hypothesis gap : forall a b, (a < 3)%nat -> (b < 3)%nat -> a <> b ->
    / 200 < Rabs (B a - B b) \/ odd_free tau a b.

  Lemma srot_eq i : srot B nfreq i = B i.
  Proof. unfold srot. destruct (Nat.eqb_spec nfreq 6); [contradiction|reflexivity]. Qed.

  Lemma gap_sq a b : / 200 < Rabs (B a - B b) -> / 10000 < 4 * (B a - B b) ^ 2.
  Proof.
    intros G. rewrite <- (pow2_abs (B a - B b)).
    assert (/ 200 * / 200 < Rabs (B a - B b) * Rabs (B a - B b)).
    { apply Rmult_le_0_lt_compat; lra. }
    cbn [pow]. lra.
  Qed.

  Lemma scc_elements :
    let s := scc 3 tau B nvib nfreq w cc f3 c AsymmTop in
    (forall x, (x < 3)%nat -> s x x x = scc_diag 3 tau B nvib nfreq w cc f3 c AsymmTop x) /\
    (forall x y, (x < 3)%nat -> (y < 3)%nat -> x <> y -> s x x y = scc_pair tau B nvib nfreq w cc f3 c x y) /\
    s 0%nat 1%nat 2%nat = scc_triple tau B nvib nfreq w cc f3 c.
  Proof.
    cbv zeta. unfold scc. cbv zeta.
    generalize (scc_diag 3 tau B nvib nfreq w cc f3 c AsymmTop) as dg.
    generalize (scc_pair tau B nvib nfreq w cc f3 c) as pr.
    generalize (scc_triple tau B nvib nfreq w cc f3 c) as tr. intros tr pr dg.
    split; [|split; [|reflexivity]].
    - intros x Hx. destruct x as [|[|[|]]]; try lia; reflexivity.
    - intros x y Hx Hy N. destruct x as [|[|[|]]]; try lia; destruct y as [|[|[|]]]; try lia; reflexivity.
  Qed.

  Definition total (a b d : nat) : R :=
    shareA tau B a b d - shareB a b d + shareC a b d + shareE tau B a b d.

  Lemma thr x y : ngtb x y = Rltb y x.
  Proof. reflexivity. Qed.
  Lemma diag_total x : (x < 3)%nat -> scc_diag 3 tau B nvib nfreq w cc f3 c AsymmTop x = total x x x.
  Proof.
    intros Hx. unfold scc_diag. cbn [is_linear]. cbv zeta. rewrite wdiag1_acol by assumption.
    unfold total. unfold shareA, shareB, shareC, shareE, square, cubes, ktau, kcc.
    rewrite !Nat.eqb_refl. cbn [andb].
    rewrite !nsum_R, !range_0, !nz_R. cbn [nadd nsub nmul ndiv Rnum].
    rewrite (fold3_R (fun i j k => f3 i j k * c i (acol x x) * c j (acol x x) * c k (acol x x))).
    rewrite (fold_plus_R _ (fun e => if (e =? x)%nat then 0 else tau e x x x ^ 2 / (B x - B e))).
    2:{ intros v y Hy. apply in_seq in Hy. rewrite !srot_eq. rewrite (Nat.eqb_sym x y).
        destruct (Nat.eqb_spec y x) as [->|N]; [ring|].
        rewrite thr. unfold STOL, nsq. cbn [nabs nlit Rnum nmul pow]. rewrite Rmult_1_r.
        destruct (gap x y Hx ltac:(lia) (not_eq_sym N)) as [G|(Z & _)].
        - assert (1 / 10000 < Rabs (B x - B y)) as L by lra.
          apply Rltb_true in L. rewrite L. reflexivity.
        - rewrite Z. destruct (Rltb _ _); unfold Rdiv; ring. }
    unfold cube, sum3. change (@nlit R Rnum 1 4) with (1 / 4).
    assert (E1 : Rsum (seq 0 3) (fun y => nsq (tau y x x x) / srot B nfreq y)
      = Rsum (seq 0 3) (fun e => / B e * tau e x x x ^ 2)).
    { apply Rsum_ext. intros y _. rewrite srot_eq. unfold nsq. cbn [nmul Rnum]. unfold Rdiv. ring. }
    assert (E2 : Rsum (seq 0 nvib) (fun i => w i * nsq (cc i x x x))
      = Rsum (seq 0 nvib) (fun v => w v * cc v x x x ^ 2)).
    { apply Rsum_ext. intros v _. unfold nsq. cbn [nmul Rnum]. ring. }
    rewrite E1, E2. field.
  Qed.

  Lemma above a b k t (X : R) : (a < 3)%nat -> (b < 3)%nat -> a <> b -> 4 <= k ->
    (odd_free tau a b -> t = 0) ->
    (if Rltb (nlit 1 10000) (k * ((B a - B b) * (B a - B b)))
     then 0 + t * X / (k * ((B a - B b) * (B a - B b))) else 0)
    = t * X / (k * (B a - B b) ^ 2).
  Proof.
    intros Ha Hb N K Z. cbn [pow]. rewrite Rmult_1_r.
    destruct (gap a b Ha Hb N) as [G|Cl].
    - assert (L : nlit 1 10000 < k * ((B a - B b) * (B a - B b))).
      { cbn [nlit Rnum]. pose proof (gap_sq a b G) as Q. cbn [pow] in Q.
        assert (0 <= (B a - B b) * (B a - B b)) by apply Rle_0_sqr.
        assert (4 * ((B a - B b) * (B a - B b)) <= k * ((B a - B b) * (B a - B b))).
        { apply Rmult_le_compat_r; assumption. }
        lra. }
      apply Rltb_true in L. rewrite L. ring.
    - rewrite (Z Cl). destruct (Rltb _ _); unfold Rdiv; ring.
  Qed.

  Lemma above' a b k t (X : R) : (a < 3)%nat -> (b < 3)%nat -> a <> b -> 4 <= k ->
    (odd_free tau a b -> t = 0) ->
    (if Rltb (nlit 1 10000) (k * ((B a - B b) * (B a - B b)))
     then t * X / (k * ((B a - B b) * (B a - B b))) else 0)
    = t * X / (k * (B a - B b) ^ 2).
  Proof.
    intros. rewrite <- above by assumption. destruct (Rltb _ _); [ring|reflexivity].
  Qed.

  (** the two loops over the third axis have one turn that counts *)
  Lemma third (f : nat -> R -> R) x y : (x < 3)%nat -> (y < 3)%nat -> x <> y ->
    fold_left (fun v z => if (z =? y)%nat || (z =? x)%nat then v else f z v) (seq 0 3) 0
    = f (3 - x - y)%nat 0.
  Proof.
    intros Hx Hy N.
    destruct x as [|[|[|]]]; try lia; destruct y as [|[|[|]]]; try lia; reflexivity.
  Qed.

  Lemma tau_swap_last a b d e : (a < 3)%nat -> (b < 3)%nat -> (d < 3)%nat -> (e < 3)%nat ->
    tau a b d e = tau a b e d.
  Proof. intros. unfold tau. apply tau_sym_lemma; assumption. Qed.

  Lemma tau_pair a b d e : (a < 3)%nat -> (b < 3)%nat -> (d < 3)%nat -> (e < 3)%nat ->
    tau a b d e = tau d e a b.
  Proof. intros. unfold tau. apply tau_sym_lemma; assumption. Qed.

  Lemma pair_total x y : (x < 3)%nat -> (y < 3)%nat -> x <> y ->
    scc_pair tau B nvib nfreq w cc f3 c x y = total x x y.
  Proof.
    intros Hx Hy N. unfold scc_pair. cbv zeta. rewrite !wdiag1_acol, wcol1_acol by lia.
    replace (x + 1 - 1)%nat with x by lia. replace (y + 1 - 1)%nat with y by lia.
    unfold total. unfold shareA, shareB, shareC, shareE, square, cubes, ktau, kcc, oo.
    rewrite !Nat.eqb_refl, (proj2 (Nat.eqb_neq x y) N), (proj2 (Nat.eqb_neq y x) (not_eq_sym N)).
    cbn [andb]. cbv zeta.
    rewrite !nsum_R, !range_0, !nz_R, !srot_eq. cbn [nadd nsub nmul ndiv Rnum].
    rewrite !(third (fun z v => _)) by assumption. rewrite !srot_eq, !thr. unfold STOL, nsq.
    cbn [nadd nsub nmul ndiv nabs Rnum].
    set (z := (3 - x - y)%nat).
    assert (z < 3 /\ x <> z /\ y <> z)%nat as (Hz & Nx & Ny) by (unfold z; lia).
    rewrite (above x z 4 (tau z x x x)).
    2-5: (assumption || lra). 2: intros Cl; apply Cl.
    rewrite (above y z 8 (tau z y x x + 2 * tau z x y x)).
    2-5: (assumption || lra).
    2:{ intros (_ & _ & Z). replace (3 - y - z)%nat with x in Z by (unfold z; lia). cbv zeta in Z.
        rewrite <- Z. f_equal; [unfold tau; apply tau_sym_lemma; assumption|].
        f_equal. rewrite (tau_pair z x y x) by assumption. apply tau_swap_last; assumption. }
    assert (T8 : (if Rltb (nlit 1 10000) (Rabs (8 * (B x - B y)))
        then 0 + (4 * tau y y y x - 3 * tau y x x x) * tau y x x x / (8 * (B x - B y)) else 0)
      = (4 * tau y y y x - 3 * tau y x x x) * tau y x x x / (8 * (B x - B y))).
    { destruct (gap x y Hx Hy N) as [G|(Z & _)].
      - assert (L : nlit 1 10000 < Rabs (8 * (B x - B y))).
        { cbn [nlit Rnum]. rewrite Rabs_mult, (Rabs_right 8) by lra. lra. }
        apply Rltb_true in L. rewrite L. ring.
      - rewrite Z. destruct (Rltb _ _); unfold Rdiv; ring. }
    rewrite T8.
    rewrite (fold3_R (fun i j k => f3 i j k * c k (acol x x)
       * (c j (acol x x) * c i (acol y y) + 4 * c j (acol x y) * c i (acol x y)))).
    assert (E1 : Rsum (seq 0 3) (fun z0 => ((tau z0 y x x + 2 * tau z0 x y x) * (tau z0 y x x + 2 * tau z0 x y x)
          + 2 * tau z0 x x x * (tau z0 x y y + 2 * tau z0 y y x)) / srot B nfreq z0)
      = 2 * sum3 (fun e => / B e * (/ 2 * ((tau e y x x + 2 * tau e x y x) ^ 2
          + 2 * tau e x x x * (tau e x y y + 2 * tau e y x y))))).
    { unfold sum3. rewrite <- Rsum_scal. apply Rsum_ext. intros e He. apply in_seq in He.
      rewrite srot_eq, (tau_swap_last e y y x) by lia. unfold Rdiv. generalize (/ B e). intros r. field. }
    assert (E2 : Rsum (seq 0 nvib) (fun i => w i * (cc i y x x * cc i y x x + 2 * cc i x x x * cc i y y x))
      = Rsum (seq 0 nvib) (fun v => w v * (cc v y x x ^ 2 + 2 * cc v x x x * cc v x y y))).
    { apply Rsum_ext. intros v Hv. apply in_seq in Hv.
      assert (cc v y y x = cc v x y y) as ->.
      { unfold cc. apply (cc_sym_lemma nvib 3 w c zm B v y y x); auto; lia. }
      ring. }
    assert (E3 : Rsum (seq 0 nvib) (fun i => Rsum (seq 0 nvib) (fun j => Rsum (seq 0 nvib) (fun k =>
        f3 i j k * c k (acol x x) * (c j (acol x x) * c i (acol y y) + 4 * c j (acol x y) * c i (acol x y)))))
      = cube nvib f3 c (acol y y) (acol x x) (acol x x) + 4 * cube nvib f3 c (acol x y) (acol x y) (acol x x)).
    { unfold cube. rewrite <- Rsum_scal, <- Rsum_plus. apply Rsum_ext. intros i _.
      rewrite <- Rsum_scal, <- Rsum_plus. apply Rsum_ext. intros j _.
      rewrite <- Rsum_scal, <- Rsum_plus. apply Rsum_ext. intros k _. ring. }
    rewrite E1, E2, E3.
    rewrite <- (Rsum_ext (fun v => / 2 * (w v * (cc v y x x ^ 2 + 2 * cc v x x x * cc v x y y)))
      (fun v => w v * (/ 2 * (cc v y x x ^ 2 + 2 * cc v x x x * cc v x y y)))) by (intros; ring).
    rewrite Rsum_scal.
    set (sA := sum3 _). set (sB := Rsum _ _). clearbody sA sB. clear E1 E2 E3.
    generalize (cube nvib f3 c). intros m. clear T8.
    rewrite (tau_swap_last z y y x) by assumption.
    unfold Rdiv.
    generalize (/ (8 * (B x - B y))) (/ (4 * (B x - B z) ^ 2)) (/ (8 * (B y - B z) ^ 2)).
    intros r1 r2 r3. field.
  Qed.

  Lemma triple_total : scc_triple tau B nvib nfreq w cc f3 c = total 0 1 2.
  Proof.
    unfold scc_triple. cbv zeta.
    unfold total. unfold shareA, shareB, shareC, shareE, square, cubes, ktau, kcc, block.
    cbn [Nat.eqb andb Nat.sub].
    rewrite !nsum_R, !range_0, !nz_R, !srot_eq. cbn [nadd nsub nmul ndiv Rnum].
    rewrite !thr. unfold STOL, nsq. cbn [nadd nsub nmul ndiv nabs Rnum].
    assert (SW : forall a b, (a < 3)%nat -> (b < 3)%nat -> tau a b b b = tau b b b a).
    { intros a b Ha Hb. rewrite tau_pair by assumption. apply tau_swap_last; assumption. }
    rewrite (above' 1 2 4 (3 * (tau 2%nat 1%nat 1%nat 1%nat - tau 2%nat 2%nat 2%nat 1%nat))) by
      (lia || lra || (intros (Z1 & Z2 & _); rewrite <- SW, Z1, Z2 by lia; ring)).
    rewrite (above' 2 0 4 (3 * (tau 2%nat 2%nat 2%nat 0%nat - tau 2%nat 0%nat 0%nat 0%nat))) by
      (lia || lra || (intros (Z1 & Z2 & _); rewrite <- SW, Z1, Z2 by lia; ring)).
    rewrite (above' 0 1 4 (3 * (tau 1%nat 0%nat 0%nat 0%nat - tau 1%nat 1%nat 1%nat 0%nat))) by
      (lia || lra || (intros (Z1 & Z2 & _); rewrite <- SW, Z1, Z2 by lia; ring)).
    rewrite (fold3_R (fun i j k => f3 i j k
          * (c i 0%nat * c j 2%nat * c k 5%nat
             + 2 * c i 0%nat * c j 4%nat * c k 4%nat
             + 2 * c i 2%nat * c j 3%nat * c k 3%nat
             + 2 * c i 5%nat * c j 1%nat * c k 1%nat
             + 8 * c i 4%nat * c j 3%nat * c k 1%nat))).
    match goal with |- context [3 * Rsum (seq 0 3) ?f / 16] => set (fA := f) end.
    match goal with |- context [_ - Rsum (seq 0 nvib) ?f * 2] => set (fB := f) end.
    assert (E1 : Rsum (seq 0 3) fA = sum3 (fun e => / B e * (/ 2 *
      ((2 * (tau e 0%nat 1%nat 2%nat + tau e 1%nat 2%nat 0%nat + tau e 2%nat 0%nat 1%nat)) ^ 2
       + 2 * ((tau e 0%nat 1%nat 1%nat + 2 * tau e 1%nat 0%nat 1%nat)
               * (tau e 0%nat 2%nat 2%nat + 2 * tau e 2%nat 0%nat 2%nat)
             + (tau e 1%nat 0%nat 0%nat + 2 * tau e 0%nat 1%nat 0%nat)
               * (tau e 1%nat 2%nat 2%nat + 2 * tau e 2%nat 1%nat 2%nat)
             + (tau e 2%nat 0%nat 0%nat + 2 * tau e 0%nat 2%nat 0%nat)
               * (tau e 2%nat 1%nat 1%nat + 2 * tau e 1%nat 2%nat 1%nat)))))).
    { unfold sum3. apply Rsum_ext. intros e _. unfold fA. rewrite srot_eq. unfold Rdiv.
      generalize (/ B e). intros r. field. }
    assert (E2 : Rsum (seq 0 nvib) fB = Rsum (seq 0 nvib) (fun v => w v * (/ 2 *
      ((2 * cc v 2%nat 1%nat 0%nat) ^ 2
       + 2 * (cc v 0%nat 1%nat 1%nat * cc v 0%nat 2%nat 2%nat + cc v 1%nat 0%nat 0%nat * cc v 1%nat 2%nat 2%nat
              + cc v 2%nat 0%nat 0%nat * cc v 2%nat 1%nat 1%nat))))).
    { apply Rsum_ext. intros v Hv. apply in_seq in Hv. unfold fB.
      assert (G : forall a b, (a < 3)%nat -> (b < 3)%nat -> cc v a a b = cc v b a a).
      { intros a b Ha Hb. unfold cc. apply (cc_sym_lemma nvib 3 w c zm B v a a b); auto; lia. }
      rewrite (G 1%nat 0%nat), (G 2%nat 0%nat), (G 2%nat 1%nat) by lia. field. }
    assert (E3 : Rsum (seq 0 nvib) (fun i => Rsum (seq 0 nvib) (fun j => Rsum (seq 0 nvib) (fun k =>
        f3 i j k
          * (c i 0%nat * c j 2%nat * c k 5%nat
             + 2 * c i 0%nat * c j 4%nat * c k 4%nat
             + 2 * c i 2%nat * c j 3%nat * c k 3%nat
             + 2 * c i 5%nat * c j 1%nat * c k 1%nat
             + 8 * c i 4%nat * c j 3%nat * c k 1%nat))))
      = cube nvib f3 c 0 2 5 + 2 * cube nvib f3 c 0 4 4 + 2 * cube nvib f3 c 2 3 3
        + 2 * cube nvib f3 c 5 1 1 + 8 * cube nvib f3 c 4 3 1).
    { unfold cube. rewrite <- !Rsum_scal, <- !Rsum_plus. apply Rsum_ext. intros i _.
      rewrite <- !Rsum_scal, <- !Rsum_plus. apply Rsum_ext. intros j _.
      rewrite <- !Rsum_scal, <- !Rsum_plus. apply Rsum_ext. intros k _. ring. }
    rewrite E1, E2, E3. clear E1 E2 E3 fA fB.
    set (sA := sum3 _). set (sB := Rsum _ _). clearbody sA sB.
    generalize (cube nvib f3 c). intros m. rewrite nlit_half. clear SW.
    unfold Rdiv.
    generalize (/ (4 * (B 1%nat - B 2%nat) ^ 2)) (/ (4 * (B 2%nat - B 0%nat) ^ 2)) (/ (4 * (B 0%nat - B 1%nat) ^ 2)).
    intros r1 r2 r3. field.
  Qed.
End Tensor.

(** the tensor in terms of the inputs *)
Lemma sextic_tensor_lemma nvib nfreq (B I w : nat -> R) wl zm f3 :
  nfreq <> 6%nat ->
  (forall u v k, f3 u v k = f3 v u k /\ f3 u v k = f3 u k v) ->
  let tau := tau_spec nvib w I wl in
  (forall a b, (a < 3)%nat -> (b < 3)%nat -> a <> b -> / 200 < Rabs (B a - B b) \/ odd_free tau a b) ->
  exists S O : poly,
    (forall x y z, quartic_form tau x y z - even (quartic_form tau) x y z = ev O x y z) /\
    (forall x y z, bracket S (rigid B) x y z = - ev O x y z) /\
    forall x y z,
      even (fun x y z => sextic_form nvib B w tau (c_spec I w wl) zm f3 x y z + / 2 * bracket S O x y z) x y z
      = tensor_form (phi6 nvib nfreq B I w wl zm f3) x y z.
Proof.
  intros Hn Hs tau gap.
  assert (TS : forall a b d e, (a < 3)%nat -> (b < 3)%nat -> (d < 3)%nat -> (e < 3)%nat ->
    tau a b d e = tau b a d e /\ tau a b d e = tau a b e d /\ tau a b d e = tau d e a b).
  { intros a b d e Ha Hb Hd He.
    destruct (tau_sym_lemma nvib w I wl a b d e Ha Hb Hd He) as (E & E1 & E2 & E3).
    unfold tau. rewrite <- !make_tau_R by assumption. auto. }
  assert (FM : forall a b, (a < 3)%nat -> (b < 3)%nat -> a <> b -> family tau B a b).
  { intros a b Ha Hb N. destruct (gap a b Ha Hb N) as [G|Cl]; [left|right; exact Cl].
    intros E. rewrite E, Rminus_diag_eq, Rabs_R0 in G by reflexivity. lra. }
  pose proof (FM 0 1 ltac:(lia) ltac:(lia) ltac:(lia))%nat as F01.
  pose proof (FM 1 2 ltac:(lia) ltac:(lia) ltac:(lia))%nat as F12.
  pose proof (FM 2 0 ltac:(lia) ltac:(lia) ltac:(lia))%nat as F20.
  assert (gap' : forall a b, (a < 3)%nat -> (b < 3)%nat -> a <> b ->
    / 200 < Rabs (B a - B b) \/ odd_free (make_tau nvib w I wl) a b).
  { intros a b Ha Hb N. destruct (gap a b Ha Hb N) as [G|Cl]; [now left|right].
    unfold odd_free in *. cbv zeta in *. rewrite !make_tau_R by lia. exact Cl. }
  exists (gen_poly tau B), (odd_poly tau).
  split; [intros; now apply quartic_odd|].
  split; [intros; now apply gen_lemma|].
  intros x y z. rewrite even_plus, even_extra by assumption.
  unfold sextic_form. rewrite even_plus, even_minus.
  rewrite even_tau by assumption. rewrite (even_cor nvib B I w wl zm f3), (even_cub nvib B I w wl zm f3 Hs).
  rewrite <- tensor_minus, <- !tensor_plus.
  unfold phi6. cbv zeta.
  pose proof (scc_elements nvib nfreq B I w wl zm f3 Hs Hn gap') as E. cbv zeta in E. destruct E as (D & P & T).
  apply tensor_ext.
  - intros a Ha. rewrite D, diag_total by assumption. unfold total, shareA, shareE, square, ktau.
    rewrite !Nat.eqb_refl. cbn [andb]. rewrite !sum3_eq. rewrite !make_tau_R by lia. reflexivity.
  - intros a b Ha Hb N. rewrite P, pair_total by assumption.
    unfold total, shareA, shareE, square, ktau, oo.
    rewrite !Nat.eqb_refl, (proj2 (Nat.eqb_neq a b) N), (proj2 (Nat.eqb_neq b a) (not_eq_sym N)).
    cbn [andb]. rewrite !sum3_eq. rewrite !make_tau_R by lia. reflexivity.
  - rewrite T, triple_total by assumption. unfold total, shareA, shareE, square, ktau.
    cbn [Nat.eqb andb]. rewrite !sum3_eq. rewrite !make_tau_R by lia. reflexivity.
Qed.
