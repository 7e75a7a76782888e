(** The signs of the normal modes: no reported number depends on them. *)
From Coq Require Import Reals Lra List ZArith Arith Lia Bool Permutation FunctionalExtensionality.
From Verif Require Import Num Loops ListFacts Index Modes ResFacts Anharm AnharmFacts FermiFacts
  VibRot Distort SymE0.
Import ListNotations.
Open Scope nat_scope.
Local Open Scope R_scope.

(** two loops whose bodies keep a relation *)
Lemma fold_rel {A S S'} (P : S -> S' -> Prop) (f : S -> A -> S) (g : S' -> A -> S') l :
  (forall s s' a, In a l -> P s s' -> P (f s a) (g s' a)) ->
  forall s s', P s s' -> P (fold_left f l s) (fold_left g l s').
Proof.
  induction l as [|a l IH]; intros Hf s s' Hs; cbn [fold_left]; [exact Hs|].
  apply IH; [intros; apply Hf; auto; now right|]. apply Hf; auto. now left.
Qed.

Section Signs.
  Variable s : nat -> R.
  Hypothesis Hs : forall i, s i = 1 \/ s i = -1.

  Definition sg1 (w : nat -> nat -> R) : nat -> nat -> R := fun i t => s i * w i t.
  Definition sg2 (z : nat -> nat -> nat -> R) : nat -> nat -> nat -> R := fun i j a => s i * s j * z i j a.
  Definition sg3 (f : nat -> nat -> nat -> R) : nat -> nat -> nat -> R := fun i j k => s i * s j * s k * f i j k.
  Definition sg4 (f : nat -> nat -> nat -> nat -> R) : nat -> nat -> nat -> nat -> R :=
    fun i j k l => s i * s j * s k * s l * f i j k l.

  Ltac sgn := repeat match goal with |- context [s ?i] =>
      let Q := fresh in destruct (Hs i) as [Q|Q]; rewrite ?Q; clear Q end;
    unfold Rdiv; try ring.

  Lemma abs_sg2 z i j a : Rabs (sg2 z i j a) = Rabs (z i j a).
  Proof.
    unfold sg2. sgn; first [f_equal; ring | rewrite <- (Rabs_Ropp (z i j a)); f_equal; ring].
  Qed.
  Lemma abs_sg3 f i j k : Rabs (sg3 f i j k) = Rabs (f i j k).
  Proof.
    unfold sg3. sgn; first [f_equal; ring | rewrite <- (Rabs_Ropp (f i j k)); f_equal; ring].
  Qed.

  Variables (nvib : nat) (f4 : nat -> nat -> nat -> nat -> R) (freq : nat -> R)
    (f3 : nat -> nat -> nat -> R) (zm : nat -> nat -> nat -> R) (wl : nat -> nat -> R)
    (rotcon primat : nat -> R).

  Lemma cor_test_sg i j ax lbl : cor_test freq (sg2 zm) i j ax lbl = cor_test freq zm i j ax lbl.
  Proof. unfold cor_test. cbn [nabs Rnum]. now rewrite abs_sg2. Qed.
  Lemma ferm1_test_sg i j : ferm1_test freq (sg3 f3) i j = ferm1_test freq f3 i j.
  Proof. unfold ferm1_test. cbn [nabs Rnum]. now rewrite abs_sg3. Qed.
  Lemma ferm2_test_sg i j k : ferm2_test freq (sg3 f3) i j k = ferm2_test freq f3 i j k.
  Proof. unfold ferm2_test. cbn [nabs Rnum]. now rewrite abs_sg3. Qed.
  Lemma ferm2_test'_sg i j k : ferm2_test' freq (sg3 f3) i j k = ferm2_test' freq f3 i j k.
  Proof. unfold ferm2_test'. cbn [nabs Rnum]. now rewrite ?abs_sg3. Qed.

  Lemma coriolis_sg r modes : coriolis r modes freq (sg2 zm) = coriolis r modes freq zm.
  Proof.
    assert (E : cor_test freq (sg2 zm) = cor_test freq zm).
    { extensionality i. extensionality j. extensionality a. extensionality l. apply cor_test_sg. }
    unfold coriolis. now rewrite E.
  Qed.
  Lemma fermi1_sg r modes : fermi1 r modes freq (sg3 f3) = fermi1 r modes freq f3.
  Proof.
    assert (E : ferm1_test freq (sg3 f3) = ferm1_test freq f3).
    { extensionality i. extensionality j. apply ferm1_test_sg. }
    unfold fermi1. now rewrite E.
  Qed.
  Lemma fermi2_sg r modes : fermi2 r modes freq (sg3 f3) = fermi2 r modes freq f3.
  Proof.
    assert (E : ferm2_test freq (sg3 f3) = ferm2_test freq f3).
    { extensionality i. extensionality j. extensionality k. apply ferm2_test_sg. }
    assert (E' : ferm2_test' freq (sg3 f3) = ferm2_test' freq f3).
    { extensionality i. extensionality j. extensionality k. apply ferm2_test'_sg. }
    unfold fermi2. now rewrite E, E'.
  Qed.

  Lemma make_tau_sg : make_tau nvib freq primat (sg1 wl) = make_tau nvib freq primat wl.
  Proof.
    extensionality i. extensionality j. extensionality k. extensionality l.
    unfold make_tau. rewrite !nsum_R. f_equal. apply Rsum_ext. intros v _. unfold sg1.
    cbn [nmul ndiv nsq Rnum]. unfold nsq. cbn [nmul Rnum]. sgn.
  Qed.

  Lemma quartic_sg r : quartic_new r nvib rotcon primat freq (sg1 wl) = quartic_new r nvib rotcon primat freq wl.
  Proof. unfold quartic_new. now rewrite make_tau_sg. Qed.

  Lemma xcalc_diag_sg c k : xcalc_diag nvib (sg4 f4) freq (sg3 f3) c k = xcalc_diag nvib f4 freq f3 c k.
  Proof.
    unfold xcalc_diag, acc_sub, sg4, sg3, nsq. f_equal.
    - unR. cbn [ndiv Rnum]. sgn.
    - apply fold_ext. intros a l _. cbn [nsub nmul Rnum]. f_equal.
      destruct (flagged c k k l); cbn [ndiv nmul nadd Rnum]; sgn.
  Qed.
  Lemma xcalc_off_sg c k l : xcalc_off nvib (sg4 f4) freq (sg3 f3) (sg2 zm) rotcon c k l
    = xcalc_off nvib f4 freq f3 zm rotcon c k l.
  Proof.
    unfold xcalc_off, acc_sub, nsum, acc_add, sg4, sg3, sg2, nsq. f_equal; [f_equal; [f_equal|]|].
    - cbn [ndiv nmul Rnum]. sgn.
    - apply fold_ext. intros a m _. cbn [nsub nmul ndiv Rnum]. f_equal. sgn.
    - apply fold_ext. intros a m _. cbn [nadd nmul nopp Rnum]. f_equal. sgn.
    - cbn [nadd nmul ndiv Rnum]. sgn.
  Qed.
  Lemma xcalc_sg fm1 fm2 : xcalc nvib (sg4 f4) freq (sg3 f3) (sg2 zm) rotcon fm1 fm2
    = xcalc nvib f4 freq f3 zm rotcon fm1 fm2.
  Proof.
    unfold xcalc.
    assert (E1 : xcalc_diag nvib (sg4 f4) freq (sg3 f3) = xcalc_diag nvib f4 freq f3).
    { extensionality c. extensionality k. apply xcalc_diag_sg. }
    assert (E2 : xcalc_off nvib (sg4 f4) freq (sg3 f3) (sg2 zm) rotcon = xcalc_off nvib f4 freq f3 zm rotcon).
    { extensionality c. extensionality k. extensionality l. apply xcalc_off_sg. }
    now rewrite E1, E2.
  Qed.

  Lemma make_e0_sg c modes : make_e0 (sg4 f4) freq (sg3 f3) c modes = make_e0 f4 freq f3 c modes.
  Proof.
    assert (E1 : e0_kkl freq (sg3 f3) c = e0_kkl freq f3 c).
    { extensionality k. extensionality l. unfold e0_kkl, sg3, nsq. destruct (check1 (ifrm1 c) k l); cbn [ndiv nmul Rnum]; sgn. }
    assert (E2 : e0_klm freq (sg3 f3) c = e0_klm freq f3 c).
    { extensionality k. extensionality l. extensionality m. unfold e0_klm, sg3, nsq.
      destruct (flagged c k l m); [cbn [ndiv nmul nadd nsub Rnum]; sgn|].
      destruct (flagged c l m k); [cbn [ndiv nmul nadd nsub Rnum]; sgn|].
      destruct (flagged c k m l); cbn [ndiv nmul nadd nsub Rnum]; sgn. }
    unfold make_e0. rewrite E1, E2. do 2 f_equal. f_equal.
    - unfold nsum, acc_add, sg4. apply fold_ext. intros a k _. cbn [nadd ndiv Rnum]. f_equal. sgn.
    - unfold nsum, acc_add, sg3, nsq. apply fold_ext. intros a k _. cbn [nadd ndiv nmul nopp Rnum]. f_equal. sgn.
  Qed.

  Lemma alpha_sg cor i x : alpha nvib rotcon primat freq (sg1 wl) (sg2 zm) (sg3 f3) cor i x
    = alpha nvib rotcon primat freq wl zm f3 cor i x.
  Proof.
    unfold alpha, cor_res, cor_def, nsum, acc_add, nsq, sg1, sg2, sg3. cbn [nadd nmul ndiv nsub Rnum].
    f_equal. f_equal; [f_equal|].
    - f_equal. apply fold_ext. intros a y _. f_equal. sgn.
    - apply fold_ext. intros a j _. destruct (Nat.eqb j i); [reflexivity|].
      destruct (check2 (make_icorol cor) i j x); f_equal; sgn.
    - f_equal. apply fold_ext. intros a j _. f_equal. sgn.
  Qed.
  Lemma alphaa_sg modes states cor :
    alphaa nvib rotcon primat freq (sg1 wl) (sg2 zm) (sg3 f3) modes states cor
    = alphaa nvib rotcon primat freq wl zm f3 modes states cor.
  Proof.
    unfold alphaa.
    assert (E : alpha nvib rotcon primat freq (sg1 wl) (sg2 zm) (sg3 f3) = alpha nvib rotcon primat freq wl zm f3).
    { extensionality c. extensionality i. extensionality x. apply alpha_sg. }
    now rewrite E.
  Qed.

  (** the tensors of the sextic constants *)
  Lemma c_mat_sg mc pr : c_mat mc nvib freq pr (sg1 wl) = sg1 (c_mat mc nvib freq pr wl).
  Proof.
    assert (G : forall i z, c_mat mc nvib freq pr (sg1 wl) i z = s i * c_mat mc nvib freq pr wl i z).
    { unfold c_mat. refine (fold_rel (fun c c' : nat -> nat -> R => forall i z, c i z = s i * c' i z) _ _ _ _ _ _ _).
      - intros c c' i _ Hc.
        refine (fold_rel (fun c c' : nat -> nat -> R => forall i z, c i z = s i * c' i z) _ _ _ _ _ _ Hc).
        clear c c' Hc. intros c c' x _ Hc.
        refine (fold_rel (fun c c' : nat -> nat -> R => forall i z, c i z = s i * c' i z) _ _ _ _ _ _ Hc).
        clear c c' Hc. intros c c' y _ Hc i' z'. unfold upd2, sg1.
        destruct (Nat.eqb_spec i' i) as [->|]; cbn [andb]; [|apply Hc].
        destruct (Nat.eqb z' (ioff (x + 1) + y)) eqn:Z; [|apply Hc].
        cbn [ndiv Rnum]. unfold Rdiv. ring.
      - intros. cbn [nz]. rewrite nz_R. ring. }
    extensionality i. extensionality z. apply G.
  Qed.
  Lemma cc_tensor_sg mc c : cc_tensor nvib mc freq (sg1 c) (sg2 zm) rotcon
    = fun i x y z => s i * cc_tensor nvib mc freq c zm rotcon i x y z.
  Proof.
    assert (M : forall f (l : list nat) i (g g' : nat -> R), (forall j, g j = s i * g' j) ->
      fold_left (fun acc j => acc + g j) l (s i * f) = s i * fold_left (fun acc j => acc + g' j) l f).
    { intros f l i g g' E. revert f. induction l as [|j l IH]; intros f; [reflexivity|]. cbn [fold_left].
      rewrite E, <- IH. f_equal. ring. }
    assert (D : forall i x, cc_diag nvib freq (sg1 c) (sg2 zm) rotcon i x = s i * cc_diag nvib freq c zm rotcon i x).
    { intros i x. unfold cc_diag. rewrite !nsum_R. cbn [ndiv Rnum]. unfold Rdiv. rewrite <- Rmult_assoc. f_equal.
      rewrite <- Rsum_scal. apply Rsum_ext. intros j _. unfold sg1, sg2. cbn [nmul Rnum]. destruct (Hs j) as [-> | ->]; ring. }
    assert (Pp : forall i x y, cc_pair nvib freq (sg1 c) (sg2 zm) rotcon i x y = s i * cc_pair nvib freq c zm rotcon i x y).
    { intros i x y. unfold cc_pair. rewrite !nsum_R. cbn [ndiv Rnum]. unfold Rdiv. rewrite <- Rmult_assoc. f_equal.
      rewrite <- Rsum_scal. apply Rsum_ext. intros j _. unfold sg1, sg2. cbn [nmul nadd Rnum]. destruct (Hs j) as [-> | ->]; ring. }
    assert (T : forall i x y z, cc_triple nvib freq (sg1 c) (sg2 zm) rotcon i x y z = s i * cc_triple nvib freq c zm rotcon i x y z).
    { intros i x y z. unfold cc_triple. rewrite !nsum_R. cbn [ndiv Rnum]. unfold Rdiv. rewrite <- Rmult_assoc. f_equal.
      rewrite <- Rsum_scal. apply Rsum_ext. intros j _. unfold sg1, sg2. cbn [nmul nadd Rnum]. destruct (Hs j) as [-> | ->]; ring. }
    set (P := fun cc cc' : nat -> nat -> nat -> nat -> R => forall i x y z, cc i x y z = s i * cc' i x y z).
    assert (U : forall cc cc' i x y z v v', P cc cc' -> v = s i * v' -> P (upd4 cc i x y z v) (upd4 cc' i x y z v')).
    { intros cc cc' i x y z v v' Hc Hv i1 x1 y1 z1. unfold upd4.
      destruct (Nat.eqb_spec i1 i) as [->|]; cbn [andb]; [|apply Hc].
      destruct (Nat.eqb x1 x && Nat.eqb y1 y && Nat.eqb z1 z)%bool eqn:Z.
      - now rewrite ?Z.
      - rewrite ?Z. apply Hc. }
    assert (G : P (cc_tensor nvib mc freq (sg1 c) (sg2 zm) rotcon) (cc_tensor nvib mc freq c zm rotcon)).
    { unfold cc_tensor. apply (fold_rel P).
      2:{ intros i x y z. rewrite nz_R. ring. }
      intros cc cc' i _ Hc. apply (fold_rel P); [|exact Hc]. clear cc cc' Hc. intros cc cc' x _ Hc. cbv zeta.
      apply (fold_rel P); [|apply U; [exact Hc|apply D]]. clear cc cc' Hc. intros cc cc' y _ Hc.
      destruct (Nat.eqb x y); [exact Hc|].
      apply (fold_rel P); [|repeat (apply U; [|apply Pp]); exact Hc].
      clear cc cc' Hc. intros cc cc' z _ Hc. destruct (Nat.eqb x z || Nat.eqb y z)%bool; [exact Hc|].
      apply U; [exact Hc|apply T]. }
    extensionality i. extensionality x. extensionality y. extensionality z. apply G.
  Qed.

  Section Scc.
    Variables (mc : nat) (tau : nat -> nat -> nat -> nat -> R) (nfreq : nat)
      (cc : nat -> nat -> nat -> nat -> R) (c : nat -> nat -> R) (r : rotor).
    Notation cc' := (fun i x y z => s i * cc i x y z).
    Lemma scc_diag_sg x : scc_diag mc tau rotcon nvib nfreq freq cc' (sg3 f3) (sg1 c) r x
      = scc_diag mc tau rotcon nvib nfreq freq cc f3 c r x.
    Proof.
      unfold scc_diag. cbv zeta. f_equal. f_equal; [f_equal|].
      - f_equal. unfold nsum, acc_add. apply fold_ext. intros a i _. unfold nsq. cbn [nadd nmul Rnum]. f_equal. sgn.
      - f_equal. apply fold_ext. intros a i _. apply fold_ext. intros a0 j _. apply fold_ext. intros a1 k _.
        unfold sg3, sg1. cbn [nadd nmul Rnum]. f_equal. sgn.
    Qed.
    Lemma scc_pair_sg x y : scc_pair tau rotcon nvib nfreq freq cc' (sg3 f3) (sg1 c) x y
      = scc_pair tau rotcon nvib nfreq freq cc f3 c x y.
    Proof.
      unfold scc_pair. cbv zeta. do 3 f_equal. f_equal; [f_equal|].
      - unfold nsum, acc_add. apply fold_ext. intros a i _. unfold nsq. cbn [nadd nmul Rnum]. f_equal. sgn.
      - f_equal. apply fold_ext. intros a i _. apply fold_ext. intros a0 j _. apply fold_ext. intros a1 k _.
        unfold sg3, sg1. cbn [nadd nmul Rnum]. f_equal. sgn.
    Qed.
    Lemma scc_triple_sg : scc_triple tau rotcon nvib nfreq freq cc' (sg3 f3) (sg1 c)
      = scc_triple tau rotcon nvib nfreq freq cc f3 c.
    Proof.
      unfold scc_triple. cbv zeta. do 3 f_equal. f_equal; [f_equal|].
      - f_equal. unfold nsum, acc_add. apply fold_ext. intros a i _. unfold nsq. cbn [nadd nmul Rnum]. f_equal. sgn.
      - f_equal. apply fold_ext. intros a i _. apply fold_ext. intros a0 j _. apply fold_ext. intros a1 k _.
        unfold sg3, sg1. cbn [nadd nmul Rnum]. f_equal. sgn.
    Qed.
    Lemma scc_sg : scc mc tau rotcon nvib nfreq freq cc' (sg3 f3) (sg1 c) r
      = scc mc tau rotcon nvib nfreq freq cc f3 c r.
    Proof.
      unfold scc. rewrite scc_triple_sg.
      assert (E1 : scc_diag mc tau rotcon nvib nfreq freq cc' (sg3 f3) (sg1 c) r = scc_diag mc tau rotcon nvib nfreq freq cc f3 c r)
        by (extensionality x; apply scc_diag_sg).
      assert (E2 : scc_pair tau rotcon nvib nfreq freq cc' (sg3 f3) (sg1 c) = scc_pair tau rotcon nvib nfreq freq cc f3 c)
        by (extensionality x; extensionality y; apply scc_pair_sg).
      now rewrite E1, E2.
    Qed.
  End Scc.
End Signs.

Lemma sextic_sg s (Hs : forall i, s i = 1 \/ s i = -1) r nvib nfreq rotcon primat freq wl zm f3 :
  sextic_new r nvib nfreq rotcon primat freq (sg1 s wl) (sg2 s zm) (sg3 s f3)
  = sextic_new r nvib nfreq rotcon primat freq wl zm f3.
Proof.
  unfold sextic_new. cbv zeta. rewrite make_tau_sg, c_mat_sg, cc_tensor_sg, scc_sg by exact Hs. reflexivity.
Qed.

(** ** Fermi resonances: the sign of the coupling *)
Lemma rsfrm_sg eig2 f3 f3' o eng : (forall a b c, eig_ok eig2 a b c) ->
  coupling f3' o = coupling f3 o \/ coupling f3' o = - coupling f3 o ->
  rsfrm eig2 f3' o eng = rsfrm eig2 f3 o eng.
Proof.
  intros He Hc. unfold rsfrm. destruct (op_levels o) as [p q].
  destruct (nth_error eng p) as [ep|]; [|reflexivity]. destruct (nth_error eng q) as [eq|]; [|reflexivity].
  destruct (nth_error eng 0) as [e0|]; [|reflexivity]. cbn [obind nsub Rnum].
  destruct Hc as [-> | Hc]; [reflexivity|].
  destruct (Req_dec (coupling f3 o) 0) as [Z|Z].
  { rewrite Hc, Z, Ropp_0. reflexivity. }
  set (b := coupling f3 o) in *. rewrite Hc. clearbody b. clear Hc.
  set (x := ep - e0). set (y := eq - e0).
  destruct (He x b y) as (l0 & l1 & u & v & u' & v' & E & Hl & X1 & X2 & X3 & X4 & X5 & X6 & X7).
  destruct (He x (- b) y) as (k0 & k1 & g & h & g' & h' & E' & Hk & Y1 & Y2 & Y3 & Y4 & Y5 & Y6 & Y7).
  destruct (eig_facts _ _ _ _ _ _ _ _ _ X1 X2 X3 X4 X5 X6 X7) as (T1 & D1 & F1).
  destruct (eig_facts _ _ _ _ _ _ _ _ _ Y1 Y2 Y3 Y4 Y5 Y6 Y7) as (T2 & D2 & F2).
  rewrite E, E'.
  assert (K : (k0 - l0) * (k0 - l1) = 0).
  { replace ((k0 - l0) * (k0 - l1)) with (k0 * k0 - k0 * (l0 + l1) + l0 * l1) by ring.
    rewrite T1, D1, <- T2. replace (x * y - b * b) with (x * y - - b * - b) by ring. rewrite <- D2. ring. }
  assert (k0 = l0 /\ k1 = l1) as [-> ->].
  { apply Rmult_integral in K. destruct K; split; lra. }
  assert (P : 0 < l1 - l0).
  { destruct (Req_dec l0 l1) as [Q|Q]; [|lra]. exfalso. subst l1.
    assert (0 < b * b) by nra. nra. }
  assert (S : u * u - v * v = g * g - h * h).
  { apply (Rmult_eq_reg_l (l1 - l0)); lra. }
  assert (B : ngtb (nabs g) (nabs h) = ngtb (nabs u) (nabs v)).
  { unfold ngtb. cbn [nltb nabs Rnum].
    assert (W : forall p q : R, Rabs q < Rabs p <-> 0 < p * p - q * q).
    { intros p' q'. split; intros Q.
      - apply Rsqr_lt_abs_1 in Q. unfold Rsqr in Q. lra.
      - apply Rsqr_lt_abs_0. unfold Rsqr. lra. }
    destruct (Rltb (Rabs v) (Rabs u)) eqn:C.
    - apply Rltb_true in C. apply Rltb_true, W. apply W in C. lra.
    - apply Rltb_false in C. apply Rltb_false. apply Rnot_lt_le. intros A. apply (Rle_not_lt _ _ C), W.
      apply W in A. lra. }
  rewrite B. reflexivity.
Qed.

Lemma enrgy_sg s (Hs : forall i, s i = 1 \/ s i = -1) eig2 f3 c modes t eng : (forall a b c, eig_ok eig2 a b c) ->
  enrgy eig2 (sg3 s f3) c modes t eng = enrgy eig2 f3 c modes t eng.
Proof.
  intros He. unfold enrgy. destruct (enrgy_ops c modes t) as [ops|]; [|reflexivity]. cbn [obind].
  apply ofold_ext. intros e o _. apply rsfrm_sg; [exact He|].
  assert (Q : forall i j k, sg3 s f3 i j k = f3 i j k \/ sg3 s f3 i j k = - f3 i j k).
  { intros i j k. unfold sg3. destruct (Hs i) as [-> | ->], (Hs j) as [-> | ->], (Hs k) as [-> | ->];
      first [left; ring | right; ring]. }
  destruct o as [ist jst i j [|]|ij k i j l]; unfold coupling; cbn [ndiv nmul Rnum];
    [destruct (Q i i j) as [-> | ->]|destruct (Q i i j) as [-> | ->]|destruct (Q i j l) as [-> | ->]];
    first [left; reflexivity | right; unfold Rdiv; ring].
Qed.
