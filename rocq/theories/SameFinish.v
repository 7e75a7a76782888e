(** Two descriptions of one molecule lead to the same results. *)
From Coq Require Import Reals Lra List ZArith Arith Lia Bool Permutation FunctionalExtensionality.
From Verif Require Import Num Loops ListFacts Index IndexFacts LoadFacts Modes ModesFacts ResFacts StatesFacts Anharm AnharmFacts
  FermiFacts VibRot Distort Transform TransformFacts SymAnharm SymE0 Report Polyads Geom Finish FinishFacts RunFacts RunSecond
  SignFacts RangeFacts.
Import ListNotations.
Open Scope nat_scope.
Local Open Scope R_scope.

Lemma set_nth_comm {A} (l : list A) p q (x : A) :
  (let* l1 := set_nth l p x in set_nth l1 q x) = (let* l1 := set_nth l q x in set_nth l1 p x).
Proof.
  revert p q. induction l as [|a l IH]; intros p q; [now destruct p, q|].
  destruct p, q; cbn [set_nth obind]; try reflexivity.
  - destruct (set_nth l q x); reflexivity.
  - destruct (set_nth l p x); reflexivity.
  - specialize (IH p q). destruct (set_nth l p x) as [l1|], (set_nth l q x) as [l2|]; cbn [obind set_nth] in *.
    + now rewrite IH.
    + now rewrite IH.
    + now rewrite <- IH.
    + reflexivity.
Qed.
Lemma set_nth_0 {A} (l l1 : list A) p x : (0 < p)%nat -> set_nth l p x = Some l1 -> nth_error l1 0 = nth_error l 0.
Proof.
  intros Hp. destruct l, p; cbn [set_nth]; try discriminate; try lia.
  destruct (set_nth l p x); [|discriminate]. cbn [obind]. now intros [= <-].
Qed.

(** two solvers, and couplings that differ by a sign *)
Lemma rsfrm_two eig2 eig2' f3 f3' o eng : (forall a b c, eig_ok eig2 a b c) -> (forall a b c, eig_ok eig2' a b c) ->
  (0 < fst (op_levels o))%nat -> (0 < snd (op_levels o))%nat ->
  coupling f3' o = coupling f3 o \/ coupling f3' o = - coupling f3 o ->
  rsfrm eig2' f3' o eng = rsfrm eig2 f3 o eng.
Proof.
  intros He He' Z1 Z2 Hc. unfold rsfrm. destruct (op_levels o) as [p q]. cbn [fst snd] in Z1, Z2.
  destruct (nth_error eng p) as [ep|]; [|reflexivity]. destruct (nth_error eng q) as [eq|]; [|reflexivity].
  destruct (nth_error eng 0) as [e0|] eqn:E0; [|reflexivity]. cbn [obind nsub Rnum].
  set (b := coupling f3 o) in *. set (b' := coupling f3' o) in *. clearbody b b'.
  assert (Hb : b' * b' = b * b) by (destruct Hc as [-> | ->]; ring).
  set (x := ep - e0). set (y := eq - e0).
  destruct (He x b y) as (l0 & l1 & u & v & u' & v' & E & Hl & X1 & X2 & X3 & X4 & X5 & X6 & X7).
  destruct (He' x b' y) as (k0 & k1 & g & h & g' & h' & E' & Hk & Y1 & Y2 & Y3 & Y4 & Y5 & Y6 & Y7).
  destruct (eig_facts _ _ _ _ _ _ _ _ _ X1 X2 X3 X4 X5 X6 X7) as (T1 & D1 & F1).
  destruct (eig_facts _ _ _ _ _ _ _ _ _ Y1 Y2 Y3 Y4 Y5 Y6 Y7) as (T2 & D2 & F2).
  rewrite E, E'.
  assert (K : (k0 - l0) * (k0 - l1) = 0).
  { replace ((k0 - l0) * (k0 - l1)) with (k0 * k0 - k0 * (l0 + l1) + l0 * l1) by ring.
    rewrite T1, D1, <- T2, <- Hb, <- D2. ring. }
  assert (k0 = l0 /\ k1 = l1) as [-> ->].
  { apply Rmult_integral in K. destruct K; split; lra. }
  destruct (Req_dec l0 l1) as [<-|P].
  - (* both choices lead to the same list *)
    assert (G : forall (r r' : nat), (0 < r)%nat -> obind (set_nth eng r (nadd l0 e0)) (fun eng1 => let* e1 := nth_error eng1 0 in set_nth eng1 r' (nadd l0 e1))
      = obind (set_nth eng r (nadd l0 e0)) (fun eng1 => set_nth eng1 r' (nadd l0 e0))).
    { intros r r' Hr. destruct (set_nth eng r (nadd l0 e0)) as [l2|] eqn:Es; [|reflexivity]. cbn [obind].
      now rewrite (set_nth_0 _ _ _ _ Hr Es), E0. }
    destruct o; destruct (ngtb (nabs g) (nabs h)), (ngtb (nabs u) (nabs v)); try reflexivity; now rewrite !G, set_nth_comm.
  - assert (Q : 0 < l1 - l0) by lra.
    assert (S : u * u - v * v = g * g - h * h).
    { apply (Rmult_eq_reg_l (l1 - l0)); lra. }
    assert (B : ngtb (nabs g) (nabs h) = ngtb (nabs u) (nabs v)).
    { unfold ngtb. cbn [nltb nabs Rnum].
      assert (W : forall p q : R, Rabs q < Rabs p <-> 0 < p * p - q * q).
      { intros p' q'. split; intros A.
        - apply Rsqr_lt_abs_1 in A. unfold Rsqr in A. lra.
        - apply Rsqr_lt_abs_0. unfold Rsqr. lra. }
      destruct (Rltb (Rabs v) (Rabs u)) eqn:C.
      - apply Rltb_true in C. apply Rltb_true, W. apply W in C. lra.
      - apply Rltb_false in C. apply Rltb_false. apply Rnot_lt_le. intros A. apply (Rle_not_lt _ _ C), W.
        apply W in A. lra. }
    now rewrite B.
Qed.

Lemma enrgy_two s (Hs : forall i, s i = 1 \/ s i = -1) eig2 eig2' f3 c n t eng :
  (forall a b c, eig_ok eig2 a b c) -> (forall a b c, eig_ok eig2' a b c) ->
  restst_tables n (ioff (n + 1)) (singles n) = Some t ->
  enrgy eig2' (sg3 s f3) c (singles n) t eng = enrgy eig2 f3 c (singles n) t eng.
Proof.
  intros He He' Et. unfold enrgy. destruct (enrgy_ops c (singles n) t) as [ops|] eqn:Eo; [|reflexivity]. cbn [obind].
  apply ofold_ext. intros e o Ho.
  destruct (enrgy_ops_nonzero _ _ _ n ops o (singles_part n) Et Eo Ho) as [Z1 Z2].
  apply rsfrm_two; try assumption; try lia.
  assert (Q : forall i j k, sg3 s f3 i j k = f3 i j k \/ sg3 s f3 i j k = - f3 i j k).
  { intros i j k. unfold sg3. destruct (Hs i) as [-> | ->], (Hs j) as [-> | ->], (Hs k) as [-> | ->];
      first [left; ring | right; ring]. }
  destruct o as [ist jst i j [|]|ij k i j l]; unfold coupling; cbn [ndiv nmul Rnum];
    [destruct (Q i i j) as [-> | ->]|destruct (Q i i j) as [-> | ->]|destruct (Q i j l) as [-> | ->]];
    first [left; reflexivity | right; unfold Rdiv; ring].
Qed.

(** everything a result holds except the normal modes themselves *)
Definition numbers {F I} (o : output F I) :=
  (out_lists o, out_rots o, out_rot_equil o, out_quartic o, out_sextic o, out_zpt o, out_linear o, out_resonances o).

Section Same.
  Context {I : Type}.
  Variables (eig2 eig2' : R -> R -> R -> R * R * (R * R)).

  Lemma finish_same (m m' : molecule R) (s : nat -> R) (freql f3l f4l f3l' f4l' : list R) (irreps : list I) lxm lx lxm' lx' o :
    let n := m_nvib m in
    (forall a b c, eig_ok eig2 a b c) -> (forall a b c, eig_ok eig2' a b c) ->
    (forall i, s i = 1 \/ s i = -1) ->
    m_rotor m = AsymmTop -> m_rotor m' = AsymmTop -> m_nvib m' = n -> (0 < m_natom m')%nat ->
    m_rotcon m' = m_rotcon m -> m_primat m' = m_primat m -> nth 7 (m_header m') 4%Z = nth 7 (m_header m) 4%Z ->
    (forall i t, (i < n)%nat -> wila (m_natom m') (m_geom m') (m_w m') lxm' i t
       = s i * wila (m_natom m) (m_geom m) (m_w m) lxm i t) ->
    (forall i j a, (i < n)%nat -> (j < n)%nat -> zmat (m_natom m') lxm' i j a = s i * s j * zmat (m_natom m) lxm i j a) ->
    (forall i j k, nth (find3 i j k) f3l' (nz 0) = s i * s j * s k * nth (find3 i j k) f3l (nz 0)) ->
    (forall i j k l, nth (find4 i j k l) f4l' (nz 0) = s i * s j * s k * s l * nth (find4 i j k l) f4l (nz 0)) ->
    finish eig2 false m freql f3l f4l irreps lxm lx = Some o ->
    exists o', finish eig2' false m' freql f3l' f4l' irreps lxm' lx' = Some o' /\ numbers o' = numbers o.
  Proof.
    intros n He He' Hs Hr Hr' Hv HN HB HJ Hh W Z T3 T4 E.
    unfold finish in *. cbv zeta in *. rewrite Hr in E. rewrite Hr', Hv, HB, HJ, Hh. fold n in E.
    set (freq := fun i => nth i freql (nz 0)) in *.
    set (f3 := fun i j k => nth (find3 i j k) f3l (nz 0)) in *.
    set (f4 := fun i j k l => nth (find4 i j k l) f4l (nz 0)) in *.
    replace (fun i j k => nth (find3 i j k) f3l' (nz 0)) with (sg3 s f3)
      by (extensionality i; extensionality j; extensionality k; unfold sg3, f3; now rewrite T3).
    replace (fun i j k l => nth (find4 i j k l) f4l' (nz 0)) with (sg4 s f4)
      by (extensionality i; extensionality j; extensionality k; extensionality l; unfold sg4, f4; now rewrite T4).
    set (zm := zmat (m_natom m) lxm) in *. set (wl := wila (m_natom m) (m_geom m) (m_w m) lxm) in *.
    set (zm' := zmat (m_natom m') lxm') in *. set (wl' := wila (m_natom m') (m_geom m') (m_w m') lxm') in *.
    change (forall i t, (i < n)%nat -> wl' i t = sg1 s wl i t) in W.
    change (forall i j a, (i < n)%nat -> (j < n)%nat -> zm' i j a = sg2 s zm i j a) in Z.
    assert (R3 : forall i j k, (i < n)%nat -> (j < n)%nat -> (k < n)%nat -> sg3 s f3 i j k = sg3 s f3 i j k) by reflexivity.
    assert (R4 : forall i j k l, (i < n)%nat -> (j < n)%nat -> (k < n)%nat -> (l < n)%nat ->
      sg4 s f4 i j k l = sg4 s f4 i j k l) by reflexivity.
    rewrite (quartic_rg n (sg4 s f4) (sg4 s f4) freq (sg3 s f3) (sg3 s f3) (sg2 s zm) zm' (sg1 s wl) wl' (m_rotcon m) (m_primat m) W Z R3 R4), quartic_sg by exact Hs.
    match type of E with obind ?a _ = _ => destruct a as [q|] eqn:Eq; [|discriminate] end. cbn [obind] in E |- *.
    assert (Er : restst_new AsymmTop n zm' (sg3 s f3) freq = restst_new AsymmTop n zm f3 freq).
    { unfold restst_new. rewrite deg_modes_asym_lemma by auto. cbn [obind].
      rewrite (coriolis_rg n (sg4 s f4) (sg4 s f4) freq (sg3 s f3) (sg3 s f3) (sg2 s zm) zm' (sg1 s wl) wl' (m_rotcon m) (m_primat m) W Z R3 R4), coriolis_sg, fermi1_sg, fermi2_sg by exact Hs. reflexivity. }
    rewrite Er.
    match type of E with obind ?a _ = _ => destruct a as [rs|] eqn:Ers; [|discriminate] end. cbn [obind is_sym_top] in E |- *.
    assert (Em : rs_modes rs = singles n /\ restst_tables n (ioff (n + 1)) (singles n) = Some (rs_tables rs)).
    { unfold restst_new in Ers. rewrite deg_modes_asym_lemma in Ers by auto. cbn [obind] in Ers.
      do 4 (match type of Ers with obind ?a _ = _ => destruct a; [|discriminate] end; cbn [obind] in Ers).
      match type of Ers with obind ?a _ = _ => destruct a as [t|] eqn:Et; [|discriminate] end. cbn [obind] in Ers.
      injection Ers as <-. split; [reflexivity|exact Et]. }
    destruct Em as [Em Et]. rewrite Em in *.
    rewrite (xcalc_rg n (sg4 s f4) (sg4 s f4) freq (sg3 s f3) (sg3 s f3) (sg2 s zm) zm' (sg1 s wl) wl' (m_rotcon m) (m_primat m) W Z R3 R4), xcalc_sg, make_e0_sg by (auto; exact Hs).
    cbn [andb] in E |- *.
    match type of E with obind ?a _ = _ => destruct a as [lev|] eqn:El; [|discriminate] end. cbn [obind] in E |- *.
    match type of E with obind ?a _ = _ => destruct a as [en|] eqn:Ee; [|discriminate] end. cbn [obind] in E |- *.
    match type of E with obind ?a _ = _ => destruct a as [en2|] eqn:Ee2; [|discriminate] end. cbn [obind] in E |- *.
    rewrite (enrgy_two s Hs eig2 eig2') by assumption.
    match type of E with obind ?a _ = _ => destruct a as [eng|] eqn:Eg; [|discriminate] end. cbn [obind] in E |- *.
    match type of E with obind ?a _ = _ => destruct a as [li|] eqn:Ei; [|discriminate] end. cbn [obind orb is_diatomic] in E |- *.
    rewrite (alphaa_rg n (sg4 s f4) (sg4 s f4) freq (sg3 s f3) (sg3 s f3) (sg2 s zm) zm' (sg1 s wl) wl' (m_rotcon m) (m_primat m) W Z R3 R4), alphaa_sg by (auto; exact Hs).
    match type of E with obind ?a _ = _ => destruct a as [rows|] eqn:Ea; [|discriminate] end. cbn [obind] in E |- *.
    match type of E with obind ?a _ = _ => destruct a as [rt|] eqn:Eo; [|discriminate] end. cbn [obind] in E |- *.
    rewrite (sextic_rg n (sg4 s f4) (sg4 s f4) freq (sg3 s f3) (sg3 s f3) (sg2 s zm) zm' (sg1 s wl) wl' (m_rotcon m) (m_primat m) W Z R3 R4), sextic_sg by exact Hs.
    match type of E with obind ?a _ = _ => destruct a as [sx|] eqn:Esx; [|discriminate] end. cbn [obind] in E |- *.
    match type of E with obind ?a _ = _ => destruct a as [zp|] eqn:Ez; [|discriminate] end. cbn [obind] in E |- *.
    match type of E with obind ?a _ = _ => destruct a as [v1|] eqn:E1; [|discriminate] end. cbn [obind] in E.
    match type of E with obind ?a _ = _ => destruct a as [v2|] eqn:E2; [|discriminate] end. cbn [obind] in E.
    injection E as <-.
    destruct (to_vec_storage (3 * m_natom m') lxm') as (x1 & ->); [lia|].
    destruct (to_vec_storage (3 * m_natom m') lx') as (x2 & ->); [lia|].
    cbn [obind]. eexists. split; reflexivity.
  Qed.
End Same.
