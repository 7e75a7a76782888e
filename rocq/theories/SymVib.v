(** The vibration-rotation constants of symmetric tops from those of asymmetric tops. *)
From Coq Require Import Reals Lra Lia List Arith Bool Permutation.
From Verif Require Import Num Loops Index Modes VibRot Anharm ListFacts ModesFacts StatesFacts
  ResFacts AnharmFacts EnergyFacts VibRotFacts SymRotFacts PerturbFacts PerturbLevels VanVleck SymPerturb SymLevels VibPerturb.
Import ListNotations.
Open Scope R_scope.

(** ** the specification *)

(** The derivatives of the moments of inertia ([wl k (acol y z)] for the moment y z and mode
    k) of a molecule with an axis of symmetry (index 2) of order three or higher.  Along a
    nondegenerate mode the inertia ellipsoid stays one of revolution about the axis.  Along
    the first partner of a degenerate pair it is tilted in the plane of the axes 2 and [b],
    along the second perpendicular to it. *)
Record axial_inertia (ns : list nat) (ts : list (nat * nat)) (wl : nat -> nat -> R) (I : nat -> R)
  (b : nat) : Prop := {
  ai_I : I 0%nat = I 1%nat;
  ai_n : forall m, In m ns -> wl m (acol 2 0) = 0 /\ wl m (acol 2 1) = 0 /\ wl m (acol 1 1) = wl m (acol 0 0);
  ai_d : forall s t, In (s, t) ts -> wl s (acol 2 2) = 0 /\ wl t (acol 2 2) = 0 /\
    wl s (acol 1 1) = - wl s (acol 0 0) /\ wl t (acol 1 1) = - wl t (acol 0 0);
  ai_s : forall s t, In (s, t) ts -> wl s (acol 1 0) = 0 /\ wl s (acol 2 (1 - b)%nat) = 0;
  ai_t : forall s t, In (s, t) ts ->
    wl t (acol 0 0) ^ 2 + wl t (acol 1 0) ^ 2 = wl s (acol 0 0) ^ 2 /\
    wl t (acol 2 0) ^ 2 + wl t (acol 2 1) ^ 2 = wl s (acol 2 b) ^ 2;
  ai_b : (b <= 1)%nat
}.

(** In a linear molecule a bending mode changes no moment of inertia to first order, and two
    bending modes do not couple by a rotation perpendicular to the axis. *)
Definition linear_inertia (ts : list (nat * nat)) (wl : nat -> nat -> R) (zeta : nat -> nat -> nat -> R) : Prop :=
  (forall s t c, In (s, t) ts -> wl s c = 0) /\
  (forall s t s' t' x, In (s, t) ts -> In (s', t') ts -> (x < 2)%nat -> zeta s s' x = 0).

(** the resonances of a symmetric top: the partners of each pair about the axis *)
Definition partners (ts : list (nat * nat)) : list (nat * nat * nat) := map (fun p => (fst p, snd p, 2%nat)) ts.

(** ** the constants of asymmetric tops, written out *)
Lemma alpha_terms n (B I w : nat -> R) wl zm f3 cor i x : (i < n)%nat -> (x < 3)%nat ->
  alpha n B I w wl zm f3 cor i x =
  2 * B x ^ 2 / w i *
    (3 / 4 * (wl i (acol x 0) ^ 2 / I 0%nat + wl i (acol x 1) ^ 2 / I 1%nat
              + wl i (acol x 2) ^ 2 / I 2%nat)
     + Rsum (seq 0 n) (fun j => if (j =? i)%nat then 0
         else cor_term (check2 (make_icorol cor) i j x) (zm i j x) (w i) (w j))
     + 86112 / 1000000 * Rsum (seq 0 n) (fun j => wl j (acol x x) * f3 i i j * w i / (w j * sqrt (w j)))).
Proof.
  intros Hi Hx. rewrite (Rsum_filter (fun j => (j =? i)%nat)). unfold alpha. cbv zeta.
  rewrite (valu2_R (fun j => check2 (make_icorol cor) i j x) (fun j => zm i j x)).
  rewrite !nsum_R, !range_0. cbn [seq].
  rewrite !Rsum_cons. change (Rsum [] _) with 0.
  assert (C : forall y, (y < 3)%nat -> (ioff (Nat.max x y + 1) + Nat.min x y)%nat = acol x y).
  { intros y Hy. destruct x as [|[|[|]]]; try lia; destruct y as [|[|[|]]]; try lia; reflexivity. }
  assert (D : (ioff (x + 2) - 1)%nat = acol x x).
  { destruct x as [|[|[|]]]; try lia; reflexivity. }
  rewrite !C, D by lia. unfold nsq, ALPHA_CONST.
  cbn [nmul nadd nsub ndiv Rnum npow32 nlit]. rewrite !nz_R.
  unfold Rdiv. ring_simplify. ring.
Qed.

Section Tops.
  Variables (n : nat) (modes : list mode) (w : nat -> R) (f3 : nat -> nat -> nat -> R)
    (f4 : nat -> nat -> nat -> nat -> R) (zeta : nat -> nat -> nat -> R) (B I : nat -> R)
    (r : rotor) (wl : nat -> nat -> R).
  Hypothesis TF : top_field n modes w f3 f4 zeta B r wl.
  Let ns := nondeg modes.
  Let ts := degs modes.
  Let b := if is_prolate r then 0%nat else 1%nat.
  Hypothesis AI : axial_inertia ns ts wl I b.
  Hypothesis LI : r = Linear -> linear_inertia ts wl zeta.
  Hypothesis apart : forall i j, (i < n)%nat -> (j < n)%nat -> i <> j ->
    ~ In (i, j) ts -> ~ In (j, i) ts -> w i <> w j.
  Let al := sym_alpha B I w wl zeta f3 r modes [].
  Let aa := alpha n B I w wl zeta f3 (partners ts).
  Let part := Hpart n modes w f3 f4 zeta B r wl TF.
  Let chk := check2 (make_icorol (partners ts)).

  Lemma chk_true i j x : chk i j x = true <-> x = 2%nat /\ (In (i, j) ts \/ In (j, i) ts).
  Proof.
    assert (L : forall i j x, In (i, j, x) (partners ts) <-> x = 2%nat /\ In (i, j) ts).
    { intros p q y. unfold partners. rewrite in_map_iff. split.
      - intros ([s t] & E & H). injection E as <- <- <-. auto.
      - intros [-> H]. exists (p, q). auto. }
    assert (O : one_axis (partners ts) i j).
    { intros y z [H|H] [H'|H']; apply L in H, H'; lia. }
    unfold chk. rewrite (icorol_exact _ i j x O). unfold listed. rewrite !L. tauto.
  Qed.

  Definition pull (z : R) (i j : nat) : R := z ^ 2 * ((3 * w i ^ 2 + w j ^ 2) / (w i ^ 2 - w j ^ 2)).
  Definition term (i j x : nat) : R :=
    if (j =? i)%nat then 0 else cor_term (chk i j x) (zeta i j x) (w i) (w j).

  Lemma term_0 i j x : zeta i j x = 0 -> term i j x = 0.
  Proof.
    intros E. unfold term. destruct (j =? i)%nat; [reflexivity|]. rewrite E. unfold cor_term, Rdiv.
    destruct (chk i j x); ring.
  Qed.
  Lemma term_same i x : term i i x = 0.
  Proof. unfold term. now rewrite Nat.eqb_refl. Qed.
  Lemma term_partner i j x : In (i, j) ts \/ In (j, i) ts -> zeta i j x = 0 \/ x = 2%nat -> term i j x = 0.
  Proof.
    intros H [E|E]; [now apply term_0|]. unfold term. destruct (j =? i)%nat; [reflexivity|].
    replace (chk i j x) with true by (symmetry; apply chk_true; auto).
    destruct (tf_axial _ _ _ _ _ _ _ _ _ TF) as (ax & _ & Ax).
    assert (w i = w j) as ->.
    { destruct H as [H|H]; apply (axial_w _ _ _ _ _ _ _ _ Ax) in H; congruence. }
    unfold cor_term, Rdiv. ring.
  Qed.
  Lemma term_pull i j x : i <> j -> x <> 2%nat \/ (~ In (i, j) ts /\ ~ In (j, i) ts) ->
    term i j x = pull (zeta i j x) i j.
  Proof.
    intros N H. unfold term, pull. destruct (Nat.eqb_spec j i); [congruence|].
    destruct (chk i j x) eqn:E; [apply chk_true in E; tauto|].
    unfold cor_term. cbn [pow]. rewrite !Rmult_1_r. reflexivity.
  Qed.
  Lemma pull_sq z z' i j : z ^ 2 = z' ^ 2 -> pull z i j = pull z' i j.
  Proof. intros E. unfold pull. now rewrite E. Qed.
  Lemma pull_w z i j i' j' : w i = w i' -> w j = w j' -> pull z i j = pull z i' j'.
  Proof. intros E E'. unfold pull. now rewrite E, E'. Qed.

  (** the terms of the sums over pairs of the symmetric top code *)
  Lemma ok_pull (t : R) z k j : w k <> w j ->
    pair_ok (listed [] j k 2) z (w k) (w j) t \/ pair_ok (listed [] j k 0) z (w k) (w j) t
      \/ pair_ok (listed [] j k 1) z (w k) (w j) t -> t = pull z k j.
  Proof.
    intros N H. assert (L : forall x, ~ listed [] j k x) by (intros x [[]|[]]).
    destruct H as [(H & _)|[(H & _)|(H & _)]]; apply (H (L _) N).
  Qed.

  Lemma aa_unique k : (k < n)%nat ->
    aa k 2%nat = 2 * B 2%nat ^ 2 / w k *
      (3 / 4 * ((wl k (acol 2 0) ^ 2 + wl k (acol 2 1) ^ 2) / I 1%nat + wl k (acol 2 2) ^ 2 / I 2%nat)
       + Rsum (seq 0 n) (fun j => term k j 2)
       + 86112 / 1000000 * Rsum ns (fun j => wl j (acol 2 2) * f3 k k j * w k / (w j * sqrt (w j)))).
  Proof.
    intros Hk. unfold aa. rewrite alpha_terms by (exact Hk || lia). fold chk.
    rewrite (ai_I _ _ _ _ _ AI). change (fun j => if (j =? k)%nat then 0 else _) with (fun j => term k j 2%nat).
    rewrite (S_split n ns ts part (fun j => wl j (acol 2 2) * f3 k k j * w k / (w j * sqrt (w j)))).
    rewrite !(Rsum_0 _ ts).
    - rewrite !Rplus_0_r. f_equal. f_equal. f_equal. unfold Rdiv. ring.
    - intros [s t] H. destruct (ai_d _ _ _ _ _ AI s t H) as (D1 & D2 & D3 & D4). cbn [fst snd]. rewrite ?D1, ?D2, ?D3, ?D4. unfold Rdiv. ring.
    - intros [s t] H. destruct (ai_d _ _ _ _ _ AI s t H) as (D1 & D2 & D3 & D4). cbn [fst snd]. rewrite ?D1, ?D2, ?D3, ?D4. unfold Rdiv. ring.
  Qed.

  Lemma aa_perp k : (k < n)%nat ->
    / 2 * (aa k 0%nat + aa k 1%nat) = 2 * B 1%nat ^ 2 / w k *
      (3 / 8 * ((wl k (acol 0 0) ^ 2 + 2 * wl k (acol 1 0) ^ 2 + wl k (acol 1 1) ^ 2) / I 1%nat
                + (wl k (acol 2 0) ^ 2 + wl k (acol 2 1) ^ 2) / I 2%nat)
       + / 2 * Rsum (seq 0 n) (fun j => term k j 0 + term k j 1)
       + 86112 / 1000000 * Rsum ns (fun j => wl j (acol b b) * f3 k k j * w k / (w j * sqrt (w j)))).
  Proof.
    intros Hk. unfold aa. rewrite !alpha_terms by (exact Hk || lia). fold chk.
    destruct (tf_axial _ _ _ _ _ _ _ _ _ TF) as (ax & _ & Ax).
    rewrite (axial_b _ _ _ _ _ _ _ _ Ax).
    rewrite (ai_I _ _ _ _ _ AI).
    change (Rsum (seq 0 n) (fun j => if (j =? k)%nat then 0 else cor_term (chk k j 0%nat) _ _ _)) with (Rsum (seq 0 n) (fun j => term k j 0%nat)).
    change (Rsum (seq 0 n) (fun j => if (j =? k)%nat then 0 else cor_term (chk k j 1%nat) _ _ _)) with (Rsum (seq 0 n) (fun j => term k j 1%nat)).
    rewrite Rsum_plus.
    assert (E : Rsum (seq 0 n) (fun j => wl j (acol 0 0) * f3 k k j * w k / (w j * sqrt (w j)))
      + Rsum (seq 0 n) (fun j => wl j (acol 1 1) * f3 k k j * w k / (w j * sqrt (w j)))
      = 2 * Rsum ns (fun j => wl j (acol b b) * f3 k k j * w k / (w j * sqrt (w j)))).
    { rewrite <- Rsum_plus.
      rewrite (S_split n ns ts part (fun j => wl j (acol 0 0) * f3 k k j * w k / (w j * sqrt (w j)) + wl j (acol 1 1) * f3 k k j * w k / (w j * sqrt (w j)))).
      rewrite !(Rsum_0 _ ts).
      - rewrite !Rplus_0_r, <- Rsum_scal. apply Rsum_ext. intros m Hm.
        destruct (ai_n _ _ _ _ _ AI m Hm) as (_ & _ & E). rewrite E.
        assert (wl m (acol b b) = wl m (acol 0 0)) as -> by (unfold b; destruct (is_prolate r); [reflexivity|exact E]).
        unfold Rdiv. ring.
      - intros [s t] H. destruct (ai_d _ _ _ _ _ AI s t H) as (D1 & D2 & D3 & D4). cbn [fst snd]. rewrite ?D1, ?D2, ?D3, ?D4. unfold Rdiv. ring.
      - intros [s t] H. destruct (ai_d _ _ _ _ _ AI s t H) as (D1 & D2 & D3 & D4). cbn [fst snd]. rewrite ?D1, ?D2, ?D3, ?D4. unfold Rdiv. ring. }
    change (acol 0 1) with (acol 1 0). change (acol 0 2) with (acol 2 0). change (acol 1 2) with (acol 2 1).
    set (Q1 := Rsum (seq 0 n) (fun j => wl j (acol 0 0) * _ * _ / _)) in *.
    set (Q2 := Rsum (seq 0 n) (fun j => wl j (acol 1 1) * _ * _ / _)) in *.
    set (Q3 := Rsum ns _) in *. replace Q2 with (2 * Q3 - Q1) by lra.
    unfold Rdiv. ring_simplify. lra.
  Qed.

  Lemma sum_both (f : nat -> R) : Rsum (seq 0 n) f = Rsum ns f + Rsum ts (fun p => f (fst p) + f (snd p)).
  Proof. rewrite (S_split n ns ts part f), Rsum_plus. ring. Qed.
  Lemma nn k : In k ns -> (k < n)%nat.
  Proof. exact (ns_n n ns ts part k). Qed.
  Lemma tt s t : In (s, t) ts -> (s < n)%nat /\ (t < n)%nat.
  Proof. exact (ts_n n ns ts part s t). Qed.
  Lemma apart_nt k s t : In k ns -> In (s, t) ts -> k <> s /\ k <> t.
  Proof.
    intros Hk Hab. pose proof (NoDup_app_inv _ _ (part_nd n ns ts part)) as (_ & _ & Dj).
    split; intros ->; apply (Dj _ Hk); apply in_flat_map; exists (s, t); cbn; auto.
  Qed.
  Lemma ns_alone k j : In k ns -> ~ In (k, j) ts /\ ~ In (j, k) ts.
  Proof. intros H. split; intros Q; [destruct (apart_nt k k j H Q)|destruct (apart_nt k j k H Q)]; congruence. Qed.
  Lemma first_unique p q : In p ts -> In q ts -> fst p = fst q -> p = q.
  Proof.
    destruct p as [p1 p2], q as [q1 q2]. cbn [fst]. intros P Q <-. pose proof (fs_nd n ns ts part) as F.
    revert P Q F. clear. induction ts as [|[a b] l IH]; [intros []|].
    cbn [map fst]. intros P Q F. inversion F as [|? ? F1 F2]; subst.
    destruct P as [P|P], Q as [Q|Q].
    - congruence.
    - injection P as -> ->. elim F1. apply in_map_iff. now exists (p1, q2).
    - injection Q as -> ->. elim F1. apply in_map_iff. now exists (p1, p2).
    - now apply IH.
  Qed.
  Lemma two_pairs p q : In p ts -> In q ts -> fst p <> fst q ->
    fst p <> snd q /\ snd p <> fst q /\ snd p <> snd q /\ fst p <> snd p /\
    forall x, (x = fst p \/ x = snd p) -> ~ In (x, fst q) ts /\ ~ In (x, snd q) ts /\ ~ In (fst q, x) ts /\ ~ In (snd q, x) ts.
  Proof.
    intros Hp Hq N. pose proof (ts_nd n ns ts part) as Td.
    assert (A : forall p q, In p ts -> In q ts -> fst p <> snd q) by (intros; now apply (pair_facts ts)).
    assert (C : forall p q, In p ts -> In q ts -> snd p = snd q -> p = q) by (intros; now apply (pair_facts ts)).
    pose proof first_unique as C'.
    split; [now apply A|]. split; [intros E; symmetry in E; revert E; now apply A|].
    split; [intros E; apply N; now rewrite (C p q)|]. split; [now apply A|].
    destruct p as [p1 p2], q as [q1 q2]. cbn [fst snd] in *.
    intros x [-> | ->]; repeat split; intros H.
    - exact (A _ _ Hq H eq_refl).
    - apply N. pose proof (C' _ _ Hp H eq_refl) as E. injection E as ->.
      pose proof (C _ _ Hp Hq eq_refl) as E. congruence.
    - exact (A _ _ Hp H eq_refl).
    - exact (A _ _ H Hq eq_refl).
    - exact (A _ _ H Hp eq_refl).
    - exact (A _ _ H Hp eq_refl).
    - apply N. pose proof (C' _ _ Hq H eq_refl) as E. injection E as ->.
      pose proof (C _ _ Hp Hq eq_refl) as E. congruence.
    - exact (A _ _ H Hq eq_refl).
  Qed.

  Lemma nondegenerate k : In k ns ->
    aa k 2%nat = al k 2%nat /\ / 2 * (aa k 0%nat + aa k 1%nat) = al k 1%nat.
  Proof.
    intros Hk. pose proof (nn k Hk) as Lk.
    pose proof TF as [T1 T2 T3 T4 T5 T6 T7 T8 T9 T10 T11 (ax & T12 & T13)].
    destruct (sym_alpha_cells_lemma n modes B I w wl zeta f3 [] T1 T4 (fun i j _ _ x y H => ltac:(destruct H as [[]|[]])) r) as (A & _).
    destruct (A k Hk) as ((t & E2 & Ht) & (tb & tc & E1 & Hbc)). clear A.
    fold al ns ts b in E2, E1, Ht, Hbc. destruct (ai_n _ _ _ _ _ AI k Hk) as (N1 & N2 & N3).
    match type of E2 with _ = ?e => change (al k 2%nat = e) in E2 end.
    match type of E1 with _ = ?e => change (al k 1%nat = e) in E1 end.
    rewrite aa_unique, aa_perp, E2, E1 by exact Lk. rewrite N1, N2. clear E1 E2.
    assert (Cu : forall c, 86112 / 1000000 * Rsum ns (fun j => wl j c * f3 k k j * w k / (w j * sqrt (w j))) = cubic_sum modes w wl f3 c k).
    { intros c. unfold cubic_sum. f_equal. apply Rsum_ext. intros j _. now rewrite (T7 k k j), (T6 k j k). }
    rewrite !Cu, !sum_both. split.
    - assert (Z1 : Rsum ts (fun p => term k (fst p) 2 + term k (snd p) 2) = 0).
      { apply Rsum_0. intros [s u] H. cbn [fst snd]. destruct (axial_z2 _ _ _ _ _ _ _ _ T13 k s u Hk H) as (Y1 & Y2 & _).
        rewrite !term_0 by assumption. ring. }
      assert (Z2 : Rsum (but k ns) t = Rsum ns (fun j => term k j 2%nat)).
      { transitivity (Rsum (but k ns) (fun j => term k j 2%nat)).
        - apply Rsum_ext. intros j Hj. unfold but in Hj. apply filter_In in Hj as [Hj N].
          assert (j <> k) by (destruct (Nat.eqb_spec j k); [discriminate|assumption]).
          destruct (ns_alone k j Hk). destruct (ns_alone j k Hj).
          rewrite (ok_pull (t j) (zeta j k 2%nat) k j); [|apply apart; auto; now apply nn|left; now apply Ht].
          rewrite term_pull by auto. apply pull_sq. rewrite (T11 k j). ring.
        - rewrite but_sum by (try exact (ns_nd n ns ts part); exact Hk). rewrite term_same. ring. }
      rewrite Z1, Z2. f_equal. unfold Rdiv. ring.
    - assert (Z1 : Rsum ns (fun j => term k j 0%nat + term k j 1%nat) = 0).
      { apply Rsum_0. intros j Hj. destruct (axial_z1 _ _ _ _ _ _ _ _ T13 k j Hk Hj) as (Y1 & Y2).
        rewrite !term_0 by assumption. ring. }
      assert (Z2 : Rsum ts (fun p => term k (fst p) 0%nat + term k (fst p) 1%nat + (term k (snd p) 0%nat + term k (snd p) 1%nat))
        = 2 * Rsum ts (fun p => tb (fst p) + tc (fst p))).
      { rewrite <- Rsum_scal. apply Rsum_ext. intros [s u] H. destruct (Hbc (s, u) H) as (O1 & O2). cbn [fst snd] in *.
        destruct (tt s u H). destruct (apart_nt k s u Hk H). destruct (ns_alone k s Hk), (ns_alone k u Hk).
        assert (w k <> w s) by (apply apart; auto).
        rewrite (ok_pull (tc s) (zeta k s 0%nat) k s), (ok_pull (tb s) (zeta k s 1%nat) k s) by auto.
        rewrite !term_pull by auto. destruct (axial_z2 _ _ _ _ _ _ _ _ T13 k s u Hk H) as (_ & _ & Y).
        unfold Rsqr in Y. pose proof (axial_w _ _ _ _ _ _ _ _ T13 s u H) as W. unfold pull. rewrite <- W.
        set (c := (3 * w k ^ 2 + w s ^ 2) / (w k ^ 2 - w s ^ 2)).
        transitivity ((zeta k s 0%nat * zeta k s 0%nat + zeta k s 1%nat * zeta k s 1%nat) * c + (zeta k u 0%nat * zeta k u 0%nat + zeta k u 1%nat * zeta k u 1%nat) * c); [ring|].
        rewrite <- Y. ring. }
      rewrite Z1, Z2.
      assert (Eb : wl k (acol b b) = wl k (acol 0 0)) by (unfold b; destruct (is_prolate r); [reflexivity|exact N3]).
      rewrite Eb, N3. f_equal. unfold Rdiv. lra.
  Qed.

  (** a mode [u] of the pair [s], [t] *)
  Lemma turn_unique s t u q : In (s, t) ts -> In q ts -> u = s \/ u = t ->
    term u (fst q) 2 + term u (snd q) 2
    = if (fst q =? s)%nat then 0 else pull (zeta s (snd q) 2) s (fst q).
  Proof.
    intros Hp Hq Hu. destruct (tt s t Hp) as [Ls Lt]. destruct q as [c d]. destruct (tt c d Hq) as [Lc Ld].
    pose proof TF as [T1 T2 T3 T4 T5 T6 T7 T8 T9 T10 T11 (ax & T12 & T13)].
    cbn [fst snd]. destruct (Nat.eqb_spec c s) as [E|N].
    - assert ((c, d) = (s, t)) as Q by (apply first_unique; auto).
      injection Q as -> ->. destruct Hu as [-> | ->].
      + rewrite term_same, term_partner by auto. ring.
      + rewrite term_same, term_partner by auto. ring.
    - destruct (two_pairs (s, t) (c, d) Hp Hq ltac:(cbn; auto)) as (D1 & D2 & D3 & D4 & D5). cbn [fst snd] in *.
      destruct (axial_z3 _ _ _ _ _ _ _ _ T13 s t c d Hp Hq) as (Z1 & Z2 & Z3).
      pose proof (axial_w _ _ _ _ _ _ _ _ T13 s t Hp) as W1. pose proof (axial_w _ _ _ _ _ _ _ _ T13 c d Hq) as W2.
      destruct (D5 u Hu) as (I1 & I2 & I3 & I4).
      destruct Hu as [-> | ->].
      + rewrite term_0, term_pull by auto. rewrite Rplus_0_l. apply pull_w; auto.
      + rewrite (term_0 t d) by auto. rewrite term_pull by auto. rewrite Rplus_0_r, Z3.
        rewrite (pull_sq _ (zeta s d 2%nat)) by ring. apply pull_w; auto.
  Qed.

  Lemma turn_perp s t u q : In (s, t) ts -> In q ts -> u = s \/ u = t ->
    term u (fst q) 0 + term u (fst q) 1 + (term u (snd q) 0 + term u (snd q) 1)
    = 2 * if (fst q =? s)%nat then 0 else pull (zeta s (fst q) 0) s (fst q) + pull (zeta s (fst q) 1) s (fst q).
  Proof.
    intros Hp Hq Hu. destruct (tt s t Hp) as [Ls Lt]. destruct q as [c d]. destruct (tt c d Hq) as [Lc Ld].
    pose proof TF as [T1 T2 T3 T4 T5 T6 T7 T8 T9 T10 T11 (ax & T12 & T13)].
    pose proof (axial_ax _ _ _ _ _ _ _ _ T13) as Hax.
    destruct (axial_z4 _ _ _ _ _ _ _ _ T13 s t c d Hp Hq) as (Y1 & Y2 & Y3 & Y4).
    destruct (axial_z5 _ _ _ _ _ _ _ _ T13 s t c d Hp Hq) as (Y5 & Y6 & Y7).
    cbn [fst snd]. destruct (Nat.eqb_spec c s) as [E|N].
    - assert ((c, d) = (s, t)) as Q by (apply first_unique; auto).
      injection Q as -> ->.
      assert (Z : forall a, zeta s s a = 0) by (intros a; pose proof (T11 s s a); lra).
      assert (Z' : forall x, (x < 2)%nat -> zeta s t x = 0 /\ zeta t s x = 0).
      { rewrite Z, Rsqr_0 in Y6, Y7. apply Rsqr_0_uniq in Y6, Y7.
        intros x Hx. destruct ax as [|[|]]; [| |lia]; destruct x as [|[|]]; try lia; auto. }
      destruct (Z' 0%nat), (Z' 1%nat); try lia.
      destruct Hu as [-> | ->]; rewrite !term_same, !term_0 by assumption; ring.
    - destruct (two_pairs (s, t) (c, d) Hp Hq ltac:(cbn; auto)) as (D1 & D2 & D3 & D4 & D5). cbn [fst snd] in *.
      pose proof (axial_w _ _ _ _ _ _ _ _ T13 s t Hp) as W1. pose proof (axial_w _ _ _ _ _ _ _ _ T13 c d Hq) as W2.
      destruct (D5 u Hu) as (I1 & I2 & I3 & I4).
      assert (P : forall z i j, z = 0 -> pull z i j = 0) by (intros z i j ->; unfold pull; ring).
      destruct Hu as [-> | ->]; rewrite !term_pull by auto.
      + destruct ax as [|[|]]; [| |lia]; cbn [Nat.sub] in *; unfold Rsqr in *;
          rewrite ?(P _ _ _ Y1), ?(P _ _ _ Y3); unfold pull; rewrite <- W2; cbn [pow]; rewrite !Rmult_1_r, Y6; ring.
      + destruct ax as [|[|]]; [| |lia]; cbn [Nat.sub] in *; unfold Rsqr in *;
          rewrite ?(P _ _ _ Y1), ?(P _ _ _ Y2), ?(P _ _ _ Y4); unfold pull; rewrite <- W2, <- W1; cbn [pow]; rewrite !Rmult_1_r, Y5, Y7; ring.
  Qed.

  Lemma inertia_pair s t u : In (s, t) ts -> u = s \/ u = t ->
    wl u (acol 2 0) ^ 2 + wl u (acol 2 1) ^ 2 = wl s (acol 2 b) ^ 2 /\
    wl u (acol 0 0) ^ 2 + 2 * wl u (acol 1 0) ^ 2 + wl u (acol 1 1) ^ 2 = 2 * wl s (acol b b) ^ 2.
  Proof.
    intros Hp Hu. destruct (ai_d _ _ _ _ _ AI s t Hp) as (D1 & D2 & D3 & D4).
    destruct (ai_s _ _ _ _ _ AI s t Hp) as (S1 & S2). destruct (ai_t _ _ _ _ _ AI s t Hp) as (Q1 & Q2).
    assert (E : wl s (acol b b) ^ 2 = wl s (acol 0 0) ^ 2).
    { unfold b. destruct (is_prolate r); [reflexivity|]. rewrite D3. ring. }
    rewrite E. destruct Hu as [-> | ->].
    - rewrite S1, D3. split; [|ring]. unfold b in *. destruct (is_prolate r); cbn [Nat.sub] in S2; rewrite S2; ring.
    - rewrite D4. split; [exact Q2|]. rewrite <- Q1. ring.
  Qed.

  Lemma degenerate s t u : In (s, t) ts -> u = s \/ u = t ->
    aa u 2%nat = al s 2%nat /\ / 2 * (aa u 0%nat + aa u 1%nat) = al s 1%nat.
  Proof.
    intros Hp Hu. destruct (tt s t Hp) as [Ls Lt]. assert (Lu : (u < n)%nat) by (destruct Hu as [-> | ->]; assumption).
    pose proof TF as [T1 T2 T3 T4 T5 T6 T7 T8 T9 T10 T11 (ax & T12 & T13)].
    destruct (sym_alpha_cells_lemma n modes B I w wl zeta f3 [] T1 T4 (fun i j _ _ x y H => ltac:(destruct H as [[]|[]])) r) as (_ & A).
    destruct (A s t Hp) as ((g & E2 & Hg) & (tb & tc & E1 & Hbd & Hbn)). clear A.
    fold al ns ts b in E2, E1, Hg, Hbd, Hbn.
    match type of E2 with _ = ?e => change (al s 2%nat = e) in E2 end.
    match type of E1 with _ = ?e => change (al s 1%nat = e) in E1 end.
    rewrite aa_unique, aa_perp, E2, E1 by exact Lu. clear E1 E2.
    destruct (inertia_pair s t u Hp Hu) as [N1 N2]. rewrite N1, N2.
    assert (Wu : w u = w s) by (pose proof (axial_w _ _ _ _ _ _ _ _ T13 s t Hp); destruct Hu as [-> | ->]; congruence).
    assert (Cu : forall c, 86112 / 1000000 * Rsum ns (fun j => wl j c * f3 u u j * w u / (w j * sqrt (w j))) = cubic_sum modes w wl f3 c s).
    { intros c. unfold cubic_sum. f_equal. apply Rsum_ext. intros j Hj. rewrite Wu.
      replace (f3 u u j) with (f3 j s s); [reflexivity|].
      transitivity (f3 j u u); [|now rewrite (T7 u u j), (T6 u j u)].
      destruct Hu as [-> | ->]; [reflexivity|]. now destruct (axial_n _ _ _ _ _ _ _ _ T13 j s t s t Hj Hp Hp). }
    rewrite !Cu, !sum_both, Wu. clear Cu.
    assert (Hd : forall q, In q ts -> fst q <> s -> w s <> w (fst q)).
    { intros [c d] Hq N. destruct (tt c d Hq). cbn [fst] in *.
      destruct (two_pairs (s, t) (c, d) Hp Hq ltac:(cbn; auto)) as (_ & _ & _ & _ & D5). cbn [fst snd] in D5.
      destruct (D5 s) as (I1 & I2 & I3 & I4); [auto|]. apply apart; auto. }
    assert (Wd : wl u (acol 2 2) = 0) by (destruct (ai_d _ _ _ _ _ AI s t Hp) as (D1 & D2 & _); destruct Hu as [-> | ->]; assumption).
    assert (Xn : forall m, In m ns -> u <> m /\ s <> m /\ w s <> w m).
    { intros m Hm. destruct (apart_nt m s t Hm Hp). destruct (ns_alone m s Hm).
      split; [destruct Hu as [-> | ->]; auto|]. split; [auto|]. apply apart; auto. now apply nn. }
    split.
    - assert (Z1 : Rsum ns (fun j => term u j 2) = 0).
      { apply Rsum_0. intros m Hm. apply term_0. rewrite (T11 u m).
        destruct (axial_z2 _ _ _ _ _ _ _ _ T13 m s t Hm Hp) as (Y1 & Y2 & _). destruct Hu as [-> | ->]; lra. }
      assert (Z2 : Rsum ts (fun p => term u (fst p) 2 + term u (snd p) 2) = Rsum (butd s ts) g).
      { rewrite (Rsum_ext _ (fun p => if (fst p =? s)%nat then 0 else pull (zeta s (snd p) 2%nat) s (fst p)))
          by (intros q Hq; now apply (turn_unique s t u q)).
        rewrite (Rsum_filter (fun p => (fst p =? s)%nat)). apply Rsum_ext. intros [c d] Hq. apply filter_In in Hq as [Hq N].
        cbn [fst snd] in *. assert (c <> s) by (destruct (Nat.eqb_spec c s); [discriminate|assumption]).
        symmetry. apply ok_pull; [now apply (Hd (c, d))|]. left. now apply Hg. }
      rewrite Z1, Z2, Wd. f_equal. unfold Rdiv. ring.
    - assert (Z1 : Rsum ns (fun j => term u j 0 + term u j 1) = Rsum ns (fun j => tb j + tc j)).
      { apply Rsum_ext. intros m Hm. destruct (Xn m Hm) as (X1 & X2 & X3). destruct (Hbn m Hm) as (O1 & O2).
        rewrite (ok_pull (tc m) (zeta s m 0%nat) s m), (ok_pull (tb m) (zeta s m 1%nat) s m) by auto.
        rewrite !term_pull by auto.
        destruct (axial_z2 _ _ _ _ _ _ _ _ T13 m s t Hm Hp) as (_ & _ & Y).
        unfold pull. rewrite Wu. set (c := (3 * w s ^ 2 + w m ^ 2) / (w s ^ 2 - w m ^ 2)).
        transitivity ((Rsqr (zeta m u 0%nat) + Rsqr (zeta m u 1%nat)) * c).
        - rewrite (T11 u m 0%nat), (T11 u m 1%nat). unfold Rsqr. ring.
        - transitivity ((Rsqr (zeta m s 0%nat) + Rsqr (zeta m s 1%nat)) * c).
          + destruct Hu as [-> | ->]; [reflexivity|]. now rewrite Y.
          + rewrite (T11 s m 0%nat), (T11 s m 1%nat). unfold Rsqr. ring. }
      assert (Z2 : Rsum ts (fun p => term u (fst p) 0 + term u (fst p) 1 + (term u (snd p) 0 + term u (snd p) 1))
        = 2 * Rsum ts (fun q => if (fst q =? s)%nat then 0 else pull (zeta s (fst q) 0) s (fst q) + pull (zeta s (fst q) 1) s (fst q))).
      { rewrite <- Rsum_scal. apply Rsum_ext. intros q Hq. now apply (turn_perp s t u q). }
      rewrite Z1, Z2. f_equal.
      assert (G : r <> Linear -> Rsum ts (fun q => if (fst q =? s)%nat then 0 else pull (zeta s (fst q) 0) s (fst q) + pull (zeta s (fst q) 1) s (fst q))
        = Rsum (butd s ts) (fun p => tb (fst p) + tc (fst p))).
      { intros _. rewrite (Rsum_filter (fun p => (fst p =? s)%nat)). apply Rsum_ext. intros q Hq. apply filter_In in Hq as [Hq N].
        assert (fst q <> s) by (destruct (Nat.eqb_spec (fst q) s); [discriminate|assumption]).
        destruct (Hbd q Hq ltac:(assumption)) as (O1 & O2).
        rewrite (ok_pull (tc (fst q)) (zeta s (fst q) 0%nat) s (fst q)), (ok_pull (tb (fst q)) (zeta s (fst q) 1%nat) s (fst q)) by auto.
        ring. }
      destruct r eqn:Er; try (rewrite G by discriminate; unfold Rdiv; lra).
      destruct (LI eq_refl) as (L1 & L2). rewrite (L1 s t _ Hp), (L1 s t _ Hp).
      rewrite (Rsum_0 _ ts); [unfold Rdiv; lra|].
      intros [c d] Hq. cbn [fst]. destruct (c =? s)%nat; [reflexivity|].
      rewrite (L2 s t c d 0%nat Hp Hq), (L2 s t c d 1%nat Hp Hq) by lia. unfold pull. ring.
  Qed.

  Lemma alphas_lemma :
    (forall k, In k ns -> aa k 2%nat = al k 2%nat /\ / 2 * (aa k 0%nat + aa k 1%nat) = al k 1%nat) /\
    (forall s t, In (s, t) ts ->
       (aa s 2%nat = al s 2%nat /\ / 2 * (aa s 0%nat + aa s 1%nat) = al s 1%nat) /\
       (aa t 2%nat = al s 2%nat /\ / 2 * (aa t 0%nat + aa t 1%nat) = al s 1%nat)).
  Proof.
    split; [exact nondegenerate|]. intros s t H. split; apply (degenerate s t); auto.
  Qed.

  (** ** the states *)
  Variables (K lam : R) (rep : nat -> nat -> bool).
  Hypothesis HK : 2 * K * lam ^ 2 = 1.
  Hypothesis I1pos : 0 < I 1%nat.
  Hypothesis B1 : B 1%nat = K / I 1%nat.
  Hypothesis Hrep : forall i j, rep i j = true <-> In (i, j) ts \/ In (j, i) ts.
  Let rot := rot_const n w f3 zeta (fun k y z => wl k (acol y z)) I K lam rep.
  Let off (x : nat) := rounding n B w wl f3 lam x.

  Lemma perp_zero i j x : (x < 2)%nat -> In (i, j) ts \/ In (j, i) ts -> zeta i j x = 0.
  Proof.
    intros Hx H. pose proof TF as [T1 T2 T3 T4 T5 T6 T7 T8 T9 T10 T11 (ax & T12 & T13)].
    pose proof (axial_ax _ _ _ _ _ _ _ _ T13) as Hax.
    assert (G : forall s t, In (s, t) ts -> zeta s t x = 0 /\ zeta t s x = 0).
    { intros s t Hp. destruct (axial_z4 _ _ _ _ _ _ _ _ T13 s t s t Hp Hp) as (_ & _ & Y3 & Y4).
      destruct (axial_z5 _ _ _ _ _ _ _ _ T13 s t s t Hp Hp) as (_ & Y6 & Y7).
      assert (Z : forall a, zeta s s a = 0) by (intros a; pose proof (T11 s s a); lra).
      rewrite Z, Rsqr_0 in Y6, Y7. apply Rsqr_0_uniq in Y6, Y7.
      destruct ax as [|[|]]; [| |lia]; destruct x as [|[|]]; try lia; auto. }
    destruct H as [H|H]; now apply G in H.
  Qed.

  Lemma top_state x v : (x < 3)%nat -> 0 < I x -> B x = K / I x ->
    B x + Rsum (seq 0 n) (fun i => aa i x * (INR (v i) + / 2)) = rot x v + off x v.
  Proof.
    intros Hx Ix Bx. pose proof TF as [T1 T2 T3 T4 T5 T6 T7 T8 T9 T10 T11 (ax & T12 & T13)].
    assert (Rs : forall i j, rep i j = rep j i) by (intros; apply eq_true_iff_eq; rewrite !Hrep; tauto).
    unfold rot, off.
    rewrite <- (rot_const_value n B I w wl zeta f3 K lam x rep T4 Ix Bx HK T6 T7 T11 Rs).
    2:{ intros i j Hi Hj N E. apply apart; auto; intros Q; assert (rep i j = true) by (apply Hrep; auto); congruence. }
    f_equal. rewrite <- !Rsum_scal, <- !Rsum_plus. apply Rsum_ext. intros i Hi. apply in_seq in Hi.
    assert (Li : (i < n)%nat) by lia. pose proof (T4 i Li) as Wi.
    unfold aa. rewrite alpha_terms by assumption. fold chk.
    assert (E1 : Rsum (seq 0 n) (fun j => if (j =? i)%nat then 0 else cor_term (chk i j x) (zeta i j x) (w i) (w j))
      = w i * Rsum (seq 0 n) (fun j => if (j =? i)%nat then 0 else pair_term (rep i j) (zeta i j x) (w i) (w j))).
    { rewrite <- Rsum_scal. apply Rsum_ext. intros j Hj. apply in_seq in Hj. pose proof (T4 j ltac:(lia)) as Wj.
      destruct (Nat.eqb_spec j i) as [|N]; [ring|].
      change (cor_term (chk i j x) (zeta i j x) (w i) (w j)) with (if false then 0 else cor_term (chk i j x) (zeta i j x) (w i) (w j)).
      assert (Ne : (j =? i)%nat = false) by now apply Nat.eqb_neq.
      rewrite <- Ne. change (term i j x = w i * pair_term (rep i j) (zeta i j x) (w i) (w j)).
      destruct (rep i j) eqn:Er.
      - apply Hrep in Er. rewrite term_partner; [|exact Er|].
        + assert (w i = w j) as Ew by (destruct Er as [H|H]; apply (axial_w _ _ _ _ _ _ _ _ T13) in H; congruence).
          unfold pair_term. rewrite Ew. unfold Rdiv. ring.
        + destruct (Nat.eq_dec x 2); [now right|left]. apply perp_zero; [lia|exact Er].
      - assert (P : ~ (In (i, j) ts \/ In (j, i) ts)) by (rewrite <- Hrep; congruence).
        rewrite term_pull by (auto; right; tauto).
        assert (We : w i <> w j) by (apply apart; try lia; try tauto; auto).
        unfold pull, pair_term. field. split; [|lra].
        assert (w i ^ 2 - w j ^ 2 = (w i - w j) * (w i + w j)) as -> by ring.
        apply Rmult_integral_contrapositive. split; lra. }
    rewrite E1.
    set (q := wl i (acol x 0) ^ 2 / I 0%nat + wl i (acol x 1) ^ 2 / I 1%nat + wl i (acol x 2) ^ 2 / I 2%nat).
    transitivity (2 * B x ^ 2 / w i * (3 / 4 * q) * (INR (v i) + / 2)
      + (2 * B x ^ 2 * ((INR (v i) + / 2) * Rsum (seq 0 n) (fun j => if (j =? i)%nat then 0 else pair_term (rep i j) (zeta i j x) (w i) (w j)))
      + 2 * (86112 / 1000000) * B x ^ 2 * ((INR (v i) + / 2) * (/ w i * Rsum (seq 0 n) (fun j => wl j (acol x x) * f3 i i j * w i / (w j * sqrt (w j))))))).
    - clearbody q. field. lra.
    - f_equal. f_equal. f_equal. rewrite <- Rsum_scal, <- Rsum_scal. apply Rsum_ext. intros k Hk. apply in_seq in Hk.
      pose proof (T4 k ltac:(lia)) as Wk. pose proof (sqrt_lt_R0 _ Wk). field. lra.
  Qed.

  (** the occupation numbers [v] belong to the state [st] of the table *)
  Definition filled (st : state) (v : occ) : Prop :=
    (forall p k, nth_error ns p = Some k -> v k = nth p (state_i1 st) 0%nat) /\
    (forall p s t, nth_error ts p = Some (s, t) -> (v s + v t)%nat = fst (nth p (state_i2 st) (0%nat, 0%nat))).

  Lemma sym_vib_sum (g : nat -> R) (ga : nat -> R) st v : filled st v ->
    (forall k, In k ns -> ga k = g k) -> (forall s t, In (s, t) ts -> ga s = g s /\ ga t = g s) ->
    sym_vib modes g st = Rsum (seq 0 n) (fun i => ga i * (INR (v i) + / 2)).
  Proof.
    intros [F1 F2] G1 G2. rewrite sum_both. unfold sym_vib. fold ns ts. f_equal.
    - rewrite <- (Rsum_nth_seq 0%nat ns (fun i => ga i * (INR (v i) + / 2))). apply Rsum_ext. intros p Hp. apply in_seq in Hp.
      rewrite G1 by (apply nth_In; lia). rewrite (F1 p (nth p ns 0%nat)); [reflexivity|]. apply nth_error_nth_lt. lia.
    - rewrite <- (Rsum_nth_seq (0%nat, 0%nat) ts (fun q => ga (fst q) * (INR (v (fst q)) + / 2) + ga (snd q) * (INR (v (snd q)) + / 2))).
      apply Rsum_ext. intros p Hp. apply in_seq in Hp.
      assert (E : nth_error ts p = Some (nth p ts (0%nat, 0%nat))) by (apply nth_error_nth_lt; lia).
      destruct (nth p ts (0%nat, 0%nat)) as [s t] eqn:En. cbn [fst snd].
      destruct (G2 s t (nth_error_In _ _ E)) as [-> ->]. rewrite <- (F2 p s t E), plus_INR. field.
  Qed.

  Lemma states_lemma states m st v : r <> SphericalTop -> (forall s, In s states -> wide modes s) ->
    nth_error states m = Some st -> filled st v ->
    exists rows row, alphas B I w wl zeta f3 r modes states [] = Some rows /\ nth_error rows m = Some row /\
      snd (fst row) = / 2 * (rot 0%nat v + rot 1%nat v) + / 2 * (off 0%nat v + off 1%nat v) /\
      (is_linear r = false -> 0 < I 2%nat -> B 2%nat = K / I 2%nat -> snd row = rot 2%nat v + off 2%nat v).
  Proof.
    intros Hr Hw Hm Hv. destruct alphas_lemma as [A1 A2].
    exists (map (sym_row modes r B al) states), (sym_row modes r B al st).
    split; [exact (alphas_R modes r B I w wl zeta f3 [] states Hr Hw)|].
    split; [rewrite nth_error_map, Hm; reflexivity|]. unfold sym_row. cbn [fst snd].
    pose proof TF as [T1 T2 T3 T4 T5 T6 T7 T8 T9 T10 T11 (ax & T12 & T13)].
    pose proof (ai_I _ _ _ _ _ AI) as I01. pose proof (axial_b _ _ _ _ _ _ _ _ T13) as B01.
    split.
    - rewrite (sym_vib_sum _ (fun i => / 2 * (aa i 0%nat + aa i 1%nat)) st v Hv).
      + pose proof (top_state 0 v ltac:(lia) ltac:(rewrite I01; exact I1pos) ltac:(rewrite I01, B01; exact B1)) as E0.
        pose proof (top_state 1 v ltac:(lia) I1pos B1) as E1'.
        assert (Es : Rsum (seq 0 n) (fun i => / 2 * (aa i 0%nat + aa i 1%nat) * (INR (v i) + / 2))
          = / 2 * (Rsum (seq 0 n) (fun i => aa i 0%nat * (INR (v i) + / 2)) + Rsum (seq 0 n) (fun i => aa i 1%nat * (INR (v i) + / 2)))).
        { rewrite <- Rsum_plus, <- Rsum_scal. apply Rsum_ext. intros i _. ring. }
        rewrite Es. rewrite B01 in E0. lra.
      + intros k Hk. now apply A1.
      + intros s t H. destruct (A2 s t H) as [[_ ->] [_ ->]]. auto.
    - intros -> I2 B2. rewrite (sym_vib_sum _ (fun i => aa i 2%nat) st v Hv).
      + now apply top_state; try lia.
      + intros k Hk. now apply A1.
      + intros s t H. destruct (A2 s t H) as [[-> _] [-> _]]. auto.
  Qed.
End Tops.

(** ** an example: one nondegenerate mode and one pair, every kind of derivative different
    from zero *)
Definition ex_wl (k c : nat) : R :=
  match k, c with
  | 0%nat, 0%nat | 0%nat, 2%nat => 1 | 0%nat, 5%nat => 2
  | 1%nat, 0%nat => 1 | 1%nat, 2%nat => - 1 | 1%nat, 4%nat => 3
  | 2%nat, 1%nat => 1 | 2%nat, 3%nat => 3
  | _, _ => 0
  end.
Definition ex_I (a : nat) : R := match a with 2%nat => / 2 | _ => / 3 end.
