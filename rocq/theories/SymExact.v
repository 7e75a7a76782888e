(** The x and g constants of symmetric tops over the reals. *)
From Coq Require Import Reals Lra Lia List Arith Bool Permutation.
From Verif Require Import Num Loops Index Modes VibRot Anharm SymAnharm ListFacts ModesFacts StatesFacts
  ResFacts AnharmFacts VibRotFacts TransformFacts SymFacts.
Import ListNotations.
Open Scope R_scope.

(** ** the standard formulas *)
(** [res i j k] says that w_i + w_j ~ w_k is reported; the partial fraction with that
    denominator is left out *)
Definition xfrac (w : nat -> R) (res : nat -> nat -> nat -> bool) (k l m : nat) : R :=
  (1 / (w k + w l + w m)
   + keep (res k m l) (1 / (w k + w m - w l))
   - keep (res k l m) (1 / (w k + w l - w m))
   + keep (res l m k) (1 / (w l + w m - w k))) / 8.
Definition gfrac (w : nat -> R) (res : nat -> nat -> nat -> bool) (k l m : nat) : R :=
  (1 / (w k + w l + w m)
   - keep (res k m l) (1 / (w k + w m - w l))
   - keep (res k l m) (1 / (w k + w l - w m))
   - keep (res l m k) (1 / (w l + w m - w k))) / 8.
(** the same with k = m taken twice: w_k, w_k, w_l *)
Definition xfrac1 (w : nat -> R) (res : nat -> nat -> nat -> bool) (k l : nat) : R :=
  1 / (8 * w l) + / 32 * (1 / (2 * w k + w l)) - / 32 * keep (res k k l) (1 / (2 * w k - w l)).

Section Spec.
  Variables (f4 : nat -> nat -> nat -> nat -> R) (w : nat -> R) (f3 : nat -> nat -> nat -> R)
    (zeta : nat -> nat -> nat -> R) (B : nat -> R) (res : nat -> nat -> nat -> bool)
    (ns : list nat) (ts : list (nat * nat)).
  (** Coriolis factor of two modes *)
  Definition ratio (k l : nat) : R := w k / w l + w l / w k.

  (** nondegenerate modes; B 2 is the constant of the symmetry axis, B 1 the other *)
  Definition sx_nn1 (k : nat) : R :=
    f4 k k k k / 16 - Rsum ns (fun l => Rsqr (f3 k k l) * xfrac1 w res k l).
  Definition sx_nn (k l : nat) : R :=
    f4 k k l l / 4 - Rsum ns (fun m => f3 k k m * f3 l l m / (4 * w m))
    - Rsum ns (fun m => Rsqr (f3 k m l) * xfrac w res k l m)
    + ratio k l * (B 2%nat * Rsqr (zeta k l 2%nat)).
  (** nondegenerate k, degenerate l *)
  Definition sx_nd (k l : nat) : R :=
    f4 k k l l / 4 - Rsum ns (fun m => f3 k k m * f3 l l m / (4 * w m))
    - Rsum ts (fun m => Rsqr (f3 k l (fst m)) * xfrac w res k l (fst m))
    + ratio k l * (B 1%nat * (Rsqr (zeta k l 0%nat) + Rsqr (zeta k l 1%nat))).
  (** degenerate modes *)
  Definition sx_dd1 (k : nat) : R :=
    f4 k k k k / 16 - Rsum ns (fun l => Rsqr (f3 k k l) * xfrac1 w res k l)
    - Rsum ts (fun l => Rsqr (f3 k k (fst l)) * xfrac1 w res k (fst l)).
  Definition sx_dd (axis k l l2 : nat) : R :=
    (f4 k k l l + f4 k k l2 l2) / 8
    - Rsum ns (fun m => f3 k k m * f3 l l m / (4 * w m))
    - Rsum ns (fun m => Rsqr (f3 k l m) / 2 * xfrac w res k l m)
    - Rsum ts (fun m => Rsqr (f3 k l (fst m)) * xfrac w res k l (fst m))
    + ratio k l * (B 2%nat * Rsqr (zeta k l2 2%nat) / 2 + B 1%nat * Rsqr (zeta k l axis)).
  (** g constants *)
  Definition sg_dd1 (k k2 : nat) : R :=
    - (f4 k k k k / 48)
    - Rsum ns (fun l => Rsqr (f3 k k l) / 32
        * (keep (res k k l) (1 / (2 * w k - w l)) - 1 / (2 * w k + w l)))
    + Rsum ts (fun l => Rsqr (f3 k k (fst l))
        * (1 / (8 * w (fst l))
           + / 32 * (keep (res k k (fst l)) (1 / (2 * w k - w (fst l))) - 1 / (2 * w k + w (fst l)))))
    + B 2%nat * Rsqr (zeta k k2 2%nat).
  Definition sg_dd (axis k k2 l l2 : nat) : R :=
    Rsum ns (fun m => Rsqr (f3 k l m) / 2 * gfrac w res k l m)
    - Rsum ts (fun m => Rsqr (f3 k l (fst m)) * gfrac w res k l (fst m))
    - 2 * B 1%nat * Rsqr (zeta k l axis) + B 2%nat * Rsqr (zeta k l2 2%nat)
    + 2 * B 2%nat * zeta k k2 2%nat * zeta l l2 2%nat.
End Spec.

(** ** the checks *)
(** a resonance is stored once per key *)
Definition keys_once (fm1 : list (nat * nat)) (fm2 : list (nat * nat * nat)) : Prop :=
  (forall i j j', In (i, j) fm1 -> In (i, j') fm1 -> j = j') /\
  (forall i j k k', In (i, j, k) fm2 -> In (i, j, k') fm2 -> k = k') /\
  (forall i j k, In (i, j, k) fm2 -> i <> j).
(** every type 2 resonance with k and l has them as sources, k named first *)
Definition sources_only (fm2 : list (nat * nat * nat)) (k l : nat) : Prop :=
  (forall i j, ~ In (i, j, k) fm2) /\ (forall i j, ~ In (i, j, l) fm2) /\
  (forall m, ~ In (l, k, m) fm2).

Lemma check1_res fm1 fm2 k l : keys_once fm1 fm2 ->
  check1 (ifrm1 (make_fermi_checks fm1 fm2)) k l = true <-> resonant fm1 fm2 k k l.
Proof.
  intros (U1 & U2 & U3). unfold check1. rewrite ifrm1_eq. split.
  - destruct (last_for Nat.eqb k fm1) eqn:E; [|discriminate]. intros Q. apply Nat.eqb_eq in Q. subst.
    apply (last_for_in _ Nat.eqb_eq) in E. left. auto.
  - intros [[_ I]|[I|I]]; [|now apply U3 in I..].
    rewrite (last_for_unique _ Nat.eqb_eq k fm1 l); [apply Nat.eqb_refl| |exact I].
    intros; eapply U1; eauto.
Qed.
Lemma check2_neq fm1 fm2 i j k : keys_once fm1 fm2 -> i <> j ->
  check2 (ifrm2 (make_fermi_checks fm1 fm2)) i j k = true <-> In (i, j, k) fm2.
Proof.
  intros (U1 & U2 & U3) N. unfold check2. rewrite ifrm2_eq by exact N. split.
  - destruct (last_for eqb2 (i, j) fm2) eqn:E; [|discriminate]. intros Q. apply Nat.eqb_eq in Q. subst.
    now apply (last_for_in _ eqb2_spec) in E.
  - intros I. rewrite (last_for_unique _ eqb2_spec (i, j) fm2 k); [apply Nat.eqb_refl| |exact I].
    intros; eapply U2; eauto.
Qed.
Lemma ifrm2_diag fm1 fm2 i : (forall a b k, In (a, b, k) fm2 -> a <> b) ->
  ifrm2 (make_fermi_checks fm1 fm2) i i = last_for Nat.eqb i fm1.
Proof.
  intros U. unfold make_fermi_checks. rewrite fold_ifrm2'.
  destruct (last_for eqb2 (i, i) fm2) eqn:E.
  { apply (last_for_in _ eqb2_spec) in E. now apply U in E. }
  clear E U. set (c := mk_checks (fun _ _ _ => 0%nat) empty1 empty2).
  assert (G : forall fm c, ifrm2 (fold_left (fun c '(i, j) =>
      mk_checks (upd3 (ifrmchk c) i i j 1%nat) (insert1 (ifrm1 c) i j)
                (insert2 (ifrm2 c) (i, i) j)) fm c) i i
      = match last_for Nat.eqb i fm with Some j => Some j | None => ifrm2 c i i end).
  { induction fm as [|[a b] l IH]; intros c'; cbn [fold_left last_for]; [reflexivity|].
    rewrite IH. cbn [ifrm2]. destruct (last_for Nat.eqb i l); [reflexivity|].
    unfold insert2, upd2. cbn [fst snd]. now destruct (i =? a)%nat. }
  rewrite G. cbn. unfold empty2. now destruct last_for.
Qed.
Lemma check2_diag fm1 fm2 i k : keys_once fm1 fm2 ->
  check2 (ifrm2 (make_fermi_checks fm1 fm2)) i i k = true <-> resonant fm1 fm2 i i k.
Proof.
  intros K. unfold check2. rewrite ifrm2_diag by apply K. rewrite <- ifrm1_eq with (fm2 := fm2).
  apply check1_res, K.
Qed.

Section Terms.
  Variables (fm1 : list (nat * nat)) (fm2 : list (nat * nat * nat)) (res : nat -> nat -> nat -> bool).
  Hypothesis Hres : reported fm1 fm2 res.
  Hypothesis Hkeys : keys_once fm1 fm2.
  Let c := make_fermi_checks fm1 fm2.

  Lemma not_res i j k : ~ resonant fm1 fm2 i j k -> res i j k = false.
  Proof. intros N. apply not_true_iff_false. intros Q. now apply N, Hres. Qed.

  Lemma check1_eq k l : check1 (ifrm1 c) k l = res k k l.
  Proof.
    apply eq_true_iff_eq. unfold c. rewrite check1_res by exact Hkeys. symmetry. apply Hres.
  Qed.

  Lemma checks k l : k <> l -> sources_only fm2 k l ->
    (forall m, m <> l -> check2 (ifrm2 c) l m k = false /\ check2 (ifrm2 c) m l k = false /\ res l m k = false) /\
    (forall m, m <> k -> check2 (ifrm2 c) k m l = false /\ check2 (ifrm2 c) m k l = false /\ res k m l = false) /\
    check2 (ifrm2 c) l l k = res l l k /\ check2 (ifrm2 c) k k l = res k k l /\
    (forall m, check2 (ifrm2 c) k l m = res k l m /\ check_either (ifrm2 c) l k m = res k l m) /\
    res k l k = false /\ res k l l = false /\ res l k k = false /\ res l k l = false.
  Proof.
    intros N (S1 & S2 & S3).
    assert (F : forall i j m, i <> j -> ~ In (i, j, m) fm2 -> check2 (ifrm2 c) i j m = false).
    { intros i j m Hij Q. apply not_true_iff_false. intros E. apply Q.
      now apply (check2_neq fm1 fm2 i j m Hkeys Hij). }
    assert (D : forall i m, check2 (ifrm2 c) i i m = res i i m).
    { intros i m. apply eq_true_iff_eq. unfold c. rewrite check2_diag by exact Hkeys. symmetry. apply Hres. }
    assert (Q : forall i j m, i <> j -> ~ In (i, j, m) fm2 -> ~ In (j, i, m) fm2 -> res i j m = false).
    { intros i j m Hij Q1 Q2. apply not_res. intros [[E _]|[E|E]]; auto. }
    assert (E : forall m, check2 (ifrm2 c) k l m = res k l m).
    { intros m. apply eq_true_iff_eq. unfold c. rewrite check2_neq by assumption. split.
      - intros I. apply Hres. right. now left.
      - intros I. apply Hres in I as [[I _]|[I|I]]; [contradiction|exact I|]. now apply S3 in I. }
    refine (conj _ (conj _ (conj (D l k) (conj (D k l) (conj _ (conj _ (conj _ (conj _ _)))))))).
    - intros m Hm. repeat apply conj; auto.
    - intros m Hm. repeat apply conj; auto.
    - intros m. split; [apply E|]. unfold check_either. rewrite (F l k m); auto.
    - auto.
    - auto.
    - auto.
    - auto.
  Qed.

  Variables (w : nat -> R).

  (** nonzero denominators of the three modes *)
  Definition dens (k l m : nat) : Prop :=
    0 < w k /\ 0 < w l /\ 0 < w m /\
    (res k m l = false -> w k + w m - w l <> 0) /\ (res k l m = false -> w k + w l - w m <> 0) /\
    (res l m k = false -> w l + w m - w k <> 0).

  Ltac exact_frac := field; repeat split; try lra; try (intros Q0; nra).

  Lemma plain_R k l m : dens k l m -> res k m l = false -> res k l m = false -> res l m k = false ->
    plain w k l m = xfrac w res k l m.
  Proof.
    intros (Pk & Pl & Pm & D1 & D2 & D3) E1 E2 E3.
    specialize (D1 E1). specialize (D2 E2). specialize (D3 E3).
    unfold plain, xfrac, d1, d2, d3, d4, nsq. rewrite E1, E2, E3. unfold keep. unR. rewrite nlit_half.
    exact_frac.
  Qed.
  Lemma frac_d3 k l m : dens k l m -> res k m l = false -> res k l m = true -> res l m k = false ->
    (1 / d1 w k l m + 1 / d2 w k l m + 1 / d4 w k l m) / 8 = xfrac w res k l m.
  Proof.
    intros (Pk & Pl & Pm & D1 & D2 & D3) E1 E2 E3.
    specialize (D1 E1). specialize (D3 E3).
    unfold xfrac, d1, d2, d3, d4. rewrite E1, E2, E3. unfold keep. unR. exact_frac.
  Qed.
  Lemma frac_twice_l k l : dens k l l -> res k l l = false -> res l l k = true ->
    1 / (8 * (2 * w l + w k)) = xfrac w res k l l.
  Proof.
    intros (Pk & Pl & Pm & D1 & D2 & D3) E1 E.
    unfold xfrac. rewrite E1, E. unfold keep. exact_frac.
  Qed.
  Lemma frac_twice_k k l : dens k l k -> res k l k = false -> res l k k = false -> res k k l = true ->
    1 / (8 * (2 * w k + w l)) = xfrac w res k l k.
  Proof.
    intros (Pk & Pl & Pm & D1 & D2 & D3) E1 E2 E.
    unfold xfrac. rewrite E1, E2, E. unfold keep. exact_frac.
  Qed.

  Lemma nn_term_R k l m : k <> l -> sources_only fm2 k l -> dens k l m ->
    nn_term w c k l m = xfrac w res k l m.
  Proof.
    intros N S D. destruct (checks k l N S) as (A & A' & B & B' & E & R1 & R2 & R3 & R4).
    unfold nn_term. destruct (E m) as [-> _].
    destruct (Nat.eq_dec m l) as [->|Hl].
    - rewrite B, R2. destruct (A' l ltac:(congruence)) as (-> & _ & _).
      destruct (res l l k) eqn:Q.
      + rewrite <- frac_twice_l by auto. unR. reflexivity.
      + apply plain_R; auto.
    - destruct (A m Hl) as (-> & _ & Z). destruct (Nat.eq_dec m k) as [->|Hk].
      + rewrite B', R1. destruct (res k k l) eqn:Q.
        * rewrite <- frac_twice_k by auto. unR. reflexivity.
        * apply plain_R; auto.
      + destruct (A' m Hk) as (-> & _ & Z'). destruct (res k l m) eqn:Q.
        * rewrite <- frac_d3 by auto. unR. reflexivity.
        * apply plain_R; auto.
  Qed.
  Lemma nd_term_R k l m : k <> l -> m <> k -> sources_only fm2 k l -> dens k l m ->
    nd_term w c k l m = xfrac w res k l m.
  Proof.
    intros N Hk S D. destruct (checks k l N S) as (A & A' & B & B' & E & R1 & R2 & R3 & R4).
    unfold nd_term. destruct (E m) as [-> _]. destruct (A' m Hk) as (-> & _ & Z').
    destruct (Nat.eqb_spec l m) as [<-|Hl]; cbn [andb].
    - rewrite B, R2. destruct (res l l k) eqn:Q.
      + rewrite <- frac_twice_l by auto. unR. reflexivity.
      + apply plain_R; auto.
    - destruct (A m ltac:(congruence)) as (-> & _ & Z). destruct (res k l m) eqn:Q.
      + rewrite <- frac_d3 by auto. unR. unfold Rdiv. ring.
      + apply plain_R; auto.
  Qed.

  Variables (f3 : nat -> nat -> nat -> R).
  Lemma plain_u k l m : dens k l m -> res k m l = false -> res k l m = false -> res l m k = false ->
    w m * (w m * w m - w k * w k - w l * w l)
      / (- d1 w k l m * d2 w k l m * d3 w k l m * d4 w k l m) = 2 * xfrac w res k l m.
  Proof.
    intros D E1 E2 E3. rewrite <- plain_R by assumption. unfold plain, nsq. unR. rewrite nlit_half.
    destruct D as (Pk & Pl & Pm & D1 & D2 & D3).
    specialize (D1 E1). specialize (D2 E2). specialize (D3 E3).
    unfold d1, d2, d3, d4. unR. exact_frac.
  Qed.
  Lemma dd_u_R k l m : k <> l -> m <> k -> m <> l -> sources_only fm2 k l -> dens k l m ->
    dd_u w f3 c k l m = - (Rsqr (f3 k l m) / 2 * xfrac w res k l m).
  Proof.
    intros N Hk Hl S D. destruct (checks k l N S) as (A & A' & B & B' & E & R1 & R2 & R3 & R4).
    unfold dd_u. destruct (E m) as [_ ->]. destruct (A m Hl) as (_ & -> & Z).
    destruct (A' m Hk) as (_ & -> & Z'). destruct (res k l m) eqn:Q.
    - rewrite <- frac_d3 by auto. unfold nsq, Rsqr. unR. field.
      destruct D as (? & ? & ? & D1 & D2 & D3). specialize (D1 Z'). specialize (D3 Z).
      unfold d1, d2, d4. unR. repeat split; lra.
    - replace (Rsqr (f3 k l m) / 2 * xfrac w res k l m) with (Rsqr (f3 k l m) / 4 * (2 * xfrac w res k l m)) by field.
      rewrite <- plain_u by auto. unfold nsq, Rsqr. unR.
      replace (nlit 1 4 : R) with (/ 4) by (cbn; lra). field.
      destruct D as (? & ? & ? & D1 & D2 & D3). specialize (D1 Z'). specialize (D3 Z). specialize (D2 Q).
      unfold d1, d2, d3, d4. unR. repeat split; lra.
  Qed.
  Lemma dd_us_R k l m : k <> l -> sources_only fm2 k l -> dens k l m ->
    dd_us w f3 c k l m = - (Rsqr (f3 k l m) * xfrac w res k l m).
  Proof.
    intros N S D. destruct (checks k l N S) as (A & A' & B & B' & E & R1 & R2 & R3 & R4).
    assert (PL : res k m l = false -> res k l m = false -> res l m k = false ->
      nmul (nmul (nmul (nopp (nlit 1 2)) (nsq (f3 k l m))) (w m)) (nsub (nsub (nsq (w m)) (nsq (w k))) (nsq (w l)))
        / (- d1 w k l m * d2 w k l m * d3 w k l m * d4 w k l m) = - (Rsqr (f3 k l m) * xfrac w res k l m)).
    { intros E1 E2 E3.
      replace (Rsqr (f3 k l m) * xfrac w res k l m) with (Rsqr (f3 k l m) / 2 * (2 * xfrac w res k l m)) by field.
      rewrite <- plain_u by auto. unfold nsq, Rsqr. unR. rewrite nlit_half. field.
      destruct D as (? & ? & ? & D1 & D2 & D3). specialize (D1 E1). specialize (D2 E2). specialize (D3 E3).
      unfold d1, d2, d3, d4. unR. repeat split; lra. }
    unfold dd_us. destruct (E m) as [-> _].
    destruct (Nat.eqb_spec l m) as [<-|Hl]; cbn [andb].
    - rewrite B, R2. destruct (Nat.eqb_spec k l) as [?|_]; [contradiction|]. cbn [andb].
      destruct (A' l ltac:(congruence)) as (-> & _ & Z').
      destruct (res l l k) eqn:Q; [|now apply PL].
      rewrite <- frac_twice_l by auto.
      unfold nsq, Rsqr. unR. destruct D as (? & ? & _). field. lra.
    - destruct (A m ltac:(congruence)) as (-> & _ & Z).
      destruct (Nat.eqb_spec k m) as [<-|Hk]; cbn [andb].
      + rewrite B', R1. destruct (res k k l) eqn:Q; [|now apply PL].
        rewrite <- frac_twice_k by auto.
        unfold nsq, Rsqr. unR. destruct D as (? & ? & _). field. lra.
      + destruct (A' m ltac:(congruence)) as (-> & _ & Z'). destruct (res k l m) eqn:Q; [|now apply PL].
        rewrite <- frac_d3 by auto. unfold nsq, Rsqr. unR. field.
        destruct D as (? & ? & ? & D1 & D2 & D3). specialize (D1 Z'). specialize (D3 Z).
        unfold d1, d2, d4. unR. repeat split; lra.
  Qed.

  Lemma diag_term_R k l : 0 < w k -> 0 < w l -> (res k k l = false -> 2 * w k - w l <> 0) ->
    diag_term w f3 c k l = Rsqr (f3 k k l) * xfrac1 w res k l.
  Proof.
    intros Pk Pl D. unfold diag_term, xfrac1. rewrite check1_eq. unfold nsq, Rsqr.
    destruct (res k k l) eqn:E; unfold keep; unR.
    - exact_frac.
    - specialize (D eq_refl). exact_frac.
  Qed.
  Lemma g1_u_R k l : 0 < w k -> 0 < w l -> (res k k l = false -> 2 * w k - w l <> 0) ->
    g1_u w f3 c k l = - (Rsqr (f3 k k l) / 32 * (keep (res k k l) (1 / (2 * w k - w l)) - 1 / (2 * w k + w l))).
  Proof.
    intros Pk Pl D. unfold g1_u. rewrite check1_eq. unfold nsq, Rsqr.
    destruct (res k k l) eqn:E; unfold keep; unR.
    - exact_frac.
    - specialize (D eq_refl). exact_frac.
  Qed.
  Lemma g1_us_R k l : 0 < w k -> 0 < w l -> res k k l = false -> 2 * w k - w l <> 0 ->
    g1_us w f3 c k l = Rsqr (f3 k k l) * (1 / (8 * w l)
      + / 32 * (keep (res k k l) (1 / (2 * w k - w l)) - 1 / (2 * w k + w l))).
  Proof.
    intros Pk Pl E D. unfold g1_us. rewrite check1_eq, E. unfold nsq, Rsqr, keep. unR. exact_frac.
  Qed.

  (** no resonance between the three modes *)
  Definition free (k l m : nat) : Prop :=
    res k l m = false /\ res l k m = false /\ res k m l = false /\ res m k l = false /\
    res l m k = false /\ res m l k = false.
  Lemma check2_free i j m : res i j m = false -> check2 (ifrm2 c) i j m = false.
  Proof.
    intros E. apply not_true_iff_false. intros Q. apply not_true_iff_false in E. apply E, Hres.
    destruct (Nat.eq_dec i j) as [->|N].
    - now apply (check2_diag fm1 fm2 j m Hkeys).
    - right. left. now apply (check2_neq fm1 fm2 i j m Hkeys N).
  Qed.
  Lemma g_frac k l m : dens k l m -> free k l m ->
    w m * w k * w l / (- d1 w k l m * d2 w k l m * d3 w k l m * d4 w k l m) = gfrac w res k l m.
  Proof.
    intros (Pk & Pl & Pm & D1 & D2 & D3) (E2 & _ & E1 & _ & E3 & _).
    specialize (D1 E1). specialize (D2 E2). specialize (D3 E3).
    unfold gfrac, d1, d2, d3, d4. rewrite E1, E2, E3. unfold keep. unR. exact_frac.
  Qed.
  Lemma g_u_R k l m : dens k l m -> free k l m -> g_u w c k l m = - / 2 * gfrac w res k l m.
  Proof.
    intros D F. rewrite <- g_frac by assumption. unfold g_u, check_either.
    pose proof F as (F1 & F2 & F3 & F4 & F5 & F6).
    rewrite !check2_free by assumption. unR. rewrite nlit_half. unfold Rdiv. ring.
  Qed.
  Lemma g_us_R k l m : dens k l m -> free k l m -> g_us w c k l m = gfrac w res k l m.
  Proof.
    intros D F. rewrite <- g_frac by assumption. unfold g_us.
    pose proof F as (F1 & F2 & F3 & F4 & F5 & F6).
    rewrite !check2_free by assumption. unR. reflexivity.
  Qed.
End Terms.

(** ** the whole matrices *)
(** the Coriolis component used for two degenerate modes: x (0) only if no pair has a
    vanishing xz derivative and some pair has a vanishing yz derivative, else y (1) *)
Definition cor_axis (r : rotor) (ts : list (nat * nat)) (wila : nat -> nat -> R) (axis : nat) : Prop :=
  let small i j := Rabs (wila i j) <= 1 / 1000000 in
  let usex := is_linear r = false /\ (forall a b, In (a, b) ts -> ~ small b 3%nat)
              /\ exists a b, In (a, b) ts /\ small b 4%nat in
  (axis = 0%nat <-> usex) /\ (axis = 1%nat <-> ~ usex).

Lemma axis_lemma r ts (wila : nat -> nat -> R) : cor_axis r ts wila (xcals_ixyz r ts wila).
Proof.
  assert (G : forall i n, (n <= fold_left (fun n '(_, i2) =>
        if nleb (nabs (wila i2 i)) XTOL then (n + 1)%nat else n) ts n)%nat /\
      ((n < fold_left (fun n '(_, i2) =>
        if nleb (nabs (wila i2 i)) XTOL then (n + 1)%nat else n) ts n)%nat <->
       exists a b, In (a, b) ts /\ Rabs (wila b i) <= 1 / 1000000)).
  { intros i. induction ts as [|[a b] l IH]; intros n; cbn [fold_left].
    - split; [lia|]. split; [lia|]. intros (? & ? & [] & _).
    - assert (T : nleb (nabs (wila b i)) XTOL = true <-> Rabs (wila b i) <= 1 / 1000000).
      { unfold XTOL. cbn. unfold Rleb. destruct (Rle_dec _ _) as [Q|Q].
        - split; [intros _; lra|reflexivity].
        - split; [discriminate|intros; lra]. }
      destruct (nleb (nabs (wila b i)) XTOL) eqn:E.
      + destruct (IH (n + 1)%nat) as [L _]. split; [lia|]. split; [|intros _; lia].
        intros _. exists a, b. split; [now left|]. now apply T.
      + destruct (IH n) as [L ->]. split; [lia|]. split.
        * intros (a' & b' & I & Q). exists a', b'. split; [now right|exact Q].
        * intros (a' & b' & [I|I] & Q).
          -- inversion I; subst. apply T in Q. discriminate.
          -- exists a', b'. auto. }
  unfold cor_axis, xcals_ixyz. destruct (is_linear r).
  { split; [split; [lia|intros (? & _); discriminate]|]. split; [intros _ (? & _); discriminate|reflexivity]. }
  destruct (G 3%nat 0%nat) as [_ G3]. destruct (G 4%nat 0%nat) as [_ G4].
  destruct (Nat.ltb_spec 0 (fold_left (fun n '(_, i2) =>
        if nleb (nabs (wila i2 3%nat)) XTOL then (n + 1)%nat else n) ts 0%nat)) as [A|A].
  - apply G3 in A as (a & b & I & Q).
    assert (~ (false = false /\ (forall a b, In (a, b) ts -> ~ Rabs (wila b 3%nat) <= 1 / 1000000)
              /\ exists a b, In (a, b) ts /\ Rabs (wila b 4%nat) <= 1 / 1000000)).
    { intros (_ & N & _). exact (N a b I Q). }
    split; [split; [lia|tauto]|tauto].
  - assert (N : forall a b, In (a, b) ts -> ~ Rabs (wila b 3%nat) <= 1 / 1000000).
    { intros a b I Q. assert (Z := proj2 G3 (ex_intro _ a (ex_intro _ b (conj I Q)))). lia. }
    destruct (Nat.ltb_spec 0 (fold_left (fun n '(_, i2) =>
        if nleb (nabs (wila i2 4%nat)) XTOL then (n + 1)%nat else n) ts 0%nat)) as [C|C].
    + apply G4 in C. split; [split; [auto|reflexivity]|]. split; [lia|]. intros Z. exfalso. apply Z. auto.
    + split; [split; [lia|]|split; [|reflexivity]].
      * intros (_ & _ & Q). apply G4 in Q. lia.
      * intros _ (_ & _ & Q). apply G4 in Q. lia.
Qed.

Section Whole.
  Variables (nvib : nat) (modes : list mode) (f4 : nat -> nat -> nat -> nat -> R) (w : nat -> R)
    (f3 : nat -> nat -> nat -> R) (zeta : nat -> nat -> nat -> R) (B : nat -> R) (r : rotor)
    (fm1 : list (nat * nat)) (fm2 : list (nat * nat * nat)) (res : nat -> nat -> nat -> bool)
    (wila : nat -> nat -> R) (x g : nat -> nat -> R) (e0 : R).
  Hypothesis Hpart : Permutation (flat_map members modes) (seq 0 nvib).
  Hypothesis Hres : reported fm1 fm2 res.
  Hypothesis Hkeys : keys_once fm1 fm2.
  Hypothesis Hw : forall i, (i < nvib)%nat -> 0 < w i.
  Hypothesis Hd : forall i j m, (i < nvib)%nat -> (j < nvib)%nat -> (m < nvib)%nat ->
     res i j m = false -> w i + w j - w m <> 0.
  Hypothesis Hx : xcals f4 w f3 zeta B r fm1 fm2 modes wila = Some (x, g, e0).
  Let c := make_fermi_checks fm1 fm2.
  Let axis := xcals_ixyz r (degs modes) wila.
  Notation ns := (nondeg modes).
  Notation ts := (degs modes).

  Lemma ns_eq : i1mode modes = ns.
  Proof. apply i1mode_eq. Qed.
  Lemma ts_eq : i2mode modes = ts.
  Proof. apply i2mode_eq. Qed.
  Lemma ns_lt k : In k ns -> (k < nvib)%nat.
  Proof.
    intros I. apply (part_lt nvib modes Hpart). apply in_app_iff. left. now rewrite ns_eq.
  Qed.
  Lemma ts_lt k k2 : In (k, k2) ts -> (k < nvib)%nat /\ (k2 < nvib)%nat.
  Proof.
    intros I. rewrite <- ts_eq in I.
    split; apply (part_lt nvib modes Hpart); apply in_app_iff; right; apply in_app_iff; left;
      apply in_flat_map; exists (k, k2); (split; [exact I|cbn; auto]).
  Qed.
  Lemma fst_lt m : In m ts -> (fst m < nvib)%nat.
  Proof. destruct m as [a b]. intros I. apply (ts_lt a b I). Qed.
  Lemma at1_ns p k : nth_error ns p = Some k -> at1 modes p k.
  Proof. unfold at1. now rewrite ns_eq. Qed.
  Lemma at2_ts p k k2 : nth_error ts p = Some (k, k2) -> at2 modes p k k2.
  Proof. unfold at2. now rewrite ts_eq. Qed.

  Lemma shapes : x = writes (fun _ _ => 0) (w_x f4 w f3 zeta B c axis modes) /\
                 g = writes (fun _ _ => 0) (w_g1 f4 w f3 zeta B c modes ++ w_off modes (v_g w f3 zeta B c axis modes)).
  Proof.
    revert Hx. unfold xcals. cbv zeta. fold c. unfold axis. rewrite <- ts_eq.
    destruct (is_diatomic r) eqn:D.
    { unfold nondeg_nondeg. rewrite D. discriminate. }
    rewrite (x_writes _ _ _ _ _ _ _ _ _ D). cbn [obind].
    rewrite nd_writes, dd_writes, g_writes. intros [= E1 E2 _]. subst x g. unfold w_x.
    rewrite !writes_app. replace (0 / 1) with 0 by lra. auto.
  Qed.

  Lemma dens_lt k l m : (k < nvib)%nat -> (l < nvib)%nat -> (m < nvib)%nat -> dens res w k l m.
  Proof. intros. unfold dens. repeat split; auto. Qed.
  Lemma two k l : (k < nvib)%nat -> (l < nvib)%nat -> res k k l = false -> 2 * w k - w l <> 0.
  Proof. intros Hk Hl E. specialize (Hd k k l Hk Hk Hl E). lra. Qed.

  Lemma sum_sub {A} (l : list A) (f h : A -> R) : (forall a, In a l -> f a = h a) ->
    acc_sub l f (nz 0) = - Rsum l h.
  Proof. intros E. rewrite acc_sub_R, nz_R, (Rsum_ext _ _ _ E). lra. Qed.
  Lemma sum_opp {A} (l : list A) (f h : A -> R) : (forall a, In a l -> f a = - h a) ->
    nsum l f = - Rsum l h.
  Proof. intros E. rewrite nsum_R, (Rsum_ext _ _ _ E), Rsum_opp. reflexivity. Qed.

  Lemma kk_R k : In k ns -> kk_value f4 w f3 c modes k = sx_nn1 f4 w f3 res ns k.
  Proof.
    intros Hk. unfold kk_value, sx_nn1. rewrite ns_eq.
    rewrite (sum_sub _ _ (fun l => Rsqr (f3 k k l) * xfrac1 w res k l)).
    - unR. lra.
    - intros l Hl. apply ns_lt in Hk, Hl. apply diag_term_R; auto. now apply two.
  Qed.
  Lemma nn_R k l : In k ns -> In l ns -> k <> l -> sources_only fm2 k l ->
    nn_value f4 w f3 zeta B c ns 2 k l = sx_nn f4 w f3 zeta B res ns k l.
  Proof.
    intros Hk Hl N S. unfold nn_value, sx_nn.
    rewrite (sum_sub _ _ (fun m => f3 k k m * f3 l l m / (4 * w m))) by (intros; unR; reflexivity).
    rewrite (sum_opp _ _ (fun m => Rsqr (f3 k m l) * xfrac w res k l m)).
    - unfold nsq, Rsqr, ratio. unR. lra.
    - intros m Hm. apply ns_lt in Hk, Hl, Hm. unfold c.
      rewrite (nn_term_R fm1 fm2 res); auto; [|now apply dens_lt]. unfold nsq, Rsqr. unR. lra.
  Qed.
  Lemma nd_R k l l2 : In k ns -> In (l, l2) ts -> sources_only fm2 k l ->
    nd_value f4 w f3 zeta B c ns ts 1 k l = sx_nd f4 w f3 zeta B res ns ts k l.
  Proof.
    intros Hk Hl S. unfold nd_value, sx_nd.
    assert (D : forall l l2, In (l, l2) ts -> k <> l).
    { intros a b Hab. apply In_nth_error in Hk as (p & Hp), Hab as (q & Hq).
      destruct (at12 nvib modes Hpart p q k a b (at1_ns _ _ Hp) (at2_ts _ _ _ Hq)). auto. }
    rewrite (sum_sub _ _ (fun m => f3 k k m * f3 l l m / (4 * w m))) by (intros; unR; reflexivity).
    rewrite (sum_opp _ _ (fun m => Rsqr (f3 k l (fst m)) * xfrac w res k l (fst m))).
    - unfold nsq, Rsqr, ratio. unR. lra.
    - intros [m m2] Hm. pose proof (D _ _ Hl). pose proof (D _ _ Hm). cbn [fst].
      apply ns_lt in Hk. apply ts_lt in Hl as [Hl _], Hm as [Hm _]. unfold c.
      rewrite (nd_term_R fm1 fm2 res); auto; [|now apply dens_lt]. unfold nsq, Rsqr. unR. lra.
  Qed.
  Lemma dd1_R k k2 : In (k, k2) ts -> dd1_value f4 w f3 c ns ts k = sx_dd1 f4 w f3 res ns ts k.
  Proof.
    intros Hk. apply ts_lt in Hk as [Hk _]. unfold dd1_value, sx_dd1.
    rewrite (sum_sub _ _ (fun l => Rsqr (f3 k k l) * xfrac1 w res k l)).
    rewrite (sum_sub _ _ (fun l => Rsqr (f3 k k (fst l)) * xfrac1 w res k (fst l))).
    - unR. lra.
    - intros l Hl. apply fst_lt in Hl. apply diag_term_R; auto. now apply two.
    - intros l Hl. apply ns_lt in Hl. apply diag_term_R; auto. now apply two.
  Qed.
  Lemma dd_R k k2 l l2 : In (k, k2) ts -> In (l, l2) ts -> k <> l -> sources_only fm2 k l ->
    dd_value f4 w f3 zeta B c ns ts 2 1 axis k l l2 = sx_dd f4 w f3 zeta B res ns ts axis k l l2.
  Proof.
    intros Hk Hl N S. unfold dd_value, sx_dd.
    assert (D : forall m l l2, In m ns -> In (l, l2) ts -> m <> l).
    { intros m a b Hm Hab. apply In_nth_error in Hm as (p & Hp), Hab as (q & Hq).
      destruct (at12 nvib modes Hpart p q m a b (at1_ns _ _ Hp) (at2_ts _ _ _ Hq)). auto. }
    rewrite (sum_opp _ _ (fun m => f3 k k m * f3 l l m / (4 * w m))) by (intros; unR; reflexivity).
    rewrite (sum_opp _ _ (fun m => Rsqr (f3 k l m) / 2 * xfrac w res k l m)).
    rewrite (sum_opp _ _ (fun m => Rsqr (f3 k l (fst m)) * xfrac w res k l (fst m))).
    - unfold nsq, Rsqr, ratio. unR. rewrite nlit_half. lra.
    - intros m Hm. apply ts_lt in Hk as [Hk _], Hl as [Hl _]. apply fst_lt in Hm.
      unfold c. apply dd_us_R; auto. now apply dens_lt.
    - intros m Hm. pose proof (D _ _ _ Hm Hk). pose proof (D _ _ _ Hm Hl).
      apply ts_lt in Hk as [Hk _], Hl as [Hl _]. apply ns_lt in Hm.
      unfold c. apply dd_u_R; auto. now apply dens_lt.
  Qed.
  Lemma g1_R k k2 : In (k, k2) ts -> (forall l l2, In (l, l2) ts -> res k k l = false) ->
    g1_value f4 w f3 zeta B c ns ts 2 k k2 = sg_dd1 f4 w f3 zeta B res ns ts k k2.
  Proof.
    intros Hk N. apply ts_lt in Hk as [Hk _]. unfold g1_value, sg_dd1.
    rewrite (sum_opp _ _ (fun l => Rsqr (f3 k k l) / 32
        * (keep (res k k l) (1 / (2 * w k - w l)) - 1 / (2 * w k + w l)))).
    rewrite nsum_R, (Rsum_ext _ (fun l => Rsqr (f3 k k (fst l))
        * (1 / (8 * w (fst l))
           + / 32 * (keep (res k k (fst l)) (1 / (2 * w k - w (fst l))) - 1 / (2 * w k + w (fst l)))))).
    - unfold nsq, Rsqr. unR. lra.
    - intros [l l2] Hl. pose proof (N l l2 Hl). apply ts_lt in Hl as [Hl _]. cbn [fst].
      unfold c. apply g1_us_R; auto. now apply two.
    - intros l Hl. apply ns_lt in Hl. unfold c. apply g1_u_R; auto. now apply two.
  Qed.
  Lemma g_R k k2 l l2 : In (k, k2) ts -> In (l, l2) ts ->
    (forall m, In m ns \/ In m (map fst ts) -> free res k l m) ->
    g_value w f3 zeta B c ns ts 2 1 axis k k2 l l2 = sg_dd w f3 zeta B res ns ts axis k k2 l l2.
  Proof.
    intros Hk Hl Fr. apply ts_lt in Hk as [Hk _], Hl as [Hl _]. unfold g_value, sg_dd.
    rewrite (sum_opp _ _ (fun m => Rsqr (f3 k l (fst m)) * gfrac w res k l (fst m))).
    rewrite nsum_R, (Rsum_ext _ (fun m => Rsqr (f3 k l m) / 2 * gfrac w res k l m)).
    - unfold nsq, Rsqr. unR. lra.
    - intros m Hm. unfold c. rewrite (g_u_R fm1 fm2 res); auto.
      + unfold nsq, Rsqr. unR. lra.
      + apply ns_lt in Hm. now apply dens_lt.
    - intros m Hm. unfold c. rewrite (g_us_R fm1 fm2 res); auto.
      + unfold nsq, Rsqr. unR. lra.
      + apply fst_lt in Hm. now apply dens_lt.
      + apply Fr. right. now apply in_map.
  Qed.

  Lemma x_lemma :
    (forall k, In k ns -> x k k = sx_nn1 f4 w f3 res ns k) /\
    (forall p q k l, (q < p)%nat -> nth_error ns p = Some k -> nth_error ns q = Some l ->
       sources_only fm2 k l ->
       let v := sx_nn f4 w f3 zeta B res ns k l in x k l = v /\ x l k = v) /\
    (forall k l l2, In k ns -> In (l, l2) ts -> sources_only fm2 k l ->
       let v := sx_nd f4 w f3 zeta B res ns ts k l in
       x k l = v /\ x l k = v /\ x k l2 = v /\ x l2 k = v) /\
    (forall k k2, In (k, k2) ts ->
       let v := sx_dd1 f4 w f3 res ns ts k in x k k = v /\ x k2 k2 = v) /\
    (exists axis, cor_axis r ts wila axis /\
     forall p q k k2 l l2, (q < p)%nat -> nth_error ts p = Some (k, k2) -> nth_error ts q = Some (l, l2) ->
       sources_only fm2 k l ->
       let v := sx_dd f4 w f3 zeta B res ns ts axis k l l2 in
       x k l = v /\ x l k = v /\ x k2 l2 = v /\ x l2 k2 = v) /\
    (forall k k2 l l2, In (k, k2) ts -> In (l, l2) ts -> x k l2 = 0 /\ x l2 k = 0).
  Proof.
    destruct shapes as [Ex _]. rewrite Ex.
    refine (conj _ (conj _ (conj _ (conj _ (conj _ _))))).
    - intros k Hk. rewrite <- kk_R by exact Hk. apply In_nth_error in Hk as (p & Hp).
      apply (x_kk _ _ _ _ _ _ _ nvib modes Hpart _ p k (at1_ns _ _ Hp)).
    - intros p q k l Hpq Hk Hl S v.
      assert (N : k <> l).
      { intros ->. pose proof (at1_inj nvib modes Hpart _ _ _ (at1_ns _ _ Hk) (at1_ns _ _ Hl)). lia. }
      unfold v. rewrite <- nn_R by (try (eapply nth_error_In; eassumption); auto). rewrite <- ns_eq.
      apply (x_nn _ _ _ _ _ _ _ nvib modes Hpart _ p q k l Hpq (at1_ns _ _ Hk) (at1_ns _ _ Hl)).
    - intros k l l2 Hk Hl S v. unfold v. rewrite <- (nd_R k l l2) by auto.
      apply In_nth_error in Hk as (p & Hp), Hl as (q & Hq). rewrite <- ns_eq, <- ts_eq.
      apply (x_nd _ _ _ _ _ _ _ nvib modes Hpart _ p q k l l2 (at1_ns _ _ Hp) (at2_ts _ _ _ Hq)).
    - intros k k2 Hk v. unfold v. rewrite <- (dd1_R k k2) by auto.
      apply In_nth_error in Hk as (q & Hq). rewrite <- ns_eq, <- ts_eq.
      apply (x_dd1 _ _ _ _ _ _ _ nvib modes Hpart _ q k k2 (at2_ts _ _ _ Hq)).
    - exists axis. split; [apply axis_lemma|]. intros p q k k2 l l2 Hpq Hk Hl S v.
      assert (N : k <> l).
      { intros ->. destruct (at2_facts nvib modes Hpart _ _ _ _ _ _ (at2_ts _ _ _ Hk) (at2_ts _ _ _ Hl))
          as (_ & _ & _ & _ & U & _). destruct (U eq_refl). lia. }
      unfold v. rewrite <- (dd_R k k2 l l2) by (try (eapply nth_error_In; eassumption); auto).
      rewrite <- ns_eq, <- ts_eq.
      apply (x_dd f4 w f3 zeta B c axis nvib modes Hpart _ p q k k2 l l2 Hpq (at2_ts _ _ _ Hk) (at2_ts _ _ _ Hl)).
    - intros k k2 l l2 Hk Hl. apply In_nth_error in Hk as (p & Hp), Hl as (q & Hq).
      apply (x_cross f4 w f3 zeta B c axis nvib modes Hpart _ p q k k2 l l2 (at2_ts _ _ _ Hp) (at2_ts _ _ _ Hq)).
  Qed.

  Lemma g_lemma :
    (forall k k2, In (k, k2) ts -> (forall l l2, In (l, l2) ts -> res k k l = false) ->
       let v := sg_dd1 f4 w f3 zeta B res ns ts k k2 in g k k = v /\ g k2 k2 = v) /\
    (exists axis, cor_axis r ts wila axis /\
     forall p q k k2 l l2, (q < p)%nat -> nth_error ts p = Some (k, k2) -> nth_error ts q = Some (l, l2) ->
       (forall m, In m ns \/ In m (map fst ts) -> free res k l m) ->
       let v := sg_dd w f3 zeta B res ns ts axis k k2 l l2 in
       g k l = v /\ g l k = v /\ g k2 l2 = v /\ g l2 k2 = v) /\
    (forall a b, (forall k k2, In (k, k2) ts -> a <> k /\ a <> k2) -> g a b = 0 /\ g b a = 0).
  Proof.
    destruct shapes as [_ Eg]. rewrite Eg. refine (conj _ (conj _ _)).
    - intros k k2 Hk N v. unfold v. rewrite <- g1_R by auto.
      apply In_nth_error in Hk as (q & Hq). rewrite <- ns_eq, <- ts_eq.
      apply (g_kk f4 w f3 zeta B c axis nvib modes Hpart _ q k k2 (at2_ts _ _ _ Hq)).
    - exists axis. split; [apply axis_lemma|]. intros p q k k2 l l2 Hpq Hk Hl Fr v.
      unfold v. rewrite <- g_R by (try (eapply nth_error_In; eassumption); auto).
      rewrite <- ns_eq, <- ts_eq.
      apply (g_kl f4 w f3 zeta B c axis nvib modes Hpart _ p q k k2 l l2 Hpq (at2_ts _ _ _ Hk) (at2_ts _ _ _ Hl)).
    - intros a b N. apply (g_other f4 w f3 zeta B c axis modes).
      intros q k k2 A. apply (N k k2). unfold at2 in A. rewrite ts_eq in A. now apply nth_error_In in A.
  Qed.
End Whole.
