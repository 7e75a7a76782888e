(** E0 of symmetric tops over the reals. *)
From Coq Require Import Reals Lra Lia List Arith Bool Permutation Sorted.
From Verif Require Import Num Loops Index Modes VibRot Anharm SymAnharm ListFacts ModesFacts StatesFacts
  ResFacts AnharmFacts VibRotFacts TransformFacts ModeFacts HarmFacts SymFacts SymExact.
Import ListNotations.
Open Scope R_scope.

(** first partners of the degenerate pairs *)
Definition firsts (modes : list mode) : list nat := map fst (degs modes).
Definition below (k : nat) (l : list nat) : list nat := filter (fun j => j <? k)%nat l.

(** ** the standard formulas; partial fractions of reported resonances are left out *)
Section Spec.
  Variables (f4 : nat -> nat -> nat -> nat -> R) (w : nat -> R) (f3 : nat -> nat -> nat -> R)
    (res : nat -> nat -> nat -> bool) (ns fs : list nat).
  Definition pole (k l : nat) : R := keep (res k k l) (1 / (2 * w k - w l)) - 1 / (2 * w k + w l).
  (** nondegenerate modes *)
  Definition se_n : R :=
    Rsum ns (fun k => f4 k k k k / 64) - Rsum ns (fun k => 7 * Rsqr (f3 k k k) / (576 * w k))
    + Rsum ns (fun k => Rsum (but k ns) (fun l => 3 / 128 * Rsqr (f3 k k l) * pole k l))
    - Rsum ns (fun k => Rsum (below k ns) (fun l => Rsum (below l ns) (fun m =>
        Rsqr (f3 k l m) / 4 * gfrac w res k l m))).
  (** one degenerate mode, alone and with a nondegenerate one *)
  Definition se_d : R :=
    Rsum fs (fun k => f4 k k k k / 48) + Rsum fs (fun k => 11 * Rsqr (f3 k k k) / (144 * w k))
    + Rsum fs (fun k => Rsum ns (fun l => Rsqr (f3 k k l) / 32 * pole k l)).
  (** ordered pairs of degenerate modes *)
  Definition se_dd : R :=
    Rsum fs (fun k => Rsum (but k fs) (fun l =>
      Rsqr (f3 k k l) / 16 * (2 / w l + 3 / 2 * pole k l))).
  (** one pair of degenerate modes with a nondegenerate one *)
  Definition se_ddn (k : nat) : R :=
    Rsum (below k fs) (fun l => Rsum ns (fun m => Rsqr (f3 k l m) / 2 * gfrac w res k l m)).
  (** triples of degenerate modes *)
  Definition se_ddd : R :=
    Rsum fs (fun k => Rsum (below k fs) (fun l => Rsum (below l fs) (fun m =>
      Rsqr (f3 k l m) * gfrac w res k l m))).
  Definition spec_sym_e0 : R := se_n + se_d + se_dd - Rsum fs se_ddn - se_ddd.
End Spec.
(** nothing is reported *)
Definition none : nat -> nat -> nat -> bool := fun _ _ _ => false.

Lemma trip (a a' b b' z : R) : a = a' -> b = b' -> (a, b, z) = (a', b', z).
Proof. intros -> ->. reflexivity. Qed.

(** ** the third part *)
Section E3.
  Variables (w : nat -> R) (f3 : nat -> nat -> nat -> R) (c : fermi_checks) (ns fs : list nat).
  Definition step3 (k : nat) (s : R * R * R) (l : nat) : R * R * R :=
    let '(kst, sst, stu) := s in
    if (k =? l)%nat then (kst, sst, stu) else
    (fold_left (fun kst m => if (k <=? l)%nat then 0 else kst - e3_kst w f3 c k l m) ns kst,
     sst + e3_sst w f3 c k l,
     fold_left (fun stu m => if ((k <=? l) || (l <=? m))%nat then 0 else stu - e3_stu w f3 c k l m) fs stu).

  Lemma stu_zero k l z fs' s : fs = fs' ++ [z] -> (l <= z)%nat ->
    fold_left (fun stu m => if ((k <=? l) || (l <=? m))%nat then 0 else stu - e3_stu w f3 c k l m) fs s = 0.
  Proof.
    intros -> H. rewrite fold_left_app. cbn.
    replace (l <=? z)%nat with true by (symmetry; now apply Nat.leb_le).
    now rewrite orb_true_r.
  Qed.
  Lemma kst_less k l s : (l < k)%nat ->
    fold_left (fun kst m => if (k <=? l)%nat then 0 else kst - e3_kst w f3 c k l m) ns s
    = s - Rsum ns (e3_kst w f3 c k l).
  Proof.
    intros H. replace (k <=? l)%nat with false by (symmetry; apply Nat.leb_gt; lia).
    apply fold_minus_R. reflexivity.
  Qed.
  Lemma kst_more k l s : (k <= l)%nat ->
    fold_left (fun kst m => if (k <=? l)%nat then 0 else kst - e3_kst w f3 c k l m) ns s
    = match ns with [] => s | _ => 0 end.
  Proof.
    intros H. replace (k <=? l)%nat with true by (symmetry; now apply Nat.leb_le).
    assert (G : forall (ns : list nat), fold_left (fun _ _ => 0) ns 0 = 0).
    { induction ns0 as [|m t IH]; [reflexivity|exact IH]. }
    destruct ns as [|m t]; [reflexivity|]. cbn. apply G.
  Qed.

  Lemma before_fold k z fs' l : fs = fs' ++ [z] -> (k <= z)%nat ->
    (forall a, In a l -> (a < k)%nat) -> forall kst sst,
    fold_left (step3 k) l (kst, sst, 0) =
    (kst - Rsum l (fun a => Rsum ns (e3_kst w f3 c k a)), sst + Rsum l (e3_sst w f3 c k), 0).
  Proof.
    intros E Hz. induction l as [|a l IH]; intros Hl kst sst; cbn [fold_left].
    - cbn. apply trip; lra.
    - unfold step3 at 2. pose proof (Hl a (or_introl eq_refl)).
      replace (k =? a)%nat with false by (symmetry; apply Nat.eqb_neq; lia).
      rewrite kst_less, (stu_zero _ _ z fs') by (auto; lia).
      rewrite IH by (intros; apply Hl; cbn; auto). rewrite !Rsum_cons.
      apply trip; lra.
  Qed.
  Lemma after_fold k z fs' l : fs = fs' ++ [z] ->
    (forall a, In a l -> (k < a)%nat /\ (a <= z)%nat) -> forall kst sst,
    fold_left (step3 k) l (kst, sst, 0) =
    (match l, ns with [], _ | _, [] => kst | _, _ => 0 end, sst + Rsum l (e3_sst w f3 c k), 0).
  Proof.
    intros E. induction l as [|a l IH]; intros Hl kst sst; cbn [fold_left].
    - cbn. apply trip; lra.
    - unfold step3 at 2. destruct (Hl a (or_introl eq_refl)) as [H1 H2].
      replace (k =? a)%nat with false by (symmetry; apply Nat.eqb_neq; lia).
      rewrite kst_more, (stu_zero _ _ z fs') by (auto; lia).
      rewrite IH by (intros; apply Hl; cbn; auto). rewrite !Rsum_cons.
      apply trip; [|lra]. destruct l, ns; reflexivity.
  Qed.
End E3.

Lemma sorted_split (pre : list nat) k post : StronglySorted lt (pre ++ k :: post) ->
  (forall a, In a pre -> (a < k)%nat) /\ (forall a, In a post -> (k < a)%nat).
Proof.
  induction pre as [|p pre IH]; cbn [app]; intros S; apply StronglySorted_inv in S as [S F];
    rewrite Forall_forall in F.
  - split; [intros a []|auto].
  - destruct (IH S) as [I1 I2]. split; [|exact I2].
    intros a [<-|I]; [|auto]. apply F. apply in_app_iff. right. now left.
Qed.
Lemma but_id k l : ~ In k l -> but k l = l.
Proof.
  intros N. unfold but. induction l as [|a l IH]; [reflexivity|]. cbn.
  destruct (Nat.eqb_spec a k) as [->|Q]; cbn [negb]; [exfalso; apply N; cbn; auto|].
  f_equal. apply IH. intros I. apply N. cbn. auto.
Qed.
Lemma but_split pre k post : ~ In k pre -> ~ In k post -> but k (pre ++ k :: post) = pre ++ post.
Proof.
  intros N1 N2. unfold but. rewrite filter_app. cbn [filter]. rewrite Nat.eqb_refl. cbn [negb].
  fold (but k pre) (but k post). now rewrite !but_id.
Qed.
Lemma below_split pre k post : StronglySorted lt (pre ++ k :: post) -> below k (pre ++ k :: post) = pre.
Proof.
  intros S. destruct (sorted_split _ _ _ S) as [A B]. unfold below. rewrite filter_app. cbn [filter].
  rewrite Nat.ltb_irrefl.
  assert (E1 : filter (fun j => j <? k)%nat pre = pre).
  { clear B S. induction pre as [|p pre IH]; [reflexivity|]. cbn [filter].
    replace (p <? k)%nat with true by (symmetry; apply Nat.ltb_lt, A; now left).
    f_equal. apply IH. intros; apply A. now right. }
  assert (E2 : filter (fun j => j <? k)%nat post = []).
  { clear A E1 S. induction post as [|p post IH]; [reflexivity|]. cbn [filter].
    replace (p <? k)%nat with false by (symmetry; apply Nat.ltb_ge, Nat.lt_le_incl, B; now left).
    apply IH. intros; apply B. now right. }
  rewrite E1, E2. apply app_nil_r.
Qed.

Lemma fold_range_nth {A S} (d : A) (l : list A) (step : S -> A -> S) s :
  fold_left (fun s i => step s (nth i l d)) (range 0 (length l)) s = fold_left step l s.
Proof.
  rewrite range_0.
  assert (G : forall pre s, fold_left (fun s i => step s (nth i (pre ++ l) d)) (seq (length pre) (length l)) s
    = fold_left step l s).
  { induction l as [|a l IH]; intros pre s'; [reflexivity|]. cbn [length seq fold_left].
    rewrite app_nth2, Nat.sub_diag by lia. cbn [nth].
    specialize (IH (pre ++ [a])). rewrite app_length in IH. cbn [length] in IH.
    rewrite Nat.add_1_r in IH. rewrite <- IH, <- app_assoc. reflexivity. }
  exact (G [] s).
Qed.

Lemma fold_ext {A S} (f g : S -> A -> S) l : forall s,
  (forall s a, In a l -> f s a = g s a) -> fold_left f l s = fold_left g l s.
Proof.
  induction l as [|a l IH]; intros s E; [reflexivity|]. cbn.
  rewrite E by (cbn; auto). apply IH. intros; apply E; cbn; auto.
Qed.
Lemma fold_range_fst {S} (l : list (nat * nat)) (step : S -> nat -> S) s :
  fold_left (fun s i => step s (fst (nth i l (0, 0)%nat))) (range 0 (length l)) s
  = fold_left step (map fst l) s.
Proof.
  rewrite (fold_range_nth (0, 0)%nat l (fun s t => step s (fst t))).
  revert s. induction l as [|t l IH]; intros s; [reflexivity|]. cbn. apply IH.
Qed.

Section Loop3.
  Variables (w : nat -> R) (f3 : nat -> nat -> nat -> R) (c : fermi_checks).

  Lemma e3_loop_eq modes :
    e3_loop w f3 c modes =
    fold_left (fun s k => fold_left (step3 w f3 c (nondeg modes) (firsts modes) k) (firsts modes) s)
      (firsts modes) (0, 0, 0).
  Proof.
    unfold e3_loop. rewrite n1dm_eq, n2dm_eq.
    unfold m1, m2. rewrite i1mode_eq, i2mode_eq. fold (nondeg modes) (degs modes). rewrite nz_R.
    unfold firsts. set (ts := degs modes). set (ns := nondeg modes).
    rewrite <- (fold_range_fst ts (fun s k => fold_left (step3 w f3 c ns (map fst ts) k) (map fst ts) s)).
    apply fold_ext. intros s kk _. rewrite <- (fold_range_fst ts (step3 w f3 c ns (map fst ts) _)).
    apply fold_ext. intros [[kst sst] stu] ll _. unfold step3.
    set (k := fst (nth kk ts (0, 0)%nat)). set (l := fst (nth ll ts (0, 0)%nat)).
    destruct (k =? l)%nat; [reflexivity|]. cbv zeta. f_equal; [f_equal|].
    - exact (fold_range_nth 0%nat ns (fun kst m => if (k <=? l)%nat then 0 else kst - e3_kst w f3 c k l m) kst).
    - rewrite <- (fold_range_fst ts (fun stu m =>
        if ((k <=? l) || (l <=? m))%nat then 0 else stu - e3_stu w f3 c k l m)). reflexivity.
  Qed.

  (** only the last pair keeps its terms with nondegenerate modes; the triples are lost *)
  Lemma e3_rows ns fs fs' z pre post : fs = fs' ++ [z] -> fs = pre ++ post -> StronglySorted lt fs ->
    post <> [] ->
    fold_left (fun s k => fold_left (step3 w f3 c ns fs k) fs s) pre (0, 0, 0)
    = (0, Rsum pre (fun k => Rsum (but k fs) (e3_sst w f3 c k)), 0).
  Proof.
    intros Ez. revert post. induction pre as [|k pre IH] using rev_ind; intros post E S Np.
    - reflexivity.
    - rewrite fold_left_app. rewrite (IH ([k] ++ post)); [|now rewrite app_assoc|exact S|discriminate].
      cbn [fold_left].
      assert (E' : fs = pre ++ k :: post) by (rewrite E, <- app_assoc; reflexivity).
      rewrite E' in S. destruct (sorted_split _ _ _ S) as [A B].
      assert (Zp : exists p', post = p' ++ [z]).
      { destruct (exists_last Np) as (p' & y & ->). exists p'. f_equal. f_equal.
        rewrite E' in Ez. change (pre ++ k :: p' ++ [y]) with (pre ++ (k :: p') ++ [y]) in Ez.
        rewrite app_assoc in Ez. now apply app_inj_tail in Ez as [_ ->]. }
      destruct Zp as (p' & Zp).
      assert (Lz : forall a, In a post -> (a <= z)%nat).
      { intros a Ha. rewrite Zp in Ha, S. apply in_app_iff in Ha as [Ha|[->|[]]]; [|lia].
        rewrite app_comm_cons, app_assoc in S. destruct (sorted_split _ z [] S) as [A' _].
        apply Nat.lt_le_incl, A'. apply in_app_iff. right. now right. }
      rewrite E' at 2. rewrite fold_left_app. cbn [fold_left].
      rewrite (before_fold w f3 c ns fs k z fs'); [|exact Ez| |exact A].
      2:{ assert (Iz : In z post) by (rewrite Zp; apply in_app_iff; right; now left).
          apply B in Iz. lia. }
      unfold step3 at 2. rewrite Nat.eqb_refl.
      rewrite (after_fold w f3 c ns fs k z fs'); [|exact Ez|intros a Ha; split; auto].
      rewrite Rsum_app. cbn [Rsum fold_right].
      replace (but k fs) with (pre ++ post).
      2:{ rewrite E'. symmetry. apply but_split; intros I; [apply A in I|apply B in I]; lia. }
      rewrite Rsum_app. apply trip; [|lra].
      destruct post; [contradiction|]. destruct ns; [|reflexivity].
      cbn [Rsum fold_right]. rewrite Rsum_0 by reflexivity. lra.
  Qed.

  Lemma e3_exact modes : StronglySorted lt (firsts modes) ->
    let ns := nondeg modes in let fs := firsts modes in
    make_e3 w f3 c modes =
    Rsum fs (fun k => Rsum (but k fs) (e3_sst w f3 c k))
    - match rev fs with
      | [] => 0
      | z :: _ => Rsum (below z fs) (fun l => Rsum ns (e3_kst w f3 c z l))
      end.
  Proof.
    intros S ns fs. unfold make_e3. rewrite e3_loop_eq. fold ns fs. fold fs in S.
    destruct fs as [|a l] eqn:E.
    { cbn. lra. }
    assert (Np : fs <> []) by (rewrite E; discriminate). rewrite <- E in *. clear E a l.
    destruct (exists_last Np) as (pre & z & E).
    replace (fold_left (fun s k => fold_left (step3 w f3 c ns fs k) fs s) fs (0, 0, 0))
      with (fold_left (fun s k => fold_left (step3 w f3 c ns fs k) fs s) (pre ++ [z]) (0, 0, 0))
      by (rewrite <- E; reflexivity).
    rewrite fold_left_app.
    rewrite (e3_rows ns fs pre z pre [z]); [|exact E|exact E|exact S|discriminate].
    cbn [fold_left]. pose proof S as S'. rewrite E in S'. destruct (sorted_split _ _ _ S') as [A _].
    match goal with |- context [fold_left ?h fs ?s] =>
      replace (fold_left h fs s) with (fold_left h (pre ++ [z]) s) by (rewrite <- E; reflexivity) end.
    rewrite fold_left_app.
    rewrite (before_fold w f3 c ns fs z z pre); [|exact E|lia|exact A].
    cbn [fold_left]. unfold step3. rewrite Nat.eqb_refl.
    replace (rev fs) with (z :: rev pre) by (rewrite E, rev_app_distr; reflexivity).
    replace (below z fs) with pre by (rewrite E; symmetry; now apply below_split).
    rewrite E at 1. rewrite Rsum_app. cbn [Rsum fold_right].
    replace (but z fs) with pre.
    2:{ rewrite E. rewrite but_split; [now rewrite app_nil_r| |auto]. intros I. apply A in I. lia. }
    unR. lra.
  Qed.
End Loop3.

(** ** all of E0 without resonances *)
Section Free.
  Variables (w : nat -> R) (f3 : nat -> nat -> nat -> R).
  Let c := make_fermi_checks [] [].

  Lemma free_check1 k l : check1 (ifrm1 c) k l = false.
  Proof. reflexivity. Qed.
  Lemma free_check2 i j k : check2 (ifrm2 c) i j k = false.
  Proof. reflexivity. Qed.
  Lemma free_flag i j k : flagged c i j k = false.
  Proof. reflexivity. Qed.

  Lemma e3_sst_free k l : 0 < w k -> 0 < w l -> 2 * w k - w l <> 0 ->
    e3_sst w f3 c k l = Rsqr (f3 k k l) / 16 * (2 / w l + 3 / 2 * pole w none k l).
  Proof.
    intros Pk Pl D. unfold e3_sst. rewrite free_check1. unfold nsq, Rsqr, pole, keep, none. unR. field.
    repeat split; try lra. intros Q. nra.
  Qed.
  Lemma e2_kss_free k l : 0 < w k -> 0 < w l -> 2 * w k - w l <> 0 ->
    e2_kss w f3 c k l = Rsqr (f3 k k l) / 32 * pole w none k l.
  Proof.
    intros Pk Pl D. unfold e2_kss. rewrite free_check1. unfold nsq, Rsqr, pole, keep, none. unR. field.
    repeat split; try lra. intros Q. nra.
  Qed.
  Lemma e0_kkl_free k l : 0 < w k -> 0 < w l -> 2 * w k - w l <> 0 ->
    e0_kkl w f3 c k l = 3 / 128 * Rsqr (f3 k k l) * pole w none k l.
  Proof.
    intros Pk Pl D. unfold e0_kkl. rewrite free_check1. unfold nsq, Rsqr, pole, keep, none. unR. field.
    repeat split; try lra. intros Q. nra.
  Qed.
  Lemma gfrac_free k l m : dens none w k l m ->
    w k * w l * w m / (d1 w k l m * d2 w k l m * d3 w k l m * d4' w k l m) = gfrac w none k l m.
  Proof.
    intros (Pk & Pl & Pm & D1 & D2 & D3).
    specialize (D1 eq_refl). specialize (D2 eq_refl). specialize (D3 eq_refl).
    unfold gfrac, none, keep, d1, d2, d3, d4'. unR. field. repeat split; lra.
  Qed.
  Lemma e3_kst_free k l m : dens none w k l m -> e3_kst w f3 c k l m = Rsqr (f3 k l m) / 2 * gfrac w none k l m.
  Proof.
    intros D. rewrite <- gfrac_free by exact D. unfold e3_kst. rewrite !free_check2. unfold nsq, Rsqr. unR.
    destruct D as (Pk & Pl & Pm & D1 & D2 & D3).
    specialize (D1 eq_refl). specialize (D2 eq_refl). specialize (D3 eq_refl).
    unfold d1, d2, d3, d4'. unR. field. repeat split; lra.
  Qed.
  Lemma e0_klm_free k l m : dens none w k l m -> e0_klm w f3 c k l m = Rsqr (f3 k l m) / 4 * gfrac w none k l m.
  Proof.
    intros D. rewrite <- gfrac_free by exact D. unfold e0_klm. rewrite !free_flag. unfold nsq, Rsqr. unR.
    destruct D as (Pk & Pl & Pm & D1 & D2 & D3).
    specialize (D1 eq_refl). specialize (D2 eq_refl). specialize (D3 eq_refl).
    unfold d1, d2, d3, d4'. unR. field. repeat split; lra.
  Qed.
End Free.

Lemma Rsum_nth_range {A} (d : A) (l : list A) (h : A -> R) :
  Rsum (range 0 (length l)) (fun i => h (nth i l d)) = Rsum l h.
Proof.
  rewrite range_0, <- (Rsum_map (fun i => nth i l d) h), map_nth_seq. reflexivity.
Qed.

Section WholeE0.
  Variables (nvib : nat) (modes : list mode) (f4 : nat -> nat -> nat -> nat -> R) (w : nat -> R)
    (f3 : nat -> nat -> nat -> R).
  Hypothesis Hpart : Permutation (flat_map members modes) (seq 0 nvib).
  Hypothesis Hw : forall i, (i < nvib)%nat -> 0 < w i.
  Hypothesis Hd : forall i j m, (i < nvib)%nat -> (j < nvib)%nat -> (m < nvib)%nat -> w i + w j - w m <> 0.
  Let c := make_fermi_checks [] [].
  Notation ns := (nondeg modes).
  Notation fs := (firsts modes).

  Lemma fs_lt k : In k fs -> (k < nvib)%nat.
  Proof.
    intros I. apply in_map_iff in I as (t & <- & I). now apply (fst_lt nvib modes Hpart).
  Qed.
  Lemma two' k l : (k < nvib)%nat -> (l < nvib)%nat -> 2 * w k - w l <> 0.
  Proof. intros Hk Hl. specialize (Hd k k l Hk Hk Hl). lra. Qed.
  Lemma dens' k l m : (k < nvib)%nat -> (l < nvib)%nat -> (m < nvib)%nat -> dens none w k l m.
  Proof. intros. unfold dens. repeat split; auto. Qed.

  Lemma e0_part : make_e0 f4 w f3 c modes = se_n f4 w f3 none ns.
  Proof.
    unfold make_e0, se_n. rewrite i1mode_eq. fold (nondeg modes).
    rewrite !nsum_R.
    rewrite (fold_plus_R _ (fun k => Rsum (but k ns) (fun l => e0_kkl w f3 c k l))).
    2:{ intros y k Hk. rewrite acc_add_R. f_equal. unfold but.
        rewrite (filter_ext (fun l => negb (k =? l)%nat) (fun j => negb (j =? k)%nat)); [reflexivity|].
        intros a. now rewrite Nat.eqb_sym. }
    rewrite (fold_minus_R _ (fun k => Rsum (below k ns) (fun l => Rsum (below l ns) (fun m => e0_klm w f3 c k l m)))).
    2:{ intros y k Hk. apply fold_minus_R. intros z l Hl. rewrite acc_sub_R. reflexivity. }
    unR.
    match goal with |- ?a + ?b + (0 + ?d) + (0 - ?e) = ?a' - ?b' + ?d' - ?e' =>
      assert (b = - b') as E1; [|assert (d = d') as E2; [|assert (e = e') as E3;
        [|rewrite E1, E2, E3; lra]]] end.
    - rewrite <- Rsum_opp. apply Rsum_ext. intros k Hk. apply (ns_lt nvib modes Hpart) in Hk.
      pose proof (Hw k Hk). unfold nsq, Rsqr. unR. field. lra.
    - apply Rsum_ext. intros k Hk. apply Rsum_ext. intros l Hl. apply filter_In in Hl as [Hl _].
      apply (ns_lt nvib modes Hpart) in Hk, Hl. apply e0_kkl_free; auto using two'.
    - apply Rsum_ext. intros k Hk. apply Rsum_ext. intros l Hl. apply Rsum_ext. intros m Hm.
      apply filter_In in Hl as [Hl _], Hm as [Hm _].
      apply (ns_lt nvib modes Hpart) in Hk, Hl, Hm. apply e0_klm_free; auto using dens'.
  Qed.
  Lemma e2_part : make_e2 f4 w f3 c modes = se_d f4 w f3 none ns fs.
  Proof.
    unfold make_e2, se_d. rewrite n1dm_eq, n2dm_eq, i2mode_eq, i1mode_eq. unfold m1, m2.
    rewrite i1mode_eq, i2mode_eq. fold (nondeg modes) (degs modes).
    rewrite (fold_plus_R _ (fun kk => Rsum ns (fun l => e2_kss w f3 c (fst (nth kk (degs modes) (0, 0)%nat)) l))).
    2:{ intros y k Hk. rewrite acc_add_R. f_equal.
        apply (Rsum_nth_range 0%nat ns (fun l => e2_kss w f3 c (fst (nth k (degs modes) (0, 0)%nat)) l)). }
    rewrite !acc_add_R. unfold firsts. rewrite !Rsum_map.
    rewrite (Rsum_nth_range (0, 0)%nat (degs modes) (fun t => ndiv (f4 (fst t) (fst t) (fst t) (fst t)) (nz 48))).
    rewrite (Rsum_nth_range (0, 0)%nat (degs modes) (fun t =>
      ndiv (nmul (nz 11) (nsq (f3 (fst t) (fst t) (fst t)))) (nmul (w (fst t)) (nz 144)))).
    rewrite (Rsum_nth_range (0, 0)%nat (degs modes) (fun t => Rsum ns (fun l => e2_kss w f3 c (fst t) l))).
    rewrite nz_R.
    match goal with |- nadd (nadd (0 + ?a) (0 + ?b)) (0 + ?d) = ?a' + ?b' + ?d' =>
      assert (a = a') as E1; [|assert (b = b') as E2; [|assert (d = d') as E3;
        [|rewrite E1, E2, E3; unR; lra]]] end.
    - apply Rsum_ext. intros t Ht. unR. reflexivity.
    - apply Rsum_ext. intros t Ht. apply (fst_lt nvib modes Hpart) in Ht. pose proof (Hw _ Ht).
      unfold nsq, Rsqr. unR. field. lra.
    - apply Rsum_ext. intros t Ht. apply Rsum_ext. intros l Hl.
      apply (fst_lt nvib modes Hpart) in Ht. apply (ns_lt nvib modes Hpart) in Hl.
      apply e2_kss_free; auto using two'.
  Qed.
  Lemma e3_part : StronglySorted lt fs ->
    make_e3 w f3 c modes = se_dd w f3 none fs
      - match rev fs with [] => 0 | z :: _ => se_ddn w f3 none ns fs z end.
  Proof.
    intros S. rewrite e3_exact by exact S. f_equal.
    - apply Rsum_ext. intros k Hk. apply Rsum_ext. intros l Hl. apply filter_In in Hl as [Hl _].
      apply fs_lt in Hk, Hl. apply e3_sst_free; auto using two'.
    - destruct (rev fs) as [|z t] eqn:E; [reflexivity|].
      assert (Hz : In z fs) by (apply in_rev; rewrite E; now left).
      unfold se_ddn. apply Rsum_ext. intros l Hl. apply Rsum_ext. intros m Hm.
      apply filter_In in Hl as [Hl _]. apply fs_lt in Hz, Hl. apply (ns_lt nvib modes Hpart) in Hm.
      apply e3_kst_free; auto using dens'.
  Qed.

  (** what is lost: the pairs not ending in the last degenerate mode, and the triples *)
  Definition lost : R :=
    match rev fs with [] => 0 | _ :: t => Rsum t (se_ddn w f3 none ns fs) end + se_ddd w f3 none fs.

  Lemma sym_e0_lemma zeta B r wila x g e0 : StronglySorted lt fs ->
    xcals f4 w f3 zeta B r [] [] modes wila = Some (x, g, e0) ->
    e0 = if is_linear r then se_n f4 w f3 none ns + se_d f4 w f3 none ns fs
         else spec_sym_e0 f4 w f3 none ns fs + lost.
  Proof.
    intros S. unfold xcals. cbv zeta. fold c. rewrite e0_part, e2_part.
    destruct (nondeg_nondeg _ _ _ _ _ _ _ _ _ _) as [y|]; [|discriminate]. cbn [obind].
    intros [= _ _ <-]. destruct (is_linear r).
    - unR. lra.
    - rewrite e3_part by exact S. unfold spec_sym_e0, lost. unR.
      replace (Rsum fs (se_ddn w f3 none ns fs)) with (Rsum (rev fs) (se_ddn w f3 none ns fs))
        by (apply Rsum_perm; symmetry; apply Permutation_rev).
      destruct (rev fs) as [|z t]; [cbn; lra|]. rewrite Rsum_cons. lra.
  Qed.
  Lemma lost_small : StronglySorted lt fs -> (length fs <= 2)%nat -> lost = 0.
  Proof.
    intros S L. unfold lost, se_ddd. destruct fs as [|a [|b [|d l]]]; cbn in L; [cbn; lra| | |lia].
    - unfold se_ddn, below. cbn [rev app Rsum fold_right filter]. rewrite Nat.ltb_irrefl. cbn. lra.
    - apply StronglySorted_inv in S as [_ F]. apply Forall_inv in F.
      unfold se_ddn, below. cbn [rev app Rsum fold_right filter].
      rewrite !Nat.ltb_irrefl. replace (b <? a)%nat with false by (symmetry; apply Nat.ltb_ge; lia).
      replace (a <? b)%nat with true by (symmetry; apply Nat.ltb_lt; lia).
      cbn [filter Rsum fold_right]. rewrite Nat.ltb_irrefl.
      replace (b <? a)%nat with false by (symmetry; apply Nat.ltb_ge; lia). cbn. lra.
  Qed.
End WholeE0.
