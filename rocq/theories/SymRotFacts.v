(** Averaged rotational constants of symmetric tops, linear and diatomic molecules. *)
From Coq Require Import List Arith Lia ZArith Reals Lra Bool Permutation.
From Verif Require Import Num Loops Index Modes ListFacts ModesFacts StatesFacts ResFacts
  Anharm AnharmFacts EnergyFacts VibRot VibRotFacts.
Import ListNotations.
Open Scope nat_scope.

(** ** the states for which [rots] reports constants *)
Definition shown (s : state) : bool :=
  rots_keep s && match s with I1st _ | I2st _ => true | _ => false end.

Lemma fold_add_total v : forall a, fold_left Nat.add v a = a + total v.
Proof. induction v as [|x v IH]; intros a; cbn; [lia|]. rewrite IH. unfold total. lia. Qed.

Lemma filter_map {A B} (p : B -> bool) (f : A -> B) l :
  filter p (map f l) = map f (filter (fun a => p (f a)) l).
Proof.
  induction l as [|a l IH]; [reflexivity|]. cbn. destruct (p (f a)); cbn; now rewrite IH.
Qed.
Lemma filter_eqb_seq i n : i < n -> filter (fun a => a =? i) (seq 0 n) = [i].
Proof.
  intros Hi.
  assert (G : forall k s, s <= i < s + k -> filter (fun a => a =? i) (seq s k) = [i]).
  { induction k as [|k IH]; intros s Hs; [lia|]. cbn [seq filter].
    destruct (Nat.eqb_spec s i) as [->|N].
    - f_equal. 
      assert (forall m s, i < s -> filter (fun a => a =? i) (seq s m) = []) as Z.
      { clear. induction m as [|m IH]; intros s Hs; [reflexivity|]. cbn [seq filter].
        destruct (Nat.eqb_spec s i); [lia|]. apply IH. lia. }
      apply Z. lia.
    - apply IH. lia. }
  apply G. lia.
Qed.

Definition is11 (p : nat * nat) : bool := Nat.eqb (fst p) 1 && Nat.eqb (snd p) 1.
Lemma count_punit1 n i : i < n -> length (filter is11 (punit1 n i (1, 1))) = 1.
Proof.
  intros Hi. unfold punit1. rewrite filter_map, map_length.
  rewrite (filter_ext _ (fun a => a =? i)).
  - now rewrite filter_eqb_seq.
  - intros a. destruct (a =? i); reflexivity.
Qed.
Lemma count_punit1_20 n i : length (filter is11 (punit1 n i (2, 0))) = 0.
Proof.
  unfold punit1. rewrite filter_map, map_length.
  rewrite (filter_ext _ (fun _ => false)).
  - now induction (seq 0 n).
  - intros a. destruct (a =? i); reflexivity.
Qed.
Lemma count_punit11 n i j : i < j -> j < n -> length (filter is11 (punit11 n i j)) <> 1.
Proof.
  intros Hi Hj E. unfold punit11 in E. rewrite filter_map, map_length in E.
  rewrite (filter_ext _ (fun a => (a =? i) || (a =? j))) in E.
  2:{ intros a. destruct (a =? i), (a =? j); reflexivity. }
  destruct (filter (fun a => (a =? i) || (a =? j)) (seq 0 n)) as [|x [|y l]] eqn:F; try discriminate.
  assert (Q : forall a, In a [x] <-> (In a (seq 0 n) /\ (a =? i) || (a =? j) = true)).
  { intros a. rewrite <- F. apply filter_In. }
  assert (In i [x]) as A. { apply Q. rewrite Nat.eqb_refl. split; [apply in_seq; lia|reflexivity]. }
  assert (In j [x]) as B. { apply Q. rewrite Nat.eqb_refl, orb_true_r. split; [apply in_seq; lia|reflexivity]. }
  cbn in A, B. destruct A as [A|[]], B as [B|[]]. lia.
Qed.

(** The ground state, then each non-degenerate fundamental, then each degenerate one *)
Definition fund_states (nvib n1 n2 : nat) : list state :=
  I1st (repeat 0 nvib)
  :: map (fun p => I1st (unit1 nvib p 1)) (seq 0 n1)
  ++ map (fun p => I2st (punit1 nvib p (1, 1))) (seq 0 n2).

Lemma filter_all {A} (p : A -> bool) l : (forall a, In a l -> p a = true) -> filter p l = l.
Proof.
  induction l as [|a l IH]; intros E; [reflexivity|]. cbn. rewrite E by (cbn; auto).
  f_equal. apply IH. intros b Hb. apply E. cbn. auto.
Qed.
Lemma filter_none {A} (p : A -> bool) l : (forall a, In a l -> p a = false) -> filter p l = [].
Proof.
  induction l as [|a l IH]; intros E; [reflexivity|]. cbn. rewrite E by (cbn; auto).
  apply IH. intros b Hb. apply E. cbn. auto.
Qed.

Section Shown.
  Variables (nvib : nat) (modes : list mode).
  Hypothesis Hpart : Permutation (flat_map members modes) (seq 0 nvib).
  Let n1 := n1dm modes.
  Let n2 := n2dm modes.

  Lemma shown_states :
    filter shown (I1st (repeat 0 nvib) :: map (fun l => op_state (op_of nvib modes l)) (labels modes))
    = fund_states nvib n1 n2.
  Proof.
    pose proof (part_counts nvib modes Hpart) as Hc. fold n1 n2 in Hc.
    unfold fund_states. cbn [filter].
    assert (shown (I1st (repeat 0 nvib)) = true) as ->.
    { unfold shown, rots_keep. rewrite fold_add_total, total_repeat. reflexivity. }
    f_equal. unfold labels. fold n1 n2. rewrite !map_app, !map_map, !filter_app.
    rewrite !range_0. cbn [op_of op_state op_f1 op_f2 op_f3 op_o1 op_o2 fst snd].
    rewrite filter_all.
    2:{ intros s Hs. apply in_map_iff in Hs as (p & <- & Hp). apply in_seq in Hp.
        unfold shown, rots_keep. rewrite fold_add_total, total_unit1 by lia. reflexivity. }
    f_equal. rewrite filter_all.
    2:{ intros s Hs. apply in_map_iff in Hs as (p & <- & Hp). apply in_seq in Hp.
        unfold shown, rots_keep. fold is11. change (fun p0 => (fst p0 =? 1) && (snd p0 =? 1)) with is11.
        rewrite count_punit1 by lia. reflexivity. }
    rewrite <- app_nil_r. f_equal.
    rewrite !filter_none; [reflexivity| | | | | ].
    - intros s Hs. apply in_map_iff in Hs as (l & <- & Hl). apply in_flat_map in Hl as (p & Hp & Hl).
      apply in_map_iff in Hl as (q & <- & Hq). apply in_range in Hq. apply in_seq in Hp.
      cbn [op_of op_state op_c2 fst snd]. unfold shown, rots_keep.
      change (fun p0 => (fst p0 =? 1) && (snd p0 =? 1)) with is11.
      destruct (Nat.eqb_spec (length (filter is11 (punit11 nvib p q))) 1) as [E|E]; [|reflexivity].
      exfalso. revert E. apply count_punit11; lia.
    - intros s Hs. apply in_map_iff in Hs as (l & <- & Hl). apply in_flat_map in Hl as (p & Hp & Hl).
      apply in_app_iff in Hl as [Hl|Hl]; apply in_map_iff in Hl as (q & <- & Hq).
      + apply in_range in Hq. apply in_seq in Hp.
        cbn [op_of op_state op_c1 fst snd]. unfold shown, rots_keep.
        rewrite fold_add_total, total_unit11 by lia. reflexivity.
      + reflexivity.
    - intros s Hs. apply in_map_iff in Hs as (p & <- & Hp). apply in_seq in Hp.
      unfold shown, rots_keep. change (fun p0 => (fst p0 =? 1) && (snd p0 =? 1)) with is11.
      now rewrite count_punit1_20.
    - intros s Hs. apply in_map_iff in Hs as (p & <- & Hp). apply in_seq in Hp.
      unfold shown, rots_keep. rewrite fold_add_total, total_unit1 by lia. reflexivity.
    - intros s Hs. apply in_map_iff in Hs as (p & <- & Hp).
      unfold shown. apply andb_false_r.
  Qed.
End Shown.

(** ** the constants of each reported state *)
Open Scope R_scope.

(** Sum over all modes of a symmetric top: (v + 1/2) for a non-degenerate mode,
    (v + 1) for a doubly degenerate one, with v the first entry of the pair *)
Definition sym_vib (modes : list mode) (al : nat -> R) (s : state) : R :=
  Rsum (seq 0 (length (nondeg modes))) (fun p =>
    al (nth p (nondeg modes) 0%nat) * (INR (nth p (state_i1 s) 0%nat) + / 2))
  + Rsum (seq 0 (length (degs modes))) (fun p =>
    al (fst (nth p (degs modes) (0%nat, 0%nat)))
    * (INR (fst (nth p (state_i2 s) (0%nat, 0%nat))) + 1)).

Section Rots.
  Variables (nvib : nat) (modes : list mode).
  Hypothesis Hpart : Permutation (flat_map members modes) (seq 0 nvib).

  Lemma m1_nondeg p : m1 modes p = nth p (nondeg modes) 0%nat.
  Proof. unfold m1, nondeg. now rewrite i1mode_eq. Qed.
  Lemma m2_degs p : m2 modes p = nth p (degs modes) (0%nat, 0%nat).
  Proof. unfold m2, degs. now rewrite i2mode_eq. Qed.
  Lemma n1dm_len : n1dm modes = length (nondeg modes).
  Proof. unfold nondeg. now rewrite n1dm_eq, ?i1mode_eq. Qed.
  Lemma n2dm_len : n2dm modes = length (degs modes).
  Proof. unfold degs. now rewrite n2dm_eq, ?i2mode_eq. Qed.

  Definition wide (s : state) : Prop :=
    (length (nondeg modes) <= length (state_i1 s))%nat /\
    (length (degs modes) <= length (state_i2 s))%nat.

  Lemma alphas_sum_R al s : wide s -> alphas_sum modes al s = Some (sym_vib modes al s).
  Proof.
    intros (W1 & W2). unfold alphas_sum. rewrite !range_0, nz_R, n1dm_len, n2dm_len.
    rewrite (ofold_sum _ (fun p => al (nth p (nondeg modes) 0%nat) * (INR (nth p (state_i1 s) 0%nat) + / 2))).
    2:{ intros y p Hp. apply in_seq in Hp.
        rewrite (nth_error_nth_lt (state_i1 s) p 0%nat) by lia. cbn [obind].
        rewrite m1_nondeg.
        change (@nadd R Rnum (nnat (nth p (state_i1 s) 0%nat)) (nlit 1 2))
          with (@half R Rnum (nth p (state_i1 s) 0%nat)).
        rewrite half_R. reflexivity. }
    cbn [obind].
    rewrite (ofold_sum _ (fun p => al (fst (nth p (degs modes) (0%nat, 0%nat)))
       * (INR (fst (nth p (state_i2 s) (0%nat, 0%nat))) + 1))).
    2:{ intros y p Hp. apply in_seq in Hp.
        rewrite (nth_error_nth_lt (state_i2 s) p (0%nat, 0%nat)) by lia. cbn [obind].
        rewrite m2_degs, nnat_R, nz_R. reflexivity. }
    unfold sym_vib. f_equal. ring.
  Qed.

  Lemma op_wide l : wf modes l -> wide (op_state (op_of nvib modes l)).
  Proof.
    pose proof (part_counts nvib modes Hpart) as Hc. rewrite n1dm_len, n2dm_len in Hc.
    intros _. unfold wide.
    destruct l as [[[|[|[|?]]] p]|[[|[|?]] p]|[[|[|?]] p] [[|[|?]] q]]; cbn [op_of op_state fst snd
      op_f1 op_f2 op_f3 op_o1 op_o2 op_c1 op_c12 op_c2 state_i1 state_i2];
      unfold unit1, unit11, punit1, punit11;
      rewrite ?repeat_length, ?map_length, ?seq_length; lia.
  Qed.

End Rots.

Definition sym_row (modes : list mode) (r : rotor) (B : nat -> R) (al : nat -> nat -> R) (s : state) : R * R * R :=
  (0, B 1%nat + sym_vib modes (fun i => al i 1%nat) s,
   if is_linear r then 0 else B 2%nat + sym_vib modes (fun i => al i 2%nat) s).

Lemma alphas_R modes r B I w wl zm f3 cor states :
  r <> SphericalTop -> (forall s, In s states -> wide modes s) ->
  alphas B I w wl zm f3 r modes states cor = Some (map (sym_row modes r B (sym_alpha B I w wl zm f3 r modes cor)) states).
Proof.
  intros Hr Hs. unfold alphas. cbv zeta.
  assert (G : ofold (fun rows s =>
        let* s2 := (if is_linear r then Some (nz 0) else
                    let* s := alphas_sum modes (fun i => sym_alpha B I w wl zm f3 r modes cor i 2%nat) s in
                    Some (B 2%nat + s)) in
        let* s1 := alphas_sum modes (fun i => sym_alpha B I w wl zm f3 r modes cor i 1%nat) s in
        Some (rows ++ [(nz 0, B 1%nat + s1, s2)])) states [] = Some (map (sym_row modes r B (sym_alpha B I w wl zm f3 r modes cor)) states)).
  { rewrite (ofold_rows _ (sym_row modes r B (sym_alpha B I w wl zm f3 r modes cor))); [reflexivity|].
    intros rows s H. apply Hs in H. rewrite !alphas_sum_R by exact H.
    unfold sym_row. rewrite nz_R. destruct (is_linear r); reflexivity. }
  destruct r; try exact G. now elim Hr.
Qed.

(** what [rots] puts in the record of one state *)
Definition sym_rot (modes : list mode) (r : rotor) (B : nat -> R) (al : nat -> nat -> R)
  (b1 b2 b3 : R) (s : state) : rot R :=
  let v1 := sym_vib modes (fun i => al i 1%nat) s in
  let v2 := sym_vib modes (fun i => al i 2%nat) s in
  match r with
  | ProlateSymmTop => mk_rot s (b2 + v2) (b1 + v1) (b3 + v1)
  | Diatomic => mk_rot s (b3 + v1) (b1 + v1) (b2 - B 0%nat)
  | Linear => mk_rot s (b3 - B 2%nat) (b1 + v1) (b2 + v1)
  | _ => mk_rot s (b2 + v1) (b1 + v1) (b3 + v2)
  end.

Lemma ofold_keep {A C} (f : list C -> A -> option (list C)) (p : A -> bool) (g : A -> C) l : forall acc,
  (forall rows a, In a l -> f rows a = Some (if p a then rows ++ [g a] else rows)) ->
  ofold f l acc = Some (acc ++ map g (filter p l)).
Proof.
  induction l as [|a l IH]; intros acc E; [cbn; now rewrite app_nil_r|].
  cbn [ofold]. rewrite E by (cbn; auto). rewrite IH by (intros; apply E; cbn; auto).
  cbn [filter]. destruct (p a); [|reflexivity].
  cbn [map]. now rewrite <- app_assoc.
Qed.
Lemma map_nth_filter {A} (d : A) (p : A -> bool) l :
  map (fun i => nth i l d) (filter (fun i => p (nth i l d)) (seq 0 (length l))) = filter p l.
Proof.
  rewrite <- filter_map. f_equal. apply list_ext; [now rewrite map_length, seq_length|].
  intros i Hi. rewrite map_length, seq_length in Hi.
  rewrite nth_error_map_seq by exact Hi. symmetry. now apply nth_error_nth_lt.
Qed.

Lemma rots_R modes r B al b1 b2 b3 states : r <> SphericalTop -> r <> AsymmTop ->
  rots B r (map (sym_row modes r B al) states) states b1 b2 b3 = Some (map (sym_rot modes r B al b1 b2 b3) (filter shown states)).
Proof.
  intros Hr Ha. unfold rots.
  set (d := I1st []).
  assert (Q : forall ia ib irep ic d2 (Hic : princ_cart irep = Some (ic, d2)),
    (if is_prolate r then (2%nat, 1%nat, 2%nat)
    else if is_diatomic r then (0%nat, 1%nat, 2%nat)
    else (2%nat, 1%nat, 5%nat)) = (ia, ib, irep) ->
    ofold (fun ret nst =>
    let* row := nth_error (map (sym_row modes r B al) states) nst in
    let* s := nth_error states nst in
    if rots_keep s then
      let vib1 := nsub (row3 row ia) (B ia) in
      let vib2 := nsub (row3 row ib) (B ib) in
      let v := vibr ic vib1 vib2 vib2 in
      let bxs := nadd b1 (v 2%nat) in
      let bys := nadd b2 (v 0%nat) in
      let bzs := nadd b3 (v 1%nat) in
      let '(bys, bzs) := if is_linear r then (bzs, bys) else (bys, bzs) in
      match s with
      | I1st _ | I2st _ => Some (ret ++ [mk_rot s bys bxs bzs])
      | _ => Some ret
      end
    else Some ret) (range 0 (length (map (sym_row modes r B al) states))) [] = Some (map (sym_rot modes r B al b1 b2 b3) (filter shown states))).
  { intros ia ib irep ic d2 Hic E. rewrite map_length, range_0.
    rewrite (ofold_keep _ (fun i => shown (nth i states d)) (fun i => sym_rot modes r B al b1 b2 b3 (nth i states d))).
    - cbn [app]. f_equal. rewrite <- (map_nth_filter d shown states), map_map. reflexivity.
    - intros rows i Hi. apply in_seq in Hi. rewrite nth_error_map, (nth_error_nth_lt states i d) by lia.
      cbn [option_map obind]. set (s := nth i states d).
      unfold shown. destruct (rots_keep s); cbn [andb]; [|reflexivity].
      cbv zeta. unfold sym_rot.
      destruct r; try congruence; cbn [is_prolate is_diatomic] in E;
        injection E as <- <- <-; cbn in Hic; injection Hic as <- <-;
        cbn [is_linear]; unfold sym_row, vibr, at3, upd1, row3; cbn [is_linear fst snd Nat.eqb nadd nsub Rnum];
        destruct s; cbn [andb]; try reflexivity; do 3 f_equal; f_equal; ring. }
  destruct (is_prolate r) eqn:P; [|destruct (is_diatomic r) eqn:D];
    cbn [princ_cart IPTOC ICTOP nth_error obind]; (eapply Q; [|reflexivity]); reflexivity.
Qed.

Lemma Rsum_one_change (n : nat) (f g : nat -> R) i c : (i < n)%nat ->
  (forall j, (j < n)%nat -> f j - g j = if (j =? i)%nat then c else 0) ->
  Rsum (seq 0 n) f - Rsum (seq 0 n) g = c.
Proof.
  intros Hi E. rewrite <- Rsum_minus.
  rewrite (Rsum_ext _ (fun j => if (j =? i)%nat then (fun _ => c) j else 0)).
  - apply (Rsum_single (fun _ => c)); [apply seq_NoDup|apply in_seq; lia].
  - intros j Hj. apply in_seq in Hj. apply E. lia.
Qed.

Section Diff.
  Variables (nvib : nat) (modes : list mode) (al : nat -> R).
  Hypothesis Hpart : Permutation (flat_map members modes) (seq 0 nvib).
  Lemma lens : (length (nondeg modes) <= nvib /\ length (degs modes) <= nvib)%nat.
  Proof.
    pose proof (part_counts nvib modes Hpart) as Hc. rewrite n1dm_len, n2dm_len in Hc. lia.
  Qed.

  Lemma sym_vib_nondeg p i : nth_error (nondeg modes) p = Some i ->
    sym_vib modes al (I1st (unit1 nvib p 1)) - sym_vib modes al (I1st (repeat 0%nat nvib)) = al i.
  Proof.
    intros Hp. destruct lens as (L1 & L2).
    assert (Lp : (p < length (nondeg modes))%nat) by (apply nth_error_Some; congruence).
    unfold sym_vib. cbn [state_i1 state_i2].
    unfold unit1 at 2. rewrite map_length, seq_length, repeat_length.
    match goal with |- ?a + ?b - (?c + ?b) = _ => enough (a - c = al i) by lra end.
    apply Rsum_one_change with p; [exact Lp|]. intros j Hj.
    rewrite nth_repeat_0. unfold unit1. rewrite nth_map_seq by lia.
    destruct (Nat.eqb_spec j p) as [->|N]; cbn [INR]; [|ring].
    erewrite (nth_error_nth _ p) by exact Hp. ring.
  Qed.

  Lemma nth_repeat_00 n j : nth j (repeat (0%nat, 0%nat) n) (0%nat, 0%nat) = (0%nat, 0%nat).
  Proof. revert j. induction n as [|n IH]; intros [|j]; cbn; auto. Qed.

  Lemma sym_vib_deg p i i' : nth_error (degs modes) p = Some (i, i') ->
    sym_vib modes al (I2st (punit1 nvib p (1, 1)%nat)) - sym_vib modes al (I1st (repeat 0%nat nvib)) = al i.
  Proof.
    intros Hp. destruct lens as (L1 & L2).
    assert (Lp : (p < length (degs modes))%nat) by (apply nth_error_Some; congruence).
    unfold sym_vib. cbn [state_i1 state_i2].
    unfold punit1 at 1. rewrite map_length, seq_length, repeat_length.
    match goal with |- ?a + ?b - (?a + ?c) = _ => enough (b - c = al i) by lra end.
    apply Rsum_one_change with p; [exact Lp|]. intros j Hj.
    rewrite nth_repeat_00. unfold punit1. rewrite nth_map_seq by lia.
    destruct (Nat.eqb_spec j p) as [->|N]; cbn [fst INR]; [|ring].
    erewrite (nth_error_nth _ p) by exact Hp. cbn [fst]. ring.
  Qed.
End Diff.

(** Whole flow for a symmetric top, a linear or a diatomic molecule *)
Lemma rots_lemma nvib modes r (B I w : nat -> R) wl zm f3 cor b1 b2 b3 :
  Permutation (flat_map members modes) (seq 0 nvib) ->
  r <> SphericalTop -> r <> AsymmTop ->
  let al := sym_alpha B I w wl zm f3 r modes cor in
  exists t rows out g,
    restst_tables nvib (ioff (nvib + 1)) modes = Some t /\
    alphas B I w wl zm f3 r modes (t_states t) cor = Some rows /\
    rots B r rows (t_states t) b1 b2 b3 = Some out /\
    map rot_state out =
      I1st (repeat 0%nat nvib)
      :: map (fun p => I1st (unit1 nvib p 1)) (seq 0 (length (nondeg modes)))
      ++ map (fun p => I2st (punit1 nvib p (1, 1)%nat)) (seq 0 (length (degs modes))) /\
    (forall c, In c out ->
       let v x := sym_vib modes (fun i => al i x) (rot_state c) in
       rot_b c = b1 + v 1%nat /\
       (r = OblateSymmTop -> rot_a c = b2 + v 1%nat /\ rot_c c = b3 + v 2%nat) /\
       (r = ProlateSymmTop -> rot_a c = b2 + v 2%nat /\ rot_c c = b3 + v 1%nat)) /\
    nth_error out 0 = Some g /\
    (forall c k, In c out ->
       (exists p, nth_error (nondeg modes) p = Some k /\ rot_state c = I1st (unit1 nvib p 1)) \/
       (exists p k', nth_error (degs modes) p = Some (k, k') /\
                     rot_state c = I2st (punit1 nvib p (1, 1)%nat)) ->
       rot_b c - rot_b g = al k 1%nat /\
       (r = OblateSymmTop -> rot_a c - rot_a g = al k 1%nat /\ rot_c c - rot_c g = al k 2%nat) /\
       (r = ProlateSymmTop -> rot_a c - rot_a g = al k 2%nat /\ rot_c c - rot_c g = al k 1%nat)).
Proof.
  intros Hpart Hr Ha al.
  destruct (tables_main nvib modes Hpart) as (t & E & S & _).
  exists t, (map (sym_row modes r B al) (t_states t)),
    (map (sym_rot modes r B al b1 b2 b3) (filter shown (t_states t))),
    (sym_rot modes r B al b1 b2 b3 (I1st (repeat 0%nat nvib))).
  assert (F : filter shown (t_states t) = fund_states nvib (length (nondeg modes)) (length (degs modes))).
  { rewrite S, (shown_states nvib modes Hpart), n1dm_len, n2dm_len. reflexivity. }
  assert (RS : forall s, rot_state (sym_rot modes r B al b1 b2 b3 s) = s)
    by (intros s; unfold sym_rot; destruct r; reflexivity).
  split; [exact E|]. split.
  { apply alphas_R; [exact Hr|]. intros s Hs. rewrite S in Hs. destruct Hs as [<-|Hs].
    - unfold wide. cbn [state_i1 state_i2]. rewrite !repeat_length. now apply lens.
    - apply in_map_iff in Hs as (l & <- & Hl). apply in_labels in Hl. now apply op_wide. }
  split; [now apply rots_R|]. rewrite F.
  split; [|split; [|split; [reflexivity|]]].
  - rewrite map_map. rewrite (map_ext _ (fun s => s) RS). apply map_id.
  - intros c Hc. apply in_map_iff in Hc as (s & <- & _). cbv zeta. rewrite RS.
    unfold sym_rot. destruct r; cbn [rot_a rot_b rot_c]; repeat split;
      try reflexivity; intros; try discriminate; congruence.
  - intros c k Hc Hk.
    assert (D : forall x, sym_vib modes (fun i => al i x) (rot_state c)
       - sym_vib modes (fun i => al i x) (I1st (repeat 0%nat nvib)) = al k x).
    { intros x. destruct Hk as [(p & Hp & ->)|(p & k' & Hp & ->)].
      - apply (sym_vib_nondeg nvib modes (fun i => al i x) Hpart p k Hp).
      - apply (sym_vib_deg nvib modes (fun i => al i x) Hpart p k k' Hp). }
    apply in_map_iff in Hc as (s & <- & _). rewrite RS in D.
    pose proof (D 1%nat) as D1. pose proof (D 2%nat) as D2. cbn beta in D1, D2.
    unfold sym_rot. destruct r; cbn [rot_a rot_b rot_c]; repeat split;
      intros; try discriminate; lra.
Qed.

(** the alphas of the code with the columns of the Wilson vectors by axis *)
Open Scope nat_scope.
Lemma sym_alpha_cells_lemma :
  forall nvib modes (B I w : nat -> R) wl zm f3 cor,
  Permutation (flat_map members modes) (seq 0 nvib) ->
  (forall j, j < nvib -> (0 < w j)%R) ->
  (forall i j, i < nvib -> j < nvib -> one_axis cor i j) ->
  forall r,
  let al := sym_alpha B I w wl zm f3 r modes cor in
  let b := if is_prolate r then 0%nat else 1%nat in
  let cub := cubic_sum modes w wl f3 in
  let ok := bc_ok w zm cor in
  (forall k, In k (nondeg modes) ->
    (exists t,
      (al k 2%nat = 2 * B 2%nat ^ 2 / w k *
        (3 / 4 * (wl k (acol 2 2) ^ 2 / I 2%nat) + Rsum (but k (nondeg modes)) t + cub (acol 2 2) k))%R /\
      forall j, In j (nondeg modes) -> j <> k ->
        pair_ok (listed cor j k 2) (zm j k 2) (w k) (w j) (t j)) /\
    (exists tb tc,
      (al k 1%nat = 2 * B 1%nat ^ 2 / w k *
        (3 / 4 * ((wl k (acol b b) ^ 2 + wl k (acol 1 0) ^ 2) / I 1%nat)
         + Rsum (degs modes) (fun p => tb (fst p) + tc (fst p)) + cub (acol b b) k))%R /\
      forall p, In p (degs modes) -> ok tb tc k (fst p))) /\
  (forall k k', In (k, k') (degs modes) ->
    (exists t,
      (al k 2%nat = 2 * B 2%nat ^ 2 / w k *
        (3 / 4 * (wl k (acol 2 b) ^ 2 / I 1%nat) + Rsum (butd k (degs modes)) t + cub (acol 2 2) k))%R /\
      forall j1 j2, In (j1, j2) (degs modes) -> j1 <> k ->
        pair_ok (listed cor j1 k 2) (zm k j2 2) (w k) (w j1) (t (j1, j2))) /\
    (exists tb tc,
      (al k 1%nat = 2 * B 1%nat ^ 2 / w k *
        (match r with
         | Linear => 0
         | _ => 3 / 8 * (2 * wl k (acol b b) ^ 2 / I 1%nat + wl k (acol 2 b) ^ 2 / I 2%nat)
                + Rsum (butd k (degs modes)) (fun p => tb (fst p) + tc (fst p))
         end
         + / 2 * Rsum (nondeg modes) (fun j => tb j + tc j) + cub (acol b b) k))%R /\
      (forall p, In p (degs modes) -> fst p <> k -> ok tb tc k (fst p)) /\
      (forall j, In j (nondeg modes) -> ok tb tc k j))).
Proof.
  intros nvib modes B I w wl zm f3 cor P Hw H1 r.
  pose proof (sym_alpha_exact_lemma nvib modes B I w wl zm f3 cor P Hw H1 r (if is_prolate r then 3 else 4)
    (if is_prolate r then 0 else 2)) as E.
  destruct r; exact E.
Qed.
