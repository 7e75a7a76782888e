(** Lemmas about the orientation of symmetric tops and linear molecules. *)
From Coq Require Import Reals Lra List ZArith Arith Lia Bool.
From Verif Require Import Num Loops Modes ListFacts ResFacts Anharm AnharmFacts Transform TransformFacts
  RotFacts ModeFacts Geom.
Import ListNotations.
Open Scope nat_scope.
Local Open Scope R_scope.

(** ** specification *)

(** components of a vector along the columns of [axes] *)
Definition in_frame (axes : nat -> nat -> R) (v : R * R * R) : R * R * R :=
  let '(x, y, z) := v in
  (axes 0%nat 0%nat * x + axes 1%nat 0%nat * y + axes 2%nat 0%nat * z,
   axes 0%nat 1%nat * x + axes 1%nat 1%nat * y + axes 2%nat 1%nat * z,
   axes 0%nat 2%nat * x + axes 1%nat 2%nat * y + axes 2%nat 2%nat * z).
Definition sqdist (u v : R * R * R) : R :=
  let '(a, b, c) := u in let '(x, y, z) := v in
  (a - x) * (a - x) + (b - y) * (b - y) + (c - z) * (c - z).
Definition det3 (m : nat -> nat -> R) : R :=
  (m 0%nat 0%nat * (m 1%nat 1%nat * m 2%nat 2%nat - m 1%nat 2%nat * m 2%nat 1%nat)
  - m 0%nat 1%nat * (m 1%nat 0%nat * m 2%nat 2%nat - m 1%nat 2%nat * m 2%nat 0%nat)
  + m 0%nat 2%nat * (m 1%nat 0%nat * m 2%nat 1%nat - m 1%nat 1%nat * m 2%nat 0%nat)).

(** ** the rotation *)
Lemma sum3 (f : nat -> R) : Sum 3 f = f 0%nat + f 1%nat + f 2%nat.
Proof. unfold Rsum. cbn [seq fold_right]. ring. Qed.
Ltac three i := destruct i as [|[|[|i]]]; [| | |lia].

Lemma egr_unit x y : x * x + y * y <> 0 ->
  let c := sqrt (x * x + y * y) in 0 < c /\ c * c = x * x + y * y.
Proof.
  intros Hn c. assert (0 <= x * x + y * y) by nra. split; [apply sqrt_lt_R0; lra|].
  now apply sqrt_sqrt.
Qed.
Lemma egr_eval x y i j : egr x y i j =
  let c := sqrt (x * x + y * y) in
  match i, j with
  | 0%nat, 0%nat => x / c | 0%nat, 1%nat => - y / c | 1%nat, 0%nat => y / c | 1%nat, 1%nat => x / c
  | 2%nat, 2%nat => 1 | _, _ => 0
  end.
Proof. unfold egr. cbv zeta. unR.
  destruct i as [|[|[|i]]], j as [|[|[|j]]]; rewrite ?nz_R; reflexivity.
Qed.
Lemma ab_cc a b c d : c <> 0 -> d = c * c -> (a / c) * (b / c) = a * b / d.
Proof. intros Hc ->. field. exact Hc. Qed.

Lemma egr_orth x y : x * x + y * y <> 0 -> orth 3 (egr x y).
Proof.
  intros Hn. destruct (egr_unit x y Hn) as [Hc Hcc]. split; intros i j Hi Hj; rewrite sum3, !egr_eval; cbv zeta;
    set (c := sqrt (x * x + y * y)) in *;
    three i; three j; unfold delta; cbn [Nat.eqb];
    try (field_simplify_eq; [|lra]); try nra; ring || (field; lra).
Qed.

Lemma turn_frame x y v : turn_atom (egr x y) v = in_frame (egr x y) v.
Proof. destruct v as [[a b] c]. reflexivity. Qed.

Lemma axes_R x y (axes : nat -> nat -> R) i j :
  tr (mm 3 (tr (egr x y)) (tr axes)) i j = mprod 3 axes (egr x y) i j.
Proof. unfold tr at 1. rewrite mm_R. unfold mprod, tr. apply Rsum_ext. intros. ring. Qed.

Lemma frame_comp axes e v :
  in_frame e (in_frame axes v) = in_frame (mprod 3 axes e) v.
Proof.
  destruct v as [[a b] c]. cbn [in_frame]. unfold mprod. rewrite !sum3. f_equal; [f_equal|]; ring.
Qed.
Lemma frame_ext A B v : (forall i j, (i < 3)%nat -> (j < 3)%nat -> A i j = B i j) ->
  in_frame A v = in_frame B v.
Proof. intros E. destruct v as [[a b] c]. cbn [in_frame]. rewrite !E by lia. reflexivity. Qed.
Lemma orth_ext n A B : (forall i j, (i < n)%nat -> (j < n)%nat -> A i j = B i j) -> orth n A -> orth n B.
Proof.
  intros E [H1 H2]. split; intros a b Ha Hb.
  - rewrite <- (H1 a b Ha Hb). apply sum_g. intros k Hk. now rewrite !E.
  - rewrite <- (H2 a b Ha Hb). apply sum_g. intros k Hk. now rewrite !E.
Qed.

Lemma orth_dist e u v : orth 3 e -> sqdist (in_frame e u) (in_frame e v) = sqdist u v.
Proof.
  intros [H _]. destruct u as [[a b] c], v as [[x y] z]. cbn [in_frame sqdist].
  pose proof (H 0%nat 0%nat ltac:(lia) ltac:(lia)) as E00. pose proof (H 0%nat 1%nat ltac:(lia) ltac:(lia)) as E01.
  pose proof (H 0%nat 2%nat ltac:(lia) ltac:(lia)) as E02. pose proof (H 1%nat 1%nat ltac:(lia) ltac:(lia)) as E11.
  pose proof (H 1%nat 2%nat ltac:(lia) ltac:(lia)) as E12. pose proof (H 2%nat 2%nat ltac:(lia) ltac:(lia)) as E22.
  rewrite sum3 in *. unfold delta in *. cbn [Nat.eqb] in *.
  set (p := a - x). set (q := b - y). set (r := c - z).
  transitivity (p * p * (e 0%nat 0%nat * e 0%nat 0%nat + e 0%nat 1%nat * e 0%nat 1%nat + e 0%nat 2%nat * e 0%nat 2%nat)
    + q * q * (e 1%nat 0%nat * e 1%nat 0%nat + e 1%nat 1%nat * e 1%nat 1%nat + e 1%nat 2%nat * e 1%nat 2%nat)
    + r * r * (e 2%nat 0%nat * e 2%nat 0%nat + e 2%nat 1%nat * e 2%nat 1%nat + e 2%nat 2%nat * e 2%nat 2%nat)
    + 2 * p * q * (e 0%nat 0%nat * e 1%nat 0%nat + e 0%nat 1%nat * e 1%nat 1%nat + e 0%nat 2%nat * e 1%nat 2%nat)
    + 2 * p * r * (e 0%nat 0%nat * e 2%nat 0%nat + e 0%nat 1%nat * e 2%nat 1%nat + e 0%nat 2%nat * e 2%nat 2%nat)
    + 2 * q * r * (e 1%nat 0%nat * e 2%nat 0%nat + e 1%nat 1%nat * e 2%nat 1%nat + e 1%nat 2%nat * e 2%nat 2%nat)).
  { unfold p, q, r. ring. }
  rewrite E00, E01, E02, E11, E12, E22. ring.
Qed.

Lemma det_mul A B : det3 (mprod 3 A B) = det3 A * det3 B.
Proof. unfold det3, mprod. rewrite !sum3. ring. Qed.
Lemma det_ext A B : (forall i j, (i < 3)%nat -> (j < 3)%nat -> A i j = B i j) -> det3 A = det3 B.
Proof. intros E. unfold det3. now rewrite !E by lia. Qed.
Lemma det_egr x y : x * x + y * y <> 0 -> det3 (egr x y) = 1.
Proof.
  intros Hn. destruct (egr_unit x y Hn) as [Hc Hcc]. unfold det3. rewrite !egr_eval. cbv zeta.
  set (c := sqrt (x * x + y * y)) in *. transitivity ((x * x + y * y) / (c * c)); [field; lra|].
  rewrite Hcc. field. exact Hn.
Qed.

(** the whole orientation step *)
Lemma orient_lemma iatl (atoms : list (R * R * R)) axes x y z :
  nth_error atoms iatl = Some (x, y, z) -> x * x + y * y <> 0 ->
  exists atoms' axes', orient iatl atoms axes = Some (atoms', axes') /\
    nth_error atoms' iatl = Some (sqrt (x * x + y * y), 0, z) /\
    length atoms' = length atoms /\
    (forall i j u v u' v', nth_error atoms i = Some u -> nth_error atoms j = Some v ->
       nth_error atoms' i = Some u' -> nth_error atoms' j = Some v' -> sqdist u' v' = sqdist u v) /\
    (forall i u u', nth_error atoms i = Some u -> nth_error atoms' i = Some u' -> snd u' = snd u) /\
    (orth 3 axes -> orth 3 axes') /\ det3 axes' = det3 axes /\
    (forall orig, atoms = map (in_frame axes) orig -> atoms' = map (in_frame axes') orig).
Proof.
  intros Ha Hn. unfold orient, vec3. rewrite Ha. cbn [obind]. eexists. eexists. split; [reflexivity|].
  destruct (egr_unit x y Hn) as [Hc Hcc].
  assert (O := egr_orth x y Hn).
  assert (EA : forall i j, (i < 3)%nat -> (j < 3)%nat ->
    mprod 3 axes (egr x y) i j = tr (mm 3 (tr (egr x y)) (tr axes)) i j) by (intros; now rewrite axes_R).
  refine (conj _ (conj _ (conj _ (conj _ (conj _ (conj _ _)))))).
  - rewrite nth_error_map, Ha. cbn [option_map]. rewrite turn_frame. cbn [in_frame]. rewrite !egr_eval. cbv zeta.
    set (c := sqrt (x * x + y * y)) in *. do 2 f_equal; [|field; lra]. f_equal; [|field; lra].
    transitivity ((x * x + y * y) / c); [field; lra|]. rewrite <- Hcc. field. lra.
  - now rewrite map_length.
  - intros i j u v u' v' Hu Hv. rewrite !nth_error_map, Hu, Hv. cbn [option_map]. intros [= <-] [= <-].
    rewrite !turn_frame. now apply orth_dist.
  - intros i u u' Hu. rewrite nth_error_map, Hu. cbn [option_map]. intros [= <-]. rewrite turn_frame.
    destruct u as [[p q] r]. cbn [in_frame snd]. rewrite !egr_eval. cbv zeta. ring.
  - intros HO. eapply orth_ext; [exact EA|]. now apply orth_mprod.
  - rewrite <- (det_ext _ _ EA), det_mul, det_egr by exact Hn. ring.
  - intros orig ->. rewrite map_map. apply map_ext. intros v. rewrite turn_frame, frame_comp.
    now apply frame_ext.
Qed.

(** ** the chosen atom *)
Lemma position_spec {A} (f : A -> bool) l : forall i,
  position f l = Some i <->
  (exists a, nth_error l i = Some a /\ f a = true) /\
  (forall j b, (j < i)%nat -> nth_error l j = Some b -> f b = false).
Proof.
  induction l as [|a l IH]; intros i; cbn [position].
  - split; [discriminate|]. intros [[a [E _]] _]. destruct i; discriminate.
  - destruct (f a) eqn:Ef.
    + split.
      * intros [= <-]. split; [now exists a|]. intros j b Hj. lia.
      * intros [[b [E Hb]] H]. destruct i as [|i]; [reflexivity|].
        rewrite (H 0%nat a) in Ef; [discriminate|lia|reflexivity].
    + split.
      * intros E. destruct (position f l) as [k|] eqn:Ep; [|discriminate].
        cbn in E. injection E as <-. destruct (proj1 (IH k) eq_refl) as [H1 H2]. split; [exact H1|].
        intros [|j] b Hj Eb; [injection Eb as <-; exact Ef|]. apply (H2 j b); [lia|exact Eb].
      * intros [[b [E Hb]] H]. destruct i as [|i]; [injection E as ->; congruence|].
        rewrite (proj2 (IH i)); [reflexivity|]. split; [now exists b|].
        intros j d Hj Ed. apply (H (S j) d); [lia|exact Ed].
Qed.
Lemma position_none {A} (f : A -> bool) l : position f l = None <-> forall a, In a l -> f a = false.
Proof.
  induction l as [|a l IH]; cbn [position]; [split; [intros _ a []|reflexivity]|].
  destruct (f a) eqn:Ef.
  - split; [discriminate|]. intros H. rewrite H in Ef by now left. discriminate.
  - split.
    + intros E b [<-|Hb]; [exact Ef|]. destruct (position f l); [discriminate|]. now apply IH.
    + intros H. rewrite (proj2 IH); [reflexivity|]. intros b Hb. apply H. now right.
Qed.

(** what the atom must satisfy: in the mirror plane and off the axis, or only off the axis *)
Definition tol : R := / 1000000.
Definition in_plane_off_axis (v : R * R * R) (across off : axis) : Prop :=
  Rabs (coord v across) < tol /\ tol < Rabs (coord v off).
Definition suitable (g : group) (v : R * R * R) : Prop :=
  match g with
  | C2h a | C3 a => exists b, b <> a /\ tol < Rabs (coord v b)
  | C2v a p | C3v a p | D2h a p | D3h a p | D5h a p =>
      exists c o, c <> o /\ (p = (a, o) \/ p = (o, a)) /\ a <> o /\ c <> a /\ in_plane_off_axis v c o
  | C5v _ p | C6h _ p =>
      exists c, fst p <> snd p /\ c <> fst p /\ c <> snd p /\ in_plane_off_axis v c (snd p)
  | OtherGroup => False
  end.
Definition well_formed (g : group) : Prop :=
  match g with
  | C2h _ | C3 _ | OtherGroup => True
  | C2v a p | C3v a p | D2h a p | D3h a p | D5h a p => fst p <> snd p /\ (fst p = a \/ snd p = a)
  | C5v _ p | C6h _ p => fst p <> snd p
  end.

Lemma GTOL_R : @GTOL R Rnum = tol.
Proof. unfold GTOL, tol. cbn. field. Qed.
Lemma axis_eqb_spec a b : reflect (a = b) (axis_eqb a b).
Proof. destruct a, b; constructor; congruence. Qed.

Lemma plane_atom_lemma (atoms : list (R * R * R)) a p : fst p <> snd p -> fst p = a \/ snd p = a ->
  exists c o, c <> o /\ (p = (a, o) \/ p = (o, a)) /\ a <> o /\ c <> a /\
  find_plane_atom atoms a p = position (fun v => Rltb (Rabs (coord v c)) tol && Rltb tol (Rabs (coord v o))) atoms.
Proof.
  intros Hp Ha. unfold find_plane_atom. destruct p as [p q]; cbn [fst snd] in *.
  rewrite GTOL_R. 
  destruct p, q; try (now elim Hp); destruct Ha as [<-|<-]; cbn [perp xor_axis obind axis_eqb fst snd];
    eexists; eexists; (refine (conj _ (conj _ (conj _ (conj _ (eq_refl _)))))); try congruence; auto; try congruence;
    try (left; reflexivity); right; reflexivity.
Qed.


Lemma decide_first {A} (f : A -> bool) (P : A -> Prop) l i :
  (forall a, f a = true <-> P a) -> position f l = Some i ->
  exists v, nth_error l i = Some v /\ P v /\ forall j u, (j < i)%nat -> nth_error l j = Some u -> ~ P u.
Proof.
  intros HP E. destruct (proj1 (position_spec f l i) E) as [[v [Ev Hv]] H]. exists v.
  split; [exact Ev|]. split; [now apply HP|]. intros j u Hj Eu Hu. apply HP in Hu.
  rewrite (H j u Hj Eu) in Hu. discriminate.
Qed.
Lemma decide_none {A} (f : A -> bool) (P : A -> Prop) l :
  (forall a, f a = true <-> P a) -> (position f l = None <-> forall v, In v l -> ~ P v).
Proof.
  intros HP. rewrite position_none. split; intros H v Hv.
  - rewrite <- HP, H by exact Hv. discriminate.
  - destruct (f v) eqn:E; [|reflexivity]. apply HP in E. elim (H v Hv E).
Qed.

Lemma group_eq_other g : g = OtherGroup \/ g <> OtherGroup.
Proof. destruct g; (now left) || (right; discriminate). Qed.

(** the test of every group, as a function *)
Lemma iatl_test (atoms : list (R * R * R)) old g : well_formed g -> g <> OtherGroup ->
  exists f n a, (forall v, f v = true <-> suitable g v) /\
    make_iatl atoms old g = option_map (fun i => (i, n, a)) (position f atoms).
Proof.
  intros W Hg.
  assert (OA : forall a, exists f : R * R * R -> bool,
    (forall v, f v = true <-> exists b, b <> a /\ tol < Rabs (coord v b)) /\
    find_off_axis atoms a = position f atoms).
  { intros a. eexists. split; [|unfold find_off_axis; reflexivity]. intros v.
    rewrite orb_true_iff. unfold ngtb. cbn [nltb nabs Rnum]. rewrite GTOL_R, !Rltb_true. split.
    - intros [Ht|Ht]; eexists; (split; [|exact Ht]); destruct a; discriminate.
    - intros [b [Hb Ht]]. destruct a, b; try (now elim Hb); cbn [not_axis fst snd]; auto. }
  assert (PA : forall a p, fst p <> snd p -> fst p = a \/ snd p = a -> exists f : R * R * R -> bool,
    (forall v, f v = true <-> exists c o, c <> o /\ (p = (a, o) \/ p = (o, a)) /\ a <> o /\ c <> a /\
       in_plane_off_axis v c o) /\
    find_plane_atom atoms a p = position f atoms).
  { intros a p Hp Ha. destruct (plane_atom_lemma atoms a p Hp Ha) as (c & o & Hco & Hpo & Hao & Hca & E).
    eexists. split; [|exact E]. intros v. rewrite andb_true_iff, !Rltb_true. split.
    - intros Hv. exists c, o. unfold in_plane_off_axis. auto.
    - intros (c' & o' & Hco' & Hpo' & Hao' & Hca' & Hv).
      assert (o' = o) as -> by (destruct Hpo as [->| ->], Hpo' as [Ho|Ho]; injection Ho; congruence).
      assert (c' = c) as -> by (destruct a, o, c, c'; congruence). exact Hv. }
  assert (PB : forall p, fst p <> snd p -> exists f : R * R * R -> bool,
    (forall v, f v = true <-> exists c, fst p <> snd p /\ c <> fst p /\ c <> snd p /\
       in_plane_off_axis v c (snd p)) /\
    find_plane_atom atoms (fst p) p = position f atoms).
  { intros p Hp. destruct (plane_atom_lemma atoms (fst p) p Hp (or_introl eq_refl)) as (c & o & Hco & Hpo & Hao & Hca & E).
    assert (o = snd p) as -> by (destruct p as [p q]; cbn [fst snd] in *; destruct Hpo as [[= ->]|[= -> ->]]; congruence).
    eexists. split; [|exact E]. intros v. rewrite andb_true_iff, !Rltb_true. split.
    - intros Hv. exists c. unfold in_plane_off_axis. auto.
    - intros (c' & _ & H1 & H2 & Hv).
      assert (c' = c) as -> by (destruct p as [p q]; cbn [fst snd] in *; destruct p, q, c, c'; congruence). exact Hv. }
  destruct g as [a|a|a p|a p|a p|a p|a p|a p|a p|]; try (now elim Hg); cbn [well_formed] in W; cbn [make_iatl suitable];
    [destruct (OA a) as (f & Hf & E) | destruct (OA a) as (f & Hf & E)
    | destruct (PA a p (proj1 W) (proj2 W)) as (f & Hf & E) | destruct (PA a p (proj1 W) (proj2 W)) as (f & Hf & E)
    | destruct (PB p W) as (f & Hf & E) | destruct (PB p W) as (f & Hf & E)
    | destruct (PA a p (proj1 W) (proj2 W)) as (f & Hf & E) | destruct (PA a p (proj1 W) (proj2 W)) as (f & Hf & E)
    | destruct (PA a p (proj1 W) (proj2 W)) as (f & Hf & E) ];
    exists f; eexists; eexists; (split; [exact Hf|]); rewrite E; destruct (position f atoms); reflexivity.
Qed.

Lemma iatl_lemma (atoms : list (R * R * R)) old g : well_formed g ->
  (forall i n a, make_iatl atoms old g = Some (i, n, a) ->
     exists v, nth_error atoms i = Some v /\ suitable g v /\
       forall j u, (j < i)%nat -> nth_error atoms j = Some u -> ~ suitable g u) /\
  (make_iatl atoms old g = None <-> forall v, In v atoms -> ~ suitable g v).
Proof.
  intros W. destruct (group_eq_other g) as [->|Hg].
  { split; [discriminate|]. split; [intros _ v _ H; exact H|reflexivity]. }
  destruct (iatl_test atoms old g W Hg) as (f & n & a & Hf & E). rewrite E. split.
  - intros i n' a' Ei. destruct (position f atoms) as [k|] eqn:Ep; [|discriminate].
    cbn in Ei. injection Ei as <- <- <-. now apply (decide_first f).
  - rewrite <- (decide_none f (suitable g) atoms Hf). destruct (position f atoms); cbn; split; congruence.
Qed.

(** the group has its axis along z, or a mirror plane with an off-axis direction in xy *)
Definition along_z (g : group) : Prop :=
  match g with
  | C2h a | C3 a | C2v a _ | C3v a _ | D2h a _ | D3h a _ | D5h a _ => a = AZ
  | C5v _ p | C6h _ p => snd p <> AZ
  | OtherGroup => True
  end.
Lemma off_z g v : along_z g -> suitable g v -> let '(x, y, _) := v in x * x + y * y <> 0.
Proof.
  assert (K : forall o, o <> AZ -> tol < Rabs (coord v o) -> let '(x, y, _) := v in x * x + y * y <> 0).
  { intros o Ho Ht. destruct v as [[x y] z]. assert (T : 0 < tol) by (unfold tol; lra).
    destruct o; [| |now elim Ho]; cbn [coord] in Ht; intros E.
    - assert (x = 0) as -> by nra. rewrite Rabs_R0 in Ht. lra.
    - assert (y = 0) as -> by nra. rewrite Rabs_R0 in Ht. lra. }
  intros Z S. destruct g; cbn [along_z suitable] in *; subst.
  1,2: destruct S as (b & Hb & Ht); now apply (K b).
  all: try (destruct S as (c & o & _ & Hp & Ho & _ & _ & Ht); apply (K o); congruence).
  all: try (destruct S as (c & Hp & _ & _ & _ & Ht); now apply (K (snd p))).
  all: try (destruct S as (c & Hp & _ & _ & _ & Ht); now apply (K (snd sh))).
  destruct S.
Qed.

(** ** linear molecules *)
Lemma fix_linear_lemma (axes : nat -> nat -> R) : orth 3 axes ->
  orth 3 (fix_linear axes) /\
  (forall i, (i < 3)%nat -> fix_linear axes i 2%nat = axes i 2%nat) /\
  (forall v, (let '(x, y, _) := in_frame axes v in x = 0 /\ y = 0) ->
     in_frame (fix_linear axes) v = in_frame axes v).
Proof.
  intros HO. unfold fix_linear. cbn [neqb nabs Rnum].
  destruct (Reqb (Rabs (axes 0%nat 2%nat)) (nz 0) && Reqb (Rabs (axes 1%nat 2%nat)) (nz 0)
    && Reqb (Rabs (axes 2%nat 2%nat)) (nz 1)) eqn:E; [|now split].
  apply andb_true_iff in E. destruct E as [E E2]. apply andb_true_iff in E. destruct E as [E0 E1].
  rewrite Reqb_true in E0, E1, E2. rewrite nz_R in *.
  assert (A0 : axes 0%nat 2%nat = 0) by (destruct (Req_dec (axes 0%nat 2%nat) 0); [assumption|pose proof (Rabs_pos_lt _ H); lra]).
  assert (A1 : axes 1%nat 2%nat = 0) by (destruct (Req_dec (axes 1%nat 2%nat) 0); [assumption|pose proof (Rabs_pos_lt _ H); lra]).
  assert (A2 : axes 2%nat 2%nat * axes 2%nat 2%nat = 1) by (transitivity (Rabs (axes 2%nat 2%nat) * Rabs (axes 2%nat 2%nat)); [rewrite <- Rabs_mult; rewrite Rabs_right by nra; reflexivity|rewrite E2; ring]).
  refine (conj _ (conj _ _)).
  - split; intros a b Ha Hb; rewrite sum3; three a; three b; unfold delta;
    cbn [Nat.eqb]; rewrite ?nz_R, ?A0, ?A1; lra.
  - intros i Hi. reflexivity.
  - destruct HO as [HR _].
    intros v Hv. destruct v as [[x y] z]. cbn [in_frame] in *. destruct Hv as [Hx Hy].
    pose proof (HR 0%nat 0%nat ltac:(lia) ltac:(lia)) as R00. pose proof (HR 0%nat 1%nat ltac:(lia) ltac:(lia)) as R01.
    pose proof (HR 0%nat 2%nat ltac:(lia) ltac:(lia)) as R02. pose proof (HR 1%nat 1%nat ltac:(lia) ltac:(lia)) as R11.
    pose proof (HR 1%nat 2%nat ltac:(lia) ltac:(lia)) as R12. pose proof (HR 2%nat 2%nat ltac:(lia) ltac:(lia)) as R22.
    rewrite sum3 in *. unfold delta in *. cbn [Nat.eqb] in *. rewrite A0, A1 in *.
    assert (B0 : axes 2%nat 0%nat = 0) by nra. assert (B1 : axes 2%nat 1%nat = 0) by nra. rewrite B0, B1 in *.
    assert (x = 0) as ->.
    { transitivity (axes 0%nat 0%nat * (axes 0%nat 0%nat * x + axes 1%nat 0%nat * y + 0 * z)
                    + axes 0%nat 1%nat * (axes 0%nat 1%nat * x + axes 1%nat 1%nat * y + 0 * z)); [|rewrite Hx, Hy; ring].
      transitivity (x * (axes 0%nat 0%nat * axes 0%nat 0%nat + axes 0%nat 1%nat * axes 0%nat 1%nat + 0 * 0)
                    + y * (axes 0%nat 0%nat * axes 1%nat 0%nat + axes 0%nat 1%nat * axes 1%nat 1%nat + 0 * 0)); [|ring].
      rewrite R00, R01. ring. }
    assert (y = 0) as ->.
    { transitivity (axes 1%nat 0%nat * (axes 0%nat 0%nat * 0 + axes 1%nat 0%nat * y + 0 * z)
                    + axes 1%nat 1%nat * (axes 0%nat 1%nat * 0 + axes 1%nat 1%nat * y + 0 * z)); [|rewrite Hx, Hy; ring].
      transitivity (y * (axes 1%nat 0%nat * axes 1%nat 0%nat + axes 1%nat 1%nat * axes 1%nat 1%nat + 0 * 0)); [|ring].
      rewrite R11. ring. }
    cbn [Nat.eqb]. rewrite ?nz_R, ?A0, ?A1, ?B0, ?B1. f_equal; try f_equal; ring.
Qed.
