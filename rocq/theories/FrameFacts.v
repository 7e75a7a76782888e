(** The geometry a run works with: that of the input file, moved into the frame of the axes. *)
From Coq Require Import Reals Lra List ZArith NArith Arith Lia Bool Ascii String.
From Verif Require Import Num Loops Index ListFacts Modes ModesFacts ResFacts Anharm AnharmFacts VibRot VibRotFacts Distort Transform TransformFacts
  RotFacts ModeFacts SymAnharm Polyads Report Geom GeomFacts OrientFacts InertiaFacts Finish OutText OutFacts Text Program ProgramFacts.
Import ListNotations.
Open Scope list_scope.
Open Scope nat_scope.
Local Open Scope R_scope.

(** ** the specification side *)
Definition vsub (u v : R * R * R) : R * R * R :=
  let '(a, b, c) := u in let '(x, y, z) := v in (a - x, b - y, c - z).
Definition vscale (s : R) (v : R * R * R) : R * R * R := let '(x, y, z) := v in (s * x, s * y, s * z).
(** the atom elsewhere *)
Definition atom_at (a : atom R) (v : R * R * R) : atom R :=
  let '(x, y, z) := v in {| number := number a; ax := x; ay := y; az := z; weight := weight a |}.
Definition where_ (a : atom R) : R * R * R := (ax a, ay a, az a).
Definition place_of (ats : list (atom R)) (q : nat) : R * R * R := nth q (map where_ ats) (0, 0, 0).
Definition total {I} (sy : symm R I) (ats : list (atom R)) : R := fold_right Rplus 0 (masses sy ats).

(** What is assumed of the crate symm: [to_angstrom] scales by [s]; the mass of an atom depends on
    its number and its listed weight; [com] is the centre of mass; for the atoms [ats0] of the input
    file [normalize] is a rigid motion, after a shift to the centre of mass the inertia tensor is
    diagonal with the returned moments, linear molecules lie along z, diatomic molecules along x
    (their moments are sorted like those of tops) and the point group of symmetric tops has its
    axis along z. *)
Record symm_ok {I} (sy : symm R I) (s : R) (mu : N -> option R -> R) (ats0 : list (atom R)) : Prop := {
  ok_scale : forall ats, to_angstrom sy ats = map (fun a => atom_at a (vscale s (where_ a))) ats;
  ok_masses : forall ats, masses sy ats = map (fun a => mu (number a) (weight a)) ats;
  ok_com : forall ats, total sy ats <> 0 -> forall x, (x < 3)%nat ->
    comp (centre_of_mass sy ats) x * total sy ats =
    Sum (List.length ats) (fun q => nth q (masses sy ats) 0 * comp (place_of ats q) x);
  ok_rigid : forall pr axes r ats', normalize sy (to_angstrom sy ats0) = (pr, axes, r, ats') ->
    orth 3 axes /\ exists c, ats' = map (fun a => atom_at a (in_frame axes (vsub (where_ a) c))) (to_angstrom sy ats0);
  ok_moments : forall pr axes r ats', normalize sy (to_angstrom sy ats0) = (pr, axes, r, ats') -> total sy ats0 <> 0 ->
    forall x y, (x < 3)%nat -> (y < 3)%nat ->
    inertia (List.length ats0) (fun q => nth q (masses sy ats0) 0)
      (fun q => vsub (place_of ats' q) (centre_of_mass sy ats')) x y = kron x y * comp pr x;
  ok_linear : forall pr axes r ats', normalize sy (to_angstrom sy ats0) = (pr, axes, r, ats') -> is_linear r = true -> r <> Diatomic ->
    forall a b, In a ats' -> In b ats' -> ax a = ax b /\ ay a = ay b;
  ok_diatomic : forall pr axes ats', normalize sy (to_angstrom sy ats0) = (pr, axes, Diatomic, ats') ->
    forall a b, In a ats' -> In b ats' -> ay a = ay b /\ az a = az b;
  ok_top : forall pr axes r ats', normalize sy (to_angstrom sy ats0) = (pr, axes, r, ats') ->
    is_sym_top r = Some true -> is_linear r = false ->
    let g := point_group sy (map (fun a => atom_at a (vsub (where_ a) (centre_of_mass sy ats'))) ats') in
    well_formed g /\ along_z g }.

(** the first axis is x if the third is the z axis of the input *)
Definition first_is_x (axes : nat -> nat -> R) : Prop :=
  axes 0%nat 2%nat = 0 -> axes 1%nat 2%nat = 0 -> axes 0%nat 0%nat = 1.

(** ** rotations *)
Lemma orth_cols e : orth 3 e -> forall i j, (i < 3)%nat -> (j < 3)%nat ->
  e 0%nat i * e 0%nat j + e 1%nat i * e 1%nat j + e 2%nat i * e 2%nat j = kron i j.
Proof. intros [_ H] i j Hi Hj. specialize (H i j Hi Hj). rewrite sum3 in H. exact H. Qed.
Lemma frame_comp_v e v x : (x < 3)%nat ->
  comp (in_frame e v) x = e 0%nat x * comp v 0 + e 1%nat x * comp v 1 + e 2%nat x * comp v 2.
Proof. intros Hx. destruct v as [[a b] c]. three x; reflexivity. Qed.
Lemma frame_length e v : orth 3 e ->
  comp (in_frame e v) 0 ^ 2 + comp (in_frame e v) 1 ^ 2 + comp (in_frame e v) 2 ^ 2 = comp v 0 ^ 2 + comp v 1 ^ 2 + comp v 2 ^ 2.
Proof.
  intros O. pose proof (orth_dist e v (0, 0, 0) O) as D. destruct v as [[a b] c]. cbn [in_frame sqdist comp fst snd] in *. lra.
Qed.
Lemma inertia_frame N m p e x y : orth 3 e -> (x < 3)%nat -> (y < 3)%nat ->
  inertia N m (fun q => in_frame e (p q)) x y = Sum 3 (fun r => Sum 3 (fun t => e r x * e t y * inertia N m p r t)).
Proof.
  intros O Hx Hy. unfold inertia.
  transitivity (Sum N (fun i => Sum 3 (fun r => Sum 3 (fun t => e r x * e t y *
    (m i * (kron r t * (comp (p i) 0 ^ 2 + comp (p i) 1 ^ 2 + comp (p i) 2 ^ 2) - comp (p i) r * comp (p i) t)))))).
  - apply Rsum_ext. intros i _. rewrite !sum3, frame_length by exact O. rewrite !(frame_comp_v e (p i)) by lia.
    rewrite <- (orth_cols e O x y Hx Hy). unfold kron. cbn [Nat.eqb]. ring.
  - rewrite !sum3. rewrite <- !Rsum_scal, <- !Rsum_plus. apply Rsum_ext. intros i _. rewrite !sum3. ring.
Qed.

(** ** the orientation step *)
Lemma orth_delta3 : orth 3 delta.
Proof. split; intros i j Hi Hj; rewrite sum3; three i; three j; unfold delta; cbn [Nat.eqb]; ring. Qed.
Lemma frame_delta v : in_frame delta v = v.
Proof. destruct v as [[a b] c]. cbn [in_frame]. unfold delta. cbn [Nat.eqb]. f_equal; [f_equal|]; ring. Qed.

Lemma orient_geom_frame (sym lin : bool) g old (ps : list (R * R * R)) axes vs axes' top :
  orient_geom sym lin g old ps axes = Some (vs, axes', top) ->
  (sym = true -> lin = false -> well_formed g /\ along_z g) ->
  exists e, orth 3 e /\ vs = map (in_frame e) ps /\
    (sym && negb lin = false -> e = delta) /\
    (e 0%nat 2%nat = 0 /\ e 1%nat 2%nat = 0 /\ e 2%nat 0%nat = 0 /\ e 2%nat 1%nat = 0 /\ e 2%nat 2%nat = 1) /\
    (lin = false -> forall i j, (i < 3)%nat -> (j < 3)%nat -> axes' i j = mprod 3 axes e i j) /\
    (lin = true -> axes' = fix_linear axes).
Proof.
  unfold orient_geom. intros E Hg.
  assert (D : delta 0 2 = 0 /\ delta 1 2 = 0 /\ delta 2 0 = 0 /\ delta 2 1 = 0 /\ delta 2 2 = 1) by (unfold delta; cbn [Nat.eqb]; auto).
  assert (M : forall i j, (i < 3)%nat -> (j < 3)%nat -> axes i j = mprod 3 axes delta i j).
  { intros i j Hi Hj. unfold mprod. rewrite sum3. unfold delta. three j; cbn [Nat.eqb]; ring. }
  destruct (sym && negb lin) eqn:Es.
  - apply andb_prop in Es as [-> Hl]. apply negb_true_iff in Hl. subst lin. destruct (Hg eq_refl eq_refl) as [W Z].
    destruct (make_iatl ps old g) as [[[i n] a]|] eqn:Ei; [|discriminate]. cbn [obind fst] in E.
    destruct (proj1 (iatl_lemma ps old g W) i n a Ei) as ([[x y] z] & Ha & Hs & _).
    pose proof (off_z g (x, y, z) Z Hs) as Hn. cbn in Hn.
    unfold orient, vec3 in E. rewrite Ha in E. cbn [obind] in E. apply some_eq in E. apply pair_equal_spec in E as [E _].
    apply pair_equal_spec in E as [<- <-]. exists (egr x y). split; [now apply egr_orth|].
    split. { apply map_ext. intros v. apply turn_frame. } split; [discriminate|].
    split. { rewrite !egr_eval. cbv zeta. auto. } split; [|discriminate]. intros _ i' j' _ _. now rewrite axes_R.
  - cbn [obind] in E. apply some_eq in E. apply pair_equal_spec in E as [E _]. apply pair_equal_spec in E as [<- <-].
    exists delta. split; [exact orth_delta3|]. split. { rewrite <- (map_id ps) at 1. apply map_ext. intros v. now rewrite frame_delta. }
    split; [reflexivity|]. split; [exact D|]. split; [intros ->; exact M|intros ->; reflexivity].
Qed.


(** ** the molecule that is loaded *)
Lemma vsub_comp u v x : comp (vsub u v) x = comp u x - comp v x.
Proof. destruct u as [[a b] c], v as [[p q] r]. destruct x as [|[|x]]; reflexivity. Qed.
Lemma at_where a v : where_ (atom_at a v) = v.
Proof. destruct v as [[x y] z]. reflexivity. Qed.
Lemma at_at a u v : atom_at (atom_at a u) v = atom_at a v.
Proof. destruct u as [[x y] z], v as [[p q] r]. reflexivity. Qed.
Lemma at_number a v : number (atom_at a v) = number a.
Proof. destruct v as [[x y] z]. reflexivity. Qed.
Lemma at_weight a v : weight (atom_at a v) = weight a.
Proof. destruct v as [[x y] z]. reflexivity. Qed.
(** a point of the new frame in the old one *)
Definition out_frame (axes : nat -> nat -> R) (v : R * R * R) : R * R * R :=
  let '(x, y, z) := v in
  (axes 0%nat 0%nat * x + axes 0%nat 1%nat * y + axes 0%nat 2%nat * z,
   axes 1%nat 0%nat * x + axes 1%nat 1%nat * y + axes 1%nat 2%nat * z,
   axes 2%nat 0%nat * x + axes 2%nat 1%nat * y + axes 2%nat 2%nat * z).
Definition vadd (u v : R * R * R) : R * R * R :=
  let '(a, b, c) := u in let '(x, y, z) := v in (a + x, b + y, c + z).
Lemma in_out axes v : orth 3 axes -> in_frame axes (out_frame axes v) = v.
Proof.
  intros O. destruct v as [[a b] c]. cbn [in_frame out_frame].
  pose proof (orth_cols axes O) as C.
  pose proof (C 0%nat 0%nat ltac:(lia) ltac:(lia)) as C00. pose proof (C 0%nat 1%nat ltac:(lia) ltac:(lia)) as C01.
  pose proof (C 0%nat 2%nat ltac:(lia) ltac:(lia)) as C02. pose proof (C 1%nat 1%nat ltac:(lia) ltac:(lia)) as C11.
  pose proof (C 1%nat 2%nat ltac:(lia) ltac:(lia)) as C12. pose proof (C 2%nat 2%nat ltac:(lia) ltac:(lia)) as C22.
  unfold kron in *. cbn [Nat.eqb] in *. clear C.
  set (p := axes 0%nat 0%nat) in *. set (q := axes 0%nat 1%nat) in *. set (r := axes 0%nat 2%nat) in *.
  set (p' := axes 1%nat 0%nat) in *. set (q' := axes 1%nat 1%nat) in *. set (r' := axes 1%nat 2%nat) in *.
  set (p'' := axes 2%nat 0%nat) in *. set (q'' := axes 2%nat 1%nat) in *. set (r'' := axes 2%nat 2%nat) in *.
  f_equal; [f_equal|].
  - transitivity (a * (p * p + p' * p' + p'' * p'') + b * (p * q + p' * q' + p'' * q'') + c * (p * r + p' * r' + p'' * r'')); [ring|].
    rewrite C00, C01, C02. ring.
  - transitivity (a * (p * q + p' * q' + p'' * q'') + b * (q * q + q' * q' + q'' * q'') + c * (q * r + q' * r' + q'' * r'')); [ring|].
    rewrite C01, C11, C12. ring.
  - transitivity (a * (p * r + p' * r' + p'' * r'') + b * (q * r + q' * r' + q'' * r'') + c * (r * r + r' * r' + r'' * r'')); [ring|].
    rewrite C02, C12, C22. ring.
Qed.
Lemma frame_sub axes u v : in_frame axes (vsub u v) = vsub (in_frame axes u) (in_frame axes v).
Proof. destruct u as [[a b] c], v as [[x y] z]. cbn [in_frame vsub]. f_equal; [f_equal|]; ring. Qed.
Lemma vsub_add u v w : vsub (vsub u v) w = vsub u (vadd v w).
Proof. destruct u as [[a b] c], v as [[x y] z], w as [[p q] r]. cbn [vsub vadd]. f_equal; [f_equal|]; ring. Qed.

(** ** the axes of diatomic molecules *)
Lemma rotor_diatomic (r : rotor) : r = Diatomic \/ r <> Diatomic.
Proof. destruct r; (now left) || (right; discriminate). Qed.
Lemma fix_linear_cases (axes : nat -> nat -> R) : orth 3 axes ->
  (fix_linear axes = axes /\ ~ (axes 0%nat 2%nat = 0 /\ axes 1%nat 2%nat = 0)) \/
  (axes 0%nat 2%nat = 0 /\ axes 1%nat 2%nat = 0 /\
   forall v, in_frame (fix_linear axes) v = (comp v 0, comp v 1, axes 2%nat 2%nat * comp v 2)).
Proof.
  intros O. pose proof (orth_cols axes O 2 2 ltac:(lia) ltac:(lia)) as C. unfold kron in C. cbn [Nat.eqb] in C.
  unfold fix_linear. cbn [neqb nabs Rnum]. rewrite !nz_R.
  destruct (Reqb (Rabs (axes 0%nat 2%nat)) 0 && Reqb (Rabs (axes 1%nat 2%nat)) 0 && Reqb (Rabs (axes 2%nat 2%nat)) 1) eqn:E.
  - right. apply andb_true_iff in E as [E _]. apply andb_true_iff in E as [E0 E1]. rewrite Reqb_true in E0, E1.
    assert (A0 : axes 0%nat 2%nat = 0) by (destruct (Req_dec (axes 0%nat 2%nat) 0); [assumption|pose proof (Rabs_pos_lt _ H); lra]).
    assert (A1 : axes 1%nat 2%nat = 0) by (destruct (Req_dec (axes 1%nat 2%nat) 0); [assumption|pose proof (Rabs_pos_lt _ H); lra]).
    split; [exact A0|]. split; [exact A1|]. intros [[a b] c]. cbn [in_frame Nat.eqb comp fst snd]. rewrite A0, A1.
    f_equal; [f_equal|]; ring.
  - left. split; [reflexivity|]. intros [A0 A1]. rewrite A0, A1 in *.
    assert (A2 : Rabs (axes 2%nat 2%nat) = 1).
    { assert (H : (axes 2%nat 2%nat - 1) * (axes 2%nat 2%nat + 1) = 0) by lra.
      apply Rmult_integral in H as [H|H].
      - replace (axes 2%nat 2%nat) with 1 by lra. apply Rabs_R1.
      - replace (axes 2%nat 2%nat) with (- (1)) by lra. rewrite Rabs_Ropp. apply Rabs_R1. }
    rewrite A2, Rabs_R0 in E.
    assert (R0 : Reqb 0 0 = true) by now apply Reqb_true. assert (R1' : Reqb 1 1 = true) by now apply Reqb_true.
    rewrite R0, R1' in E. discriminate.
Qed.
Lemma out_in axes v : orth 3 axes -> out_frame axes (in_frame axes v) = v.
Proof.
  intros [H _]. destruct v as [[a b] c]. cbn [in_frame out_frame].
  assert (C : forall i j, (i < 3)%nat -> (j < 3)%nat ->
    axes i 0%nat * axes j 0%nat + axes i 1%nat * axes j 1%nat + axes i 2%nat * axes j 2%nat = kron i j).
  { intros i j Hi Hj. specialize (H i j Hi Hj). rewrite sum3 in H. exact H. }
  pose proof (C 0%nat 0%nat ltac:(lia) ltac:(lia)) as C00. pose proof (C 0%nat 1%nat ltac:(lia) ltac:(lia)) as C01.
  pose proof (C 0%nat 2%nat ltac:(lia) ltac:(lia)) as C02. pose proof (C 1%nat 1%nat ltac:(lia) ltac:(lia)) as C11.
  pose proof (C 1%nat 2%nat ltac:(lia) ltac:(lia)) as C12. pose proof (C 2%nat 2%nat ltac:(lia) ltac:(lia)) as C22.
  unfold kron in *. cbn [Nat.eqb] in *. clear C H.
  set (p := axes 0%nat 0%nat) in *. set (q := axes 0%nat 1%nat) in *. set (r := axes 0%nat 2%nat) in *.
  set (p' := axes 1%nat 0%nat) in *. set (q' := axes 1%nat 1%nat) in *. set (r' := axes 1%nat 2%nat) in *.
  set (p'' := axes 2%nat 0%nat) in *. set (q'' := axes 2%nat 1%nat) in *. set (r'' := axes 2%nat 2%nat) in *.
  f_equal; [f_equal|].
  - transitivity (a * (p * p + q * q + r * r) + b * (p * p' + q * q' + r * r') + c * (p * p'' + q * q'' + r * r'')); [ring|].
    rewrite C00, C01, C02. ring.
  - transitivity (a * (p * p' + q * q' + r * r') + b * (p' * p' + q' * q' + r' * r') + c * (p' * p'' + q' * q'' + r' * r'')); [ring|].
    rewrite C01, C11, C12. ring.
  - transitivity (a * (p * p'' + q * q'' + r * r'') + b * (p' * p'' + q' * q'' + r' * r'') + c * (p'' * p'' + q'' * q'' + r'' * r'')); [ring|].
    rewrite C02, C12, C22. ring.
Qed.
(** a point of the first axis, in the changed frame *)
Lemma fix_linear_on axes v : orth 3 axes -> comp (in_frame axes v) 1 = 0 -> comp (in_frame axes v) 2 = 0 ->
  axes 0%nat 2%nat = 0 -> axes 1%nat 2%nat = 0 ->
  in_frame (fix_linear axes) v = vscale (comp (in_frame axes v) 0) (axes 0%nat 0%nat, axes 1%nat 0%nat, 0).
Proof.
  intros O Z1 Z2 A0 A1. destruct (fix_linear_cases axes O) as [[_ N]|(_ & _ & F)]; [elim N; auto|].
  pose proof (orth_cols axes O 0 2 ltac:(lia) ltac:(lia)) as C02. pose proof (orth_cols axes O 2 2 ltac:(lia) ltac:(lia)) as C22.
  unfold kron in C02, C22. cbn [Nat.eqb] in C02, C22. rewrite A0, A1 in C02, C22.
  assert (A2 : axes 2%nat 0%nat = 0) by nra.
  rewrite F. rewrite <- (out_in axes v O) at 1 2 3. destruct (in_frame axes v) as [[x y] z]. cbn [comp fst snd] in Z1, Z2 |- *. subst y z.
  cbn [out_frame vscale comp fst snd]. rewrite A2. f_equal; [f_equal|]; ring.
Qed.
Lemma fix_linear_x axes v : orth 3 axes -> first_is_x axes -> comp (in_frame axes v) 1 = 0 -> comp (in_frame axes v) 2 = 0 ->
  in_frame (fix_linear axes) v = in_frame axes v.
Proof.
  intros O Fx Z1 Z2. destruct (fix_linear_cases axes O) as [[-> _]|(A0 & A1 & _)]; [reflexivity|].
  rewrite fix_linear_on by assumption. assert (X := Fx A0 A1).
  pose proof (orth_cols axes O 0 0 ltac:(lia) ltac:(lia)) as C. unfold kron in C. cbn [Nat.eqb] in C. rewrite X in C.
  assert (Y : axes 1%nat 0%nat = 0) by nra. rewrite X, Y.
  destruct (in_frame axes v) as [[x y] z]. cbn [comp fst snd vscale] in *. subst. f_equal; [f_equal|]; ring.
Qed.

Lemma map_ext_in_iff' {A B} (f g : A -> B) l : map f l = map g l -> forall a, In a l -> f a = g a.
Proof. induction l as [|x l IH]; [contradiction|]. cbn [map]. intros E a [->|H]; injection E; auto. Qed.

Section Load.
  Context {I : Type}.
  Variables (sy : symm R I) (s : R) (mu : N -> option R -> R).
  Context `{G0 : Trig R} `{T0 : FText R}.

  Section Ats.
  Variable ats0 : list (atom R).
  Hypothesis Ok : symm_ok sy s mu ats0.

  Lemma masses_moved f ats : masses sy (map (fun a => atom_at a (f a)) ats) = masses sy ats.
  Proof. rewrite !(ok_masses _ _ _ _ Ok), map_map. apply map_ext. intros a. now rewrite at_number, at_weight. Qed.
  Lemma places_moved f ats : map where_ (map (fun a => atom_at a (f a)) ats) = map f ats.
  Proof. rewrite map_map. apply map_ext. intros a. apply at_where. Qed.
  Lemma place_moved f g ats q : (q < List.length ats)%nat -> (forall a, f a = g (where_ a)) ->
    place_of (map (fun a => atom_at a (f a)) ats) q = g (place_of ats q).
  Proof.
    intros Hq E. unfold place_of. rewrite places_moved, (map_ext _ _ E), <- (map_map where_ g).
    rewrite (nth_indep _ (0, 0, 0) (g (0, 0, 0))) by (now rewrite !map_length). apply map_nth.
  Qed.
  Lemma total_sum ats : total sy ats = Sum (List.length ats) (fun q => nth q (masses sy ats) 0).
  Proof.
    unfold total. assert (L : List.length (masses sy ats) = List.length ats) by (rewrite (ok_masses _ _ _ _ Ok); apply map_length).
    rewrite <- L. generalize (masses sy ats). intros l. induction l as [|x l IH]; [reflexivity|].
    cbn [fold_right List.length seq]. rewrite Rsum_cons. cbn [nth]. rewrite IH, <- seq_shift, Rsum_map. reflexivity.
  Qed.

  End Ats.

  Lemma load_frame_lemma infile (l : loaded R) : load_input sy infile = Some l ->
    exists s0, read infile = Some s0 /\ header (l_input l) = header s0 /\
    (symm_ok sy s mu (atoms s0) -> total sy (atoms s0) <> 0 ->
     let ats := atoms (l_input l) in
     let N := List.length ats in
     let mass q := nth q (masses sy ats) 0 in
     orth 3 (l_axes l) /\ masses sy ats = masses sy (atoms s0) /\
     ((l_rotor l = Diatomic -> forall pr axes r ats', normalize sy (to_angstrom sy (atoms s0)) = (pr, axes, r, ats') -> first_is_x axes) ->
      exists c, ats = map (fun a => atom_at a (in_frame (l_axes l) (vsub (vscale s (where_ a)) c))) (atoms s0)) /\
     (forall x, (x < 3)%nat -> Sum N (fun q => mass q * comp (place_of ats q) x) = 0) /\
     (comp (l_primat l) 0 = comp (l_primat l) 1 \/ is_sym_top (l_rotor l) = Some false \/ is_linear (l_rotor l) = true ->
      forall x y, (x < 3)%nat -> (y < 3)%nat -> inertia N mass (place_of ats) x y = kron x y * comp (l_primat l) x)).
  Proof.
    unfold load_input. destruct (read infile) as [s0|] eqn:Er; [|discriminate]. cbn [obind]. unfold process_molecule.
    destruct (normalize sy (to_angstrom sy (atoms s0))) as [[[pr axes] r] at1] eqn:En. cbv zeta.
    destruct (is_sym_top r) as [sym|] eqn:Es; [|discriminate]. cbn [obind].
    set (c0 := centre_of_mass sy at1).
    assert (E2 : map (shift_back c0) at1 = map (fun a => atom_at a (vsub (where_ a) c0)) at1).
    { apply map_ext. intros a. destruct c0 as [[x y] z]. reflexivity. }
    rewrite E2. set (at2 := map (fun a => atom_at a (vsub (where_ a) c0)) at1). change (map position at2) with (map where_ at2).
    set (g := point_group sy at2).
    destruct (orient_geom sym (is_linear r) g (axis_default sy) (map where_ at2) axes) as [[[vs axes'] top]|] eqn:Eo; [|discriminate].
    cbn [obind]. destruct (match top with Some x => x | None => (0%nat, 0%nat, axis_default sy) end) as [[iatom order] ax0].
    match goal with |- context [make_sizes (List.length ?x)] => set (at3 := x) end.
    destruct (make_sizes (List.length at3) (is_linear r)) as [sz|]; [|discriminate]. cbn [obind]. intros Q. apply some_eq in Q. subst l.
    exists s0. split; [reflexivity|]. split; [reflexivity|]. cbn [l_axes l_input atoms l_primat l_rotor]. intros Ok Ht.
    pose proof (masses_moved _ Ok) as masses_moved. pose proof (total_sum _ Ok) as total_sum.
    destruct (ok_rigid _ _ _ _ Ok _ _ _ _ En) as (Oa & c & E1).
    assert (Hg : sym = true -> is_linear r = false -> well_formed g /\ along_z g).
    { intros -> Hl. exact (ok_top _ _ _ _ Ok _ _ _ _ En Es Hl). }
    destruct (orient_geom_frame _ _ _ _ _ _ _ _ _ Eo Hg) as (e & Oe & Ev & Ee & Ez & Ea1 & Ea2).
    assert (Es1 := ok_scale _ _ _ _ Ok (atoms s0)). set (at0 := to_angstrom sy (atoms s0)) in *.
    assert (E3 : at3 = map (fun a => atom_at a (in_frame e (where_ a))) at2).
    { unfold at3. rewrite Ev. generalize at2. intros k. induction k as [|a k IH]; [reflexivity|]. cbn [map combine].
      rewrite IH. reflexivity. }
    clearbody at3. subst at3.
    assert (M0 : masses sy at0 = masses sy (atoms s0)) by (rewrite Es1; apply masses_moved).
    assert (M1 : masses sy at1 = masses sy at0) by (rewrite E1; apply masses_moved).
    assert (M2 : masses sy at2 = masses sy at1) by apply masses_moved.
    assert (L0 : List.length at0 = List.length (atoms s0)) by (rewrite Es1; apply map_length).
    assert (L1 : List.length at1 = List.length at0) by (rewrite E1; apply map_length).
    assert (L2 : List.length at2 = List.length at1) by apply map_length.
    assert (T1 : total sy at1 <> 0) by (unfold total in *; now rewrite M1, M0).
    assert (Com : forall x, (x < 3)%nat -> Sum (List.length at2) (fun q => nth q (masses sy at2) 0 * comp (place_of at2 q) x) = 0).
    { intros x Hx. assert (C := ok_com _ _ _ _ Ok at1 T1 x Hx). fold c0 in C. rewrite L2, M2.
      rewrite (sum_g _ _ (fun q => nth q (masses sy at1) 0 * comp (place_of at1 q) x - nth q (masses sy at1) 0 * comp c0 x)).
      2:{ intros q Hq. unfold at2. rewrite (place_moved _ (fun v => vsub v c0)) by auto. rewrite vsub_comp. ring. }
      rewrite Rsum_minus, Rsum_scal_r, <- C, <- total_sum. ring. }
    assert (At : at2 = map (fun a => atom_at a (in_frame axes (vsub (vscale s (where_ a)) (vadd c (out_frame axes c0))))) (atoms s0)).
    { unfold at2. rewrite E1, Es1, !map_map. apply map_ext. intros a. rewrite !at_at, !at_where. f_equal.
      rewrite <- vsub_add, (frame_sub axes (vsub _ c)), in_out by exact Oa. reflexivity. }
    rewrite masses_moved, map_length.
    assert (Com3 : forall x, (x < 3)%nat -> Sum (List.length at2) (fun q => nth q (masses sy at2) 0 *
      comp (place_of (map (fun a => atom_at a (in_frame e (where_ a))) at2) q) x) = 0).
    { intros x Hx. rewrite (sum_g _ _ (fun q => e 0%nat x * (nth q (masses sy at2) 0 * comp (place_of at2 q) 0)
        + e 1%nat x * (nth q (masses sy at2) 0 * comp (place_of at2 q) 1) + e 2%nat x * (nth q (masses sy at2) 0 * comp (place_of at2 q) 2))).
      2:{ intros q Hq. rewrite (place_moved _ (in_frame e)) by auto. rewrite frame_comp_v by exact Hx. ring. }
      rewrite !Rsum_plus, !Rsum_scal, !Com by lia. ring. }
    assert (Oa' : orth 3 axes').
    { destruct (is_linear r) eqn:Hl; [rewrite Ea2 by reflexivity; now apply fix_linear_lemma|].
      apply (orth_ext 3 (mprod 3 axes e)); [|now apply orth_mprod]. intros i j Hi Hj. symmetry. now apply Ea1. }
    split; [exact Oa'|]. split; [now rewrite M2, M1, M0|]. split; [|split; [exact Com3|]].
    - intros Fx. exists (vadd c (out_frame axes c0)). rewrite At, map_map. apply map_ext_in. intros a Ha. rewrite at_at, at_where. f_equal.
      set (v := vsub (vscale s (where_ a)) (vadd c (out_frame axes c0))).
      destruct (is_linear r) eqn:Hl.
      + rewrite (Ee (andb_false_r sym)), frame_delta, Ea2 by reflexivity. symmetry.
        assert (Hv : In (in_frame axes v) (map where_ at2)).
        { rewrite At, map_map. apply in_map_iff. exists a. split; [apply at_where|exact Ha]. }
        (* a coordinate that all atoms share is zero *)
        assert (Zero : forall x, (x < 3)%nat -> (forall d d', In d at1 -> In d' at1 -> comp (where_ d) x = comp (where_ d') x) ->
          comp (in_frame axes v) x = 0).
        { intros x Hx Sh. assert (C := Com x Hx).
          rewrite (sum_g _ _ (fun q => nth q (masses sy at2) 0 * comp (in_frame axes v) x)) in C.
          - rewrite Rsum_scal_r, <- total_sum in C. apply Rmult_integral in C as [C|C]; [|exact C].
            elim T1. unfold total in *. now rewrite <- M2.
          - intros q Hq. f_equal. assert (Hu : In (place_of at2 q) (map where_ at2)) by (apply nth_In; now rewrite map_length).
            revert Hu Hv. generalize (place_of at2 q) (in_frame axes v). intros u u' Hu Hu'.
            apply in_map_iff in Hu as (b & <- & Hb). apply in_map_iff in Hu' as (b' & <- & Hb').
            apply in_map_iff in Hb as (d & <- & Hd). apply in_map_iff in Hb' as (d' & <- & Hd').
            rewrite !at_where, !vsub_comp. now rewrite (Sh d d' Hd Hd'). }
        destruct (rotor_diatomic r) as [->|Nd].
        * apply fix_linear_x; [exact Oa|exact (Fx eq_refl _ _ _ _ En)| |];
            apply Zero; try lia; intros d d' Hd Hd'; now apply (ok_diatomic _ _ _ _ Ok _ _ _ En d d' Hd Hd').
        * apply fix_linear_lemma; [exact Oa|].
          assert (Z0 : comp (in_frame axes v) 0 = 0) by (apply Zero; [lia|]; intros d d' Hd Hd'; now apply (ok_linear _ _ _ _ Ok _ _ _ _ En Hl Nd d d' Hd Hd')).
          assert (Z1 : comp (in_frame axes v) 1 = 0) by (apply Zero; [lia|]; intros d d' Hd Hd'; now apply (ok_linear _ _ _ _ Ok _ _ _ _ En Hl Nd d d' Hd Hd')).
          destruct (in_frame axes v) as [[p q] t]. split; [exact Z0|exact Z1].
      + rewrite frame_comp. apply frame_ext. intros i j Hi Hj. symmetry. now apply Ea1.
    - intros Hc x y Hx Hy. assert (In0 := ok_moments _ _ _ _ Ok _ _ _ _ En). fold c0 in In0.
      specialize (In0 Ht).
      assert (In2 : forall a b, (a < 3)%nat -> (b < 3)%nat ->
        inertia (List.length at2) (fun q => nth q (masses sy at2) 0) (place_of at2) a b = kron a b * comp pr a).
      { intros a b Ha Hb. rewrite <- (In0 a b Ha Hb). rewrite L2, L1, L0. unfold inertia. apply sum_g. intros q Hq.
        rewrite M2, M1, M0. unfold at2. rewrite (place_moved _ (fun v => vsub v c0)); [reflexivity| |reflexivity]. now rewrite L1, L0. }
      transitivity (inertia (List.length at2) (fun q => nth q (masses sy at2) 0) (fun q => in_frame e (place_of at2 q)) x y).
      { unfold inertia. apply sum_g. intros q Hq. rewrite (place_moved _ (in_frame e)) by auto. reflexivity. }
      rewrite inertia_frame by assumption. rewrite !sum3, !In2 by lia. unfold kron at 1 2 3 4 5 6 7 8 9. cbn [Nat.eqb].
      destruct Ez as (z1 & z2 & z3 & z4 & z5).
      assert (Hd : e = delta \/ comp pr 0 = comp pr 1).
      { destruct Hc as [Hc|[Hc|Hc]]; [now right| |]; left; apply Ee.
        - assert (sym = false) by congruence. now subst sym.
        - rewrite Hc. apply andb_false_r. }
      destruct Hd as [->|Hd].
      + unfold delta, kron. three x; three y; cbn [Nat.eqb]; ring.
      + rewrite <- Hd. pose proof (orth_cols e Oe x y Hx Hy) as O1.
        transitivity (comp pr 0 * (e 0%nat x * e 0%nat y + e 1%nat x * e 1%nat y + e 2%nat x * e 2%nat y) + (comp pr 2 - comp pr 0) * (e 2%nat x * e 2%nat y)); [ring|].
        rewrite O1. three x; three y; rewrite ?z3, ?z4, ?z5, <- ?Hd; unfold kron; cbn [Nat.eqb]; ring.
  Qed.

  (** diatomic molecules: the frame is the one of the geometry if and only if [first_is_x] *)
  Lemma diatomic_frame_lemma infile (l : loaded R) : load_input sy infile = Some l -> l_rotor l = Diatomic ->
    exists s0 pr axes ats', read infile = Some s0 /\ normalize sy (to_angstrom sy (atoms s0)) = (pr, axes, Diatomic, ats') /\
    (symm_ok sy s mu (atoms s0) -> total sy (atoms s0) <> 0 ->
     (exists a b, In a ats' /\ In b ats' /\ ax a <> ax b) ->
     (exists c, atoms (l_input l) = map (fun a => atom_at a (in_frame (l_axes l) (vsub (vscale s (where_ a)) c))) (atoms s0))
       <-> first_is_x axes).
  Proof.
    intros El Hr. destruct (load_frame_lemma infile l El) as (s0 & Er & _ & Fl).
    assert (Al : exists pr axes ats', normalize sy (to_angstrom sy (atoms s0)) = (pr, axes, Diatomic, ats') /\ l_axes l = fix_linear axes /\
      map where_ (atoms (l_input l)) = map (fun v => vsub v (centre_of_mass sy ats')) (map where_ ats')).
    { unfold load_input in El. rewrite Er in El. cbn [obind] in El. unfold process_molecule in El.
      destruct (normalize sy (to_angstrom sy (atoms s0))) as [[[pr axes] r] at1] eqn:En. cbv zeta in El. exists pr, axes, at1.
      destruct (is_sym_top r) as [sym|] eqn:Es; [|discriminate]. cbn [obind] in El.
      destruct (orient_geom sym (is_linear r) _ _ _ axes) as [[[vs axes'] top]|] eqn:Eo in El; [|discriminate]. cbn [obind] in El.
      destruct (match top with Some x => x | None => (0%nat, 0%nat, axis_default sy) end) as [[iatom order] ax0].
      match type of El with context [make_sizes (List.length ?x)] => set (at3 := x) in * end.
      destruct (make_sizes (List.length at3) (is_linear r)) as [sz|]; [|discriminate]. cbn [obind] in El. apply some_eq in El. subst l.
      cbn [l_rotor] in Hr. subst r. cbn [is_sym_top] in Es. cbn [is_linear] in Eo.
      unfold orient_geom in Eo. rewrite andb_false_r in Eo. cbn [obind] in Eo. apply some_eq in Eo.
      apply pair_equal_spec in Eo as [Eo _]. apply pair_equal_spec in Eo as [<- <-].
      split; [reflexivity|]. split; [reflexivity|]. cbn [l_input atoms]. unfold at3.
      rewrite map_map. generalize (centre_of_mass sy at1). intros c. clear. induction at1 as [|a k IH]; [reflexivity|].
      cbn [map combine]. rewrite <- IH. f_equal. destruct c as [[x y] z], a. reflexivity. }
    destruct Al as (pr & axes & ats' & En & Ea & Eg). exists s0, pr, axes, ats'. split; [exact Er|]. split; [exact En|].
    intros Ok Ht (a & b & Ha & Hb & Nab). split.
    - intros (c & Ec) A0 A1. destruct (ok_rigid _ _ _ _ Ok _ _ _ _ En) as (Oa & c1 & E1).
      assert (Es1 := ok_scale _ _ _ _ Ok (atoms s0)).
      (* positions of an atom *)
      assert (P : forall d, In d ats' -> exists v, where_ d = in_frame axes (vsub v c1) /\
        vsub (where_ d) (centre_of_mass sy ats') = in_frame (fix_linear axes) (vsub v c)).
      { intros d Hd. rewrite Ec, Ea in Eg. rewrite E1, Es1 in Hd. rewrite map_map in Hd.
        apply in_map_iff in Hd as (d0 & <- & Hd). exists (vscale s (where_ d0)). rewrite at_where.
        split; [now rewrite at_where|]. set (cm := centre_of_mass sy ats') in *. rewrite E1, Es1 in Eg. rewrite !map_map in Eg.
        assert (Q := map_ext_in_iff' _ _ _ Eg d0 Hd). cbv beta in Q.
        rewrite !at_where in Q. exact (eq_sym Q). }
      destruct (P a Ha) as (u & Wu & Fu). destruct (P b Hb) as (v & Wv & Fv).
      destruct (ok_diatomic _ _ _ _ Ok _ _ _ En a b Ha Hb) as [Ya Za].
      assert (D0 : in_frame axes (vsub u v) = (ax a - ax b, 0, 0)).
      { transitivity (vsub (where_ a) (where_ b)).
        - rewrite Wu, Wv, !frame_sub. destruct (in_frame axes u) as [[x y] z], (in_frame axes v) as [[x' y'] z'], (in_frame axes c1) as [[x'' y''] z'']. cbn [vsub].
          f_equal; [f_equal|]; ring.
        - unfold where_. cbn [vsub]. rewrite Ya, Za. f_equal; [f_equal|]; ring. }
      assert (D1 : in_frame (fix_linear axes) (vsub u v) = (ax a - ax b, 0, 0)).
      { transitivity (vsub (where_ a) (where_ b)).
        - transitivity (vsub (vsub (where_ a) (centre_of_mass sy ats')) (vsub (where_ b) (centre_of_mass sy ats'))).
          + rewrite Fu, Fv, !frame_sub. set (X := in_frame (fix_linear axes)). destruct (X u) as [[x y] z], (X v) as [[x' y'] z'], (X c) as [[x'' y''] z'']. cbn [vsub].
            f_equal; [f_equal|]; ring.
          + destruct (where_ a) as [[x y] z], (where_ b) as [[x' y'] z'], (centre_of_mass sy ats') as [[x'' y''] z'']. cbn [vsub]. f_equal; [f_equal|]; ring.
        - unfold where_. cbn [vsub]. rewrite Ya, Za. f_equal; [f_equal|]; ring. }
      rewrite (fix_linear_on axes _ Oa) in D1; [|now rewrite D0|now rewrite D0|exact A0|exact A1].
      rewrite D0 in D1. cbn [comp fst vscale] in D1. apply pair_equal_spec in D1 as [D1 _]. apply pair_equal_spec in D1 as [D1 _].
      apply Rmult_eq_reg_l with (ax a - ax b); [|lra]. rewrite D1. ring.
    - intros Fx. destruct (Fl Ok Ht) as (_ & _ & Ex & _). apply Ex. intros _ pr' axes' r' at' En'.
      assert (Q := eq_trans (eq_sym En) En'). apply pair_equal_spec in Q as [Q _]. apply pair_equal_spec in Q as [Q _].
      apply pair_equal_spec in Q as [_ <-]. exact Fx.
  Qed.
End Load.
