(** Runs on two descriptions of one asymmetric top: other eigensolvers, other numbering of
    the atoms, another orientation of the Cartesian axes. *)
From Coq Require Import Reals Lra List ZArith Arith Lia Bool Permutation Sorted FunctionalExtensionality.
From Verif Require Import Num Loops ListFacts Index IndexFacts LoadFacts Modes ModesFacts ResFacts StatesFacts Anharm AnharmFacts
  FermiFacts VibRot VibRotFacts Distort Transform TransformFacts RotFacts NormalFacts HarmFacts ModeFacts SymAnharm SymE0
  Report Polyads Geom IrrepFacts Finish FinishFacts RunFacts RunSecond SignFacts RangeFacts SameFinish.
Import ListNotations.
Open Scope nat_scope.
Local Open Scope R_scope.

(** [p] numbers the atoms anew *)
Definition renumbering (N : nat) (p : nat -> nat) : Prop :=
  (forall q, (q < N)%nat -> (p q < N)%nat) /\
  (forall q q', (q < N)%nat -> (q' < N)%nat -> p q = p q' -> q = q').
(** the Cartesian coordinate of the first numbering *)
Definition coord (p : nat -> nat) (a : nat) : nat := (3 * p (a / 3) + a mod 3)%nat.

Lemma renumbering_perm N p : renumbering N p -> Permutation (map p (seq 0 N)) (seq 0 N).
Proof.
  intros [B J]. apply NoDup_Permutation_bis.
  - assert (G : forall l, NoDup l -> (forall x, In x l -> (x < N)%nat) -> NoDup (map p l)).
    { induction l as [|x l IH]; intros Nd Hl; [constructor|]. apply NoDup_cons_iff in Nd as [Nx Nd]. cbn [map]. constructor.
      - intros Hx. apply in_map_iff in Hx as (y & E & Hy). apply J in E; [subst; contradiction| |]; apply Hl; cbn; auto.
      - apply IH; [exact Nd|]. intros; apply Hl; now right. }
    apply G; [apply seq_NoDup|]. intros x Hx%in_seq. lia.
  - now rewrite map_length.
  - intros y Hy. apply in_map_iff in Hy as (x & <- & Hx%in_seq). apply in_seq. specialize (B x). lia.
Qed.
Lemma coord_renumbering N p : renumbering N p -> renumbering (3 * N) (coord p).
Proof.
  intros [B J]. unfold coord. split.
  - intros a Ha. pose proof (Nat.mod_upper_bound a 3). assert (a / 3 < N)%nat by (apply Nat.div_lt_upper_bound; lia).
    specialize (B (a / 3)%nat). lia.
  - intros a b Ha Hb E. pose proof (Nat.mod_upper_bound a 3). pose proof (Nat.mod_upper_bound b 3).
    assert (a / 3 < N)%nat by (apply Nat.div_lt_upper_bound; lia). assert (b / 3 < N)%nat by (apply Nat.div_lt_upper_bound; lia).
    assert (Em : (a mod 3 = b mod 3)%nat) by lia. assert (Ep : p (a / 3)%nat = p (b / 3)%nat) by lia.
    apply J in Ep; try assumption. rewrite (Nat.div_mod a 3), (Nat.div_mod b 3) by lia. lia.
Qed.
Lemma sum_renumbered N p (f : nat -> R) : renumbering N p -> Sum N (fun q => f (p q)) = Sum N f.
Proof. intros H. rewrite <- (Rsum_map p f). apply Rsum_perm. now apply renumbering_perm. Qed.

(** contractions *)
Section Contract.
  Variables (n : nat) (t : nat -> nat) (s : nat -> R) (L L' : nat -> nat -> R) (nv : nat).
  Hypothesis Ht : renumbering n t.
  Hypothesis HL : forall a i, (a < n)%nat -> (i < nv)%nat -> L' a i = s i * L (t a) i.
  Lemma con1_re g g' i : (i < nv)%nat -> (forall a, (a < n)%nat -> g' a = g (t a)) ->
    con1 n L' g' i = s i * con1 n L g i.
  Proof.
    intros Hi Hg. unfold con1. rewrite <- Rsum_scal, <- (sum_renumbered n t (fun r => s i * (L r i * g r)) Ht).
    apply sum_g. intros a Ha. rewrite HL, Hg by assumption. ring.
  Qed.
  Lemma con2_re g g' i j : (i < nv)%nat -> (j < nv)%nat ->
    (forall a b, (a < n)%nat -> (b < n)%nat -> g' a b = g (t a) (t b)) ->
    con2 n L' g' i j = s i * s j * con2 n L g i j.
  Proof.
    intros Hi Hj Hg. unfold con2. rewrite (con1_re (fun r => s j * con1 n L (fun b => g r b) j)); [|exact Hi|].
    - rewrite con1_scal. ring.
    - intros a Ha. apply con1_re; [exact Hj|]. intros b Hb. now apply Hg.
  Qed.
  Lemma con3_re g g' i j k : (i < nv)%nat -> (j < nv)%nat -> (k < nv)%nat ->
    (forall a b c, (a < n)%nat -> (b < n)%nat -> (c < n)%nat -> g' a b c = g (t a) (t b) (t c)) ->
    con3 n L' g' i j k = s i * s j * s k * con3 n L g i j k.
  Proof.
    intros Hi Hj Hk Hg. unfold con3. rewrite (con1_re (fun r => (s j * s k) * con2 n L (fun b c => g r b c) j k)); [|exact Hi|].
    - rewrite con1_scal. ring.
    - intros a Ha. apply con2_re; try assumption. intros b c Hb Hc. now apply Hg.
  Qed.
  Lemma con4_re g g' i j k l : (i < nv)%nat -> (j < nv)%nat -> (k < nv)%nat -> (l < nv)%nat ->
    (forall a b c d, (a < n)%nat -> (b < n)%nat -> (c < n)%nat -> (d < n)%nat -> g' a b c d = g (t a) (t b) (t c) (t d)) ->
    con4 n L' g' i j k l = s i * s j * s k * s l * con4 n L g i j k l.
  Proof.
    intros Hi Hj Hk Hl Hg. unfold con4.
    rewrite (con1_re (fun r => (s j * s k * s l) * con3 n L (fun b c d => g r b c d) j k l)); [|exact Hi|].
    - rewrite con1_scal. ring.
    - intros a Ha. apply con3_re; try assumption. intros b c d Hb Hc Hd. now apply Hg.
  Qed.
End Contract.

(** [zmat] and [wila] *)
Section Atoms.
  Variables (N : nat) (p : nat -> nat) (s : nat -> R) (L L' : nat -> nat -> R) (nv : nat)
    (geom geom' : nat -> R * R * R) (w w' : nat -> R).
  Hypothesis Hp : renumbering N p.
  Hypothesis HL : forall a i, (a < 3 * N)%nat -> (i < nv)%nat -> L' a i = s i * L (coord p a) i.
  Hypothesis Hg : forall q, (q < N)%nat -> geom' q = geom (p q).
  Hypothesis Hw : forall q, (q < N)%nat -> w' q = w (p q).

  Lemma coord_q q m : (m < 3)%nat -> coord p (3 * q + m)%nat = (3 * p q + m)%nat.
  Proof.
    intros Hm. unfold coord.
    assert (E : ((3 * q + m) / 3 = q)%nat) by (symmetry; apply (Nat.div_unique _ 3 q m); lia).
    assert (E' : ((3 * q + m) mod 3 = m)%nat) by (symmetry; apply (Nat.mod_unique _ 3 q m); lia).
    now rewrite E, E'.
  Qed.
  Lemma HLx q i : (q < N)%nat -> (i < nv)%nat -> L' (cx q) i = s i * L (cx (p q)) i.
  Proof. intros Hq Hi. unfold cx. rewrite HL by lia. f_equal. f_equal. pose proof (coord_q q 0). rewrite !Nat.add_0_r in *. apply H; lia. Qed.
  Lemma HLy q i : (q < N)%nat -> (i < nv)%nat -> L' (cy q) i = s i * L (cy (p q)) i.
  Proof. intros Hq Hi. unfold cy. rewrite HL by lia. now rewrite coord_q by lia. Qed.
  Lemma HLz q i : (q < N)%nat -> (i < nv)%nat -> L' (cz q) i = s i * L (cz (p q)) i.
  Proof. intros Hq Hi. unfold cz. rewrite HL by lia. now rewrite coord_q by lia. Qed.

  Lemma zmat_re i j a : (i < nv)%nat -> (j < nv)%nat -> zmat N L' i j a = s i * s j * zmat N L i j a.
  Proof.
    intros Hi Hj. rewrite !zmat_R, <- Rsum_scal.
    match goal with |- _ = Rsum _ ?f => rewrite <- (sum_renumbered N p f Hp) end. apply sum_g. intros q Hq.
    rewrite !HLx, !HLy, !HLz by assumption. destruct a as [|[|a]]; ring.
  Qed.
  Lemma acc_sub_R (l : list nat) (f : nat -> R) x : acc_sub l f x = x - Rsum l f.
  Proof.
    unfold acc_sub. revert x. induction l as [|q l IH]; intros x; cbn [fold_left]; [unfold Rsum; cbn; lra|].
    rewrite IH, Rsum_cons. cbn [nsub Rnum]. lra.
  Qed.
  Lemma wila_re i t : (i < nv)%nat -> wila N geom' w' L' i t = s i * wila N geom w L i t.
  Proof.
    intros Hi.
    assert (G : forall f f' : nat -> R, (forall q, (q < N)%nat -> f' q = s i * f (p q)) -> Sum N f' = s i * Sum N f).
    { intros f f' E. rewrite <- Rsum_scal, <- (sum_renumbered N p (fun q => s i * f q) Hp). apply sum_g. exact E. }
    assert (G2 : forall c (f f' : nat -> R), (forall q, (q < N)%nat -> f' q = s i * f (p q)) -> c * Sum N f' = s i * (c * Sum N f)).
    { intros c f f' E. rewrite (G f f' E). ring. }
    assert (G3 : forall c (f f' : nat -> R), (forall q, (q < N)%nat -> f' q = s i * f (p q)) -> c * (0 - Sum N f') = s i * (c * (0 - Sum N f))).
    { intros c f f' E. rewrite (G f f' E). ring. }
    destruct t as [|[|[|[|[|t]]]]]; unfold wila; rewrite ?nsum_R, ?acc_sub_R, ?range_0, ?nz_R;
      cbn [nmul nadd nsqrt Rnum]; first [apply G2 | apply G3];
      intros q Hq; rewrite Hg, Hw, ?HLx, ?HLy, ?HLz by assumption; ring.
  Qed.
End Atoms.

(** ** eigenvectors *)
Lemma eigen_re n t A A' h V : renumbering n t ->
  (forall a b, (a < n)%nat -> (b < n)%nat -> A' a b = A (t a) (t b)) ->
  eigen_system n A h V -> eigen_system n A' h (fun a i => V (t a) i).
Proof.
  intros Ht HA (Hl & [O1 O2] & He). split; [exact Hl|]. split; [split|].
  - intros a b Ha Hb. rewrite O1 by now apply Ht. unfold delta.
    destruct (Nat.eqb_spec (t a) (t b)) as [E|E], (Nat.eqb_spec a b) as [D|D]; try reflexivity.
    + apply (proj2 Ht a b Ha Hb) in E. contradiction.
    + subst; contradiction.
  - intros a b Ha Hb. rewrite <- (O2 a b Ha Hb). now rewrite <- (sum_renumbered n t (fun k => V k a * V k b) Ht).
  - intros a i x Ha Ex. rewrite <- (He (t a) i x (proj1 Ht a Ha) Ex).
    rewrite <- (sum_renumbered n t (fun b => A (t a) b * V b i) Ht). apply sum_g. intros b Hb. now rewrite HA.
Qed.

Lemma eigvec_unique n A h V V' i : sym2 n A -> eigen_system n A h V -> eigen_system n A h V' ->
  (i < n)%nat -> (forall j, (j < n)%nat -> i <> j -> nth i h 0 <> nth j h 0) ->
  let e := overlap n V V' i i in (e = 1 \/ e = -1) /\ forall a, (a < n)%nat -> V' a i = e * V a i.
Proof.
  intros Sy E1 E2 Hi Hd e.
  assert (Z : forall j, (j < n)%nat -> j <> i -> overlap n V V' j i = 0).
  { intros j Hj Nj. pose proof (proj1 E1) as Lh.
    assert (Ej : nth_error h j = Some (nth j h 0)) by (apply nth_error_nth'; lia).
    assert (Ei : nth_error h i = Some (nth i h 0)) by (apply nth_error_nth'; lia).
    pose proof (overlap_eigen n A h V h V' j i _ _ Sy E1 E2 Hj Hi Ej Ei) as Q.
    assert (D : nth j h 0 - nth i h 0 <> 0). { intros C. apply (Hd j Hj); [auto|lra]. }
    apply (Rmult_eq_reg_l (nth j h 0 - nth i h 0)); [|exact D]. lra. }
  destruct E1 as (Lh & O1 & H1), E2 as (_ & O2 & H2).
  assert (X : forall a, (a < n)%nat -> V' a i = e * V a i).
  { intros a Ha.
    assert (Q : V' a i = Sum n (fun j => V a j * overlap n V V' j i)).
    { unfold overlap. transitivity (Sum n (fun j => Sum n (fun b => V a j * V b j * V' b i))).
      2:{ apply sum_g. intros j Hj. rewrite <- Rsum_scal. apply sum_g. intros. ring. }
      rewrite Rsum_swap. transitivity (Sum n (fun b => delta a b * V' b i)).
      { now rewrite sum_delta. }
      apply sum_g. intros b Hb. rewrite Rsum_scal_r. now rewrite (proj1 O1 a b Ha Hb). }
    rewrite Q. rewrite (Rsum_only _ n i Hi); [unfold e; ring|]. intros j Hj Nj. rewrite Z by assumption. ring. }
  split; [|exact X].
  assert (Q : e * e = 1).
  { pose proof (proj2 O2 i i Hi Hi) as C. unfold delta in C. rewrite Nat.eqb_refl in C.
    pose proof (proj2 O1 i i Hi Hi) as C1. unfold delta in C1. rewrite Nat.eqb_refl in C1.
    rewrite <- C. transitivity (e * e * Sum n (fun k => V k i * V k i)); [rewrite C1; ring|].
    rewrite <- Rsum_scal. apply sum_g. intros k Hk. rewrite X by exact Hk. ring. }
  destruct (Req_dec e 1); [now left|right]. assert ((e - 1) * (e + 1) = 0) as M by lra.
  apply Rmult_integral in M. destruct M; lra.
Qed.

(** ** lists of constants *)
Lemma list3_re n s (v v' : list R) : length v = t3 n -> length v' = t3 n ->
  (forall i j k, (i < n)%nat -> (j < n)%nat -> (k < n)%nat ->
     nth (find3 i j k) v' 0 = s i * s j * s k * nth (find3 i j k) v 0) ->
  forall i j k, nth (find3 i j k) v' 0 = s i * s j * s k * nth (find3 i j k) v 0.
Proof.
  intros L L' E i j k. destruct (Nat.lt_ge_cases (find3 i j k) (t3 n)) as [C|C].
  - apply find3_bound in C as (Hi & Hj & Hk). now apply E.
  - rewrite !nth_overflow by lia. ring.
Qed.
Lemma list4_re n s (v v' : list R) : length v = t4 n -> length v' = t4 n ->
  (forall i j k l, (i < n)%nat -> (j < n)%nat -> (k < n)%nat -> (l < n)%nat ->
     nth (find4 i j k l) v' 0 = s i * s j * s k * s l * nth (find4 i j k l) v 0) ->
  forall i j k l, nth (find4 i j k l) v' 0 = s i * s j * s k * s l * nth (find4 i j k l) v 0.
Proof.
  intros L L' E i j k l. destruct (Nat.lt_ge_cases (find4 i j k l) (t4 n)) as [C|C].
  - apply find4_bound in C as (Hi & Hj & Hk & Hl). now apply E.
  - rewrite !nth_overflow by lia. ring.
Qed.

Lemma nth_error_ext {X} (l l' : list X) : (forall i, nth_error l i = nth_error l' i) -> l = l'.
Proof.
  revert l'. induction l as [|x l IH]; intros [|y l'] E; [reflexivity|specialize (E 0%nat); discriminate|
    specialize (E 0%nat); discriminate|].
  f_equal; [specialize (E 0%nat); cbn in E; congruence|]. apply IH. intros i. apply (E (S i)).
Qed.

(** ** whole runs *)

(** in their own principal axes the two force fields are the same, atom by atom *)
Definition same_field (N : nat) (p : nat -> nat) (axes : nat -> nat -> R) fc2 f3x f4x (axes' : nat -> nat -> R) fc2' f3x' f4x' : Prop :=
  let n := (3 * N)%nat in
  let U := every_atom axes in
  let U' := every_atom axes' in
  let t := coord p in
  (forall a b, (a < n)%nat -> (b < n)%nat -> con2 n U' fc2' a b = con2 n U fc2 (t a) (t b)) /\
  (forall a b c, (a < n)%nat -> (b < n)%nat -> (c < n)%nat -> con3 n U' f3x' a b c = con3 n U f3x (t a) (t b) (t c)) /\
  (forall a b c d, (a < n)%nat -> (b < n)%nat -> (c < n)%nat -> (d < n)%nat ->
     con4 n U' f4x' a b c d = con4 n U f4x (t a) (t b) (t c) (t d)).
(** the same molecule with its atoms numbered anew *)
Definition same_atoms (p : nat -> nat) (m m' : molecule R) : Prop :=
  renumbering (m_natom m) p /\ m_natom m' = m_natom m /\ m_rotor m' = m_rotor m /\ m_nvib m' = m_nvib m /\
  m_rotcon m' = m_rotcon m /\ m_primat m' = m_primat m /\ m_header m' = m_header m /\
  (forall q, (q < m_natom m)%nat -> m_geom m' q = m_geom m (p q) /\ m_w m' q = m_w m (p q)).

Section Runs.
  Context {I : Type}.
  Variables (eig2 eig2' : R -> R -> R -> R * R * (R * R))
    (eig eig' : (nat -> nat -> R) -> list R * (nat -> nat -> R))
    (label : (nat -> R * R * R) -> (nat -> nat -> R) -> nat -> R -> option I) (A : I)
    (buddy buddy' : option nat).
  Context `{Trig R}.

  (** the labels do not depend on the numbering of the atoms or the sign of a displacement *)
  Definition label_ok (p : nat -> nat) (m m' : molecule R) : Prop := forall L L' i tol,
    (forall a, (a < 3 * m_natom m)%nat -> L' a i = L (coord p a) i) \/
    (forall a, (a < 3 * m_natom m)%nat -> L' a i = - L (coord p a) i) ->
    label (m_geom m') L' i tol = label (m_geom m) L i tol.

  Lemma run_same_lemma m m' p axes axes' iatom order iatom' order' fc2 f3x f4x fc2' f3x' f4x' :
    let N := m_natom m in
    let n := m_nvib m in
    (forall a b c, eig_ok eig2 a b c) -> (forall a b c, eig_ok eig2' a b c) ->
    m_rotor m = AsymmTop -> (2 < nth 7 (m_header m) 4)%Z -> (0 < N)%nat -> (0 < n <= 3 * N)%nat ->
    (forall q, (q < N)%nat -> 0 < m_w m q) ->
    same_atoms p m m' -> label_ok p m m' ->
    sym2 (3 * N) fc2 -> tsym3 (3 * N) f3x -> tsym4 (3 * N) f4x ->
    sym2 (3 * N) fc2' -> tsym3 (3 * N) f3x' -> tsym4 (3 * N) f4x' ->
    same_field N p axes fc2 f3x f4x axes' fc2' f3x' f4x' ->
    solves (3 * N) eig (secular N axes fc2 (m_w m)) ->
    solves (3 * N) eig' (secular N axes' fc2' (m_w m')) ->
    (forall freq lxm, harmonic N axes fc2 (m_w m) eig = Some (freq, lxm) ->
       forall i j, (i < n)%nat -> (j < 3 * N)%nat -> i <> j -> nth i freq 0 <> nth j freq 0) ->
    exists fuel0, forall fuel, (fuel0 <= fuel)%nat -> exists o o',
      run eig2 eig label A fuel buddy false m axes iatom order (Quartic fc2 f3x f4x) = Some (FullResult o) /\
      run eig2' eig' label A fuel buddy' false m' axes' iatom' order' (Quartic fc2' f3x' f4x') = Some (FullResult o') /\
      numbers o' = numbers o.
  Proof.
    intros N n He He' Hr Hd HN Hn Hw (Hp & EN & Er & En & Ec & Ej & Eh & Eg) Hlab S2 S3 S4 S2' S3' S4' (F2 & F3 & F4) Sv Sv' Dist.
    assert (Hw' : forall q, (q < N)%nat -> 0 < m_w m' q).
    { intros q Hq. rewrite (proj2 (Eg q Hq)). apply Hw, Hp, Hq. }
    pose proof (coord_renumbering N p Hp) as Ht.
    destruct (harmonic_run _ _ _ _ _ Sv) as (h & V & E & He1 & Hs1).
    destruct (harmonic_run _ _ _ _ _ Sv') as (h' & V' & E' & He1' & Hs1').
    set (B := secular N axes' fc2' (m_w m')) in *.
    assert (SB : sym2 (3 * N) B).
    { intros a b Ha Hb. unfold B. rewrite !secular_R by assumption. apply (weighted_sym N); try assumption.
      intros x y Hx Hy. apply con2_sym. exact S2'. }
    assert (EB : eigen_system (3 * N) B h (fun a i => V (coord p a) i)).
    { apply (eigen_re (3 * N) (coord p) (secular N axes fc2 (m_w m))); [exact Ht| |exact He1].
      intros a b Ha Hb. unfold B. rewrite !secular_R by (try assumption; now apply Ht).
      unfold weighted. rewrite F2 by assumption.
      assert (Q : forall x, (x < 3 * N)%nat -> m_w m' (x / 3)%nat = m_w m (coord p x / 3)%nat).
      { intros x Hx. rewrite (proj2 (Eg (x / 3)%nat (block_lt _ _ Hx))). f_equal. unfold coord.
        apply (Nat.div_unique _ 3 _ (x mod 3)); [apply Nat.mod_upper_bound; lia|reflexivity]. }
      now rewrite !Q by assumption. }
    assert (h' = h) as ->.
    { apply sorted_unique; try assumption. now apply (eigenvalues_unique (3 * N) B h' V' h (fun a i => V (coord p a) i)). }
    set (freq := map to_wavenumber h) in *.
    pose proof (proj1 He1) as Lh.
    assert (Lf : length freq = (3 * N)%nat) by (unfold freq; now rewrite map_length).
    assert (Nf : forall i, (i < 3 * N)%nat -> nth i freq 0 = to_wavenumber (nth i h 0)).
    { intros i Hi. unfold freq. rewrite (nth_indep _ 0 (to_wavenumber 0)) by (rewrite map_length; lia). apply map_nth. }
    assert (Dh : forall i j, (i < n)%nat -> (j < 3 * N)%nat -> i <> j -> nth i h 0 <> nth j h 0).
    { intros i j Hi Hj Hij C. apply (Dist freq V E i j Hi Hj Hij). rewrite !Nf by lia. now rewrite C. }
    set (s := fun i => if (i <? n)%nat then overlap (3 * N) (fun a i => V (coord p a) i) V' i i else 1).
    assert (Un : forall i, (i < n)%nat -> (s i = 1 \/ s i = -1) /\ forall a, (a < 3 * N)%nat -> V' a i = s i * V (coord p a) i).
    { intros i Hi. unfold s. replace (i <? n)%nat with true by (symmetry; now apply Nat.ltb_lt).
      apply (eigvec_unique (3 * N) B h); try assumption; [lia|]. intros j Hj Hij. now apply Dh. }
    assert (Hs : forall i, s i = 1 \/ s i = -1).
    { intros i. destruct (Nat.lt_ge_cases i n) as [C|C]; [now apply Un|]. unfold s.
      replace (i <? n)%nat with false by (symmetry; now apply Nat.ltb_ge). now left. }
    assert (HV : forall a i, (a < 3 * N)%nat -> (i < n)%nat -> V' a i = s i * V (coord p a) i).
    { intros a i Ha Hi. now apply Un. }
    set (lx := make_lx (3 * N) (make_sqm (m_w m)) V).
    set (lx' := make_lx (3 * N) (make_sqm (m_w m')) V').
    assert (HX : forall a i, (a < 3 * N)%nat -> (i < n)%nat -> lx' a i = s i * lx (coord p a) i).
    { intros a i Ha Hi. pose proof (proj1 Ht a Ha) as Hta. unfold lx, lx'. rewrite !make_lx_eq by lia. rewrite HV by lia.
      unfold make_sqm. rewrite nz_R. cbn [nmul ndiv nsqrt Rnum].
      assert (Q : m_w m' (a / 3)%nat = m_w m (coord p a / 3)%nat).
      { rewrite (proj2 (Eg (a / 3)%nat (block_lt _ _ Ha))). f_equal. unfold coord.
        apply (Nat.div_unique _ 3 _ (a mod 3)); [apply Nat.mod_upper_bound; lia|reflexivity]. }
      rewrite Q. unfold Rdiv. ring. }
    destruct labels_end_R as (f0 & Hf0). exists f0. intros fuel Hfu.
    assert (Hr' : m_rotor m' = AsymmTop) by congruence.
    destruct (run_prefix eig2 eig label A fuel buddy false m axes iatom order (Quartic fc2 f3x f4x)
      freq V V lx) as (irreps & Li & Fi & R1).
    { rewrite Hr; discriminate. } { rewrite Hr; discriminate. } { now apply Hf0. } { exact E. }
    { unfold aligned. rewrite Hr. split; reflexivity. }
    destruct (run_prefix eig2' eig' label A fuel buddy' false m' axes' iatom' order' (Quartic fc2' f3x' f4x')
      freq V' V' lx') as (irreps' & Li' & Fi' & R2).
    { rewrite Hr'; discriminate. } { rewrite Hr'; discriminate. } { now apply Hf0. } { rewrite EN. exact E'. }
    { unfold aligned. rewrite Hr'. unfold lx'. rewrite EN. split; reflexivity. }
    assert (irreps' = irreps) as ->.
    { apply nth_error_ext. intros i.
      destruct (nth_error irreps' i) as [x|] eqn:Ex, (nth_error irreps i) as [y|] eqn:Ey.
      - apply Fi' in Ex as Gx. apply Fi in Ey as Gy. apply found_R in Gx, Gy. f_equal.
        assert (Hi : (i < n)%nat).
        { assert (i < length irreps)%nat by (apply nth_error_Some; congruence). rewrite Li in H0. fold n in H0. lia. }
        eapply label_unique; [|exact Gy].
        assert (Q : label (m_geom m') V' i = label (m_geom m) V i).
        { extensionality tol. apply Hlab. fold N. destruct (Hs i) as [Q|Q]; [left|right]; intros a Ha;
            rewrite HV by assumption; rewrite Q; ring. }
        destruct Gx as (k & Gk & Gx). exists k. rewrite <- Q. split; assumption.
      - apply nth_error_None in Ey. assert (i < length irreps')%nat by (apply nth_error_Some; congruence).
        rewrite Li', EN, En in H0. rewrite Li in Ey. lia.
      - apply nth_error_None in Ex. assert (i < length irreps)%nat by (apply nth_error_Some; congruence).
        rewrite Li', EN, En in Ex. rewrite Li in H0. lia.
      - reflexivity. }
    assert (Wf : (fun i => nth i freq (nz 0)) = (fun i => nth i freq 0)) by (rewrite nz_R; reflexivity).
    rewrite Wf in R1, R2. set (w := fun i => nth i freq 0) in *.
    rewrite EN, En in R2. fold N n in R1, R2.
    destruct (force3_lemma (3 * N) (rot3rd N (3 * N) axes f3x) lx n w (proj1 Hn) (proj1 (proj2 (rot_sym_lemma N axes)) f3x S3))
      as (f3l & E3 & L3 & G3).
    destruct (force4_lemma (3 * N) (rot4th N (3 * N) axes f4x) lx n w (proj1 Hn) (proj2 (proj2 (rot_sym_lemma N axes)) f4x S4))
      as (f4l & E4 & L4 & G4).
    destruct (force3_lemma (3 * N) (rot3rd N (3 * N) axes' f3x') lx' n w (proj1 Hn) (proj1 (proj2 (rot_sym_lemma N axes')) f3x' S3'))
      as (f3l' & E3' & L3' & G3').
    destruct (force4_lemma (3 * N) (rot4th N (3 * N) axes' f4x') lx' n w (proj1 Hn) (proj2 (proj2 (rot_sym_lemma N axes')) f4x' S4'))
      as (f4l' & E4' & L4' & G4').
    rewrite E3 in R1. cbn [obind] in R1. rewrite E4 in R1. cbn [obind] in R1.
    rewrite E3' in R2. cbn [obind] in R2. rewrite E4' in R2. cbn [obind] in R2.
    destruct (finish_total_lemma eig2 m freq f3l f4l irreps V lx (singles n)) as (o & Eo & _).
    { rewrite Hr; discriminate. } { rewrite Hr; discriminate. }
    { rewrite Hr. apply deg_modes_asym_lemma; auto. } { apply singles_part. } { apply comparable_R. }
    { fold n. lia. } { exact HN. } { intros _. exact Hd. }
    destruct (finish_same eig2 eig2' m m' s freq f3l f4l f3l' f4l' irreps V lx V' lx' o) as (o' & Eo' & Q); try assumption.
    - rewrite EN. exact HN.
    - now rewrite Eh.
    - intros i t Hi. rewrite EN. fold N.
      apply (wila_re N p s V V' n (m_geom m) (m_geom m') (m_w m) (m_w m')); try assumption.
      + intros q Hq. apply Eg, Hq.
      + intros q Hq. apply Eg, Hq.
    - intros i j a Hi Hj. rewrite EN. fold N. apply (zmat_re N p s V V' n (m_geom m) (m_geom m') (m_w m) (m_w m')); try assumption.
      + intros q Hq. apply Eg, Hq.
      + intros q Hq. apply Eg, Hq.
    - rewrite nz_R. apply (list3_re n); [now rewrite L3, t3_div|now rewrite L3', t3_div|].
      intros i j k Hi Hj Hk.
      pose proof (G3 i j k Hi Hj Hk) as X. pose proof (G3' i j k Hi Hj Hk) as X'. unfold f3qcm_get in X, X'.
      rewrite (nth_error_nth _ _ 0 X), (nth_error_nth _ _ 0 X').
      unfold cubic_spec.
      rewrite (con3_re (3 * N) (coord p) s lx lx' n Ht HX (rot3rd N (3 * N) axes f3x)); try assumption.
      + ring.
      + intros a b c Ha Hb Hc. rewrite !rot3rd_lemma by (try assumption; now apply Ht). now apply F3.
    - rewrite nz_R. apply (list4_re n); [now rewrite L4, t4_div|now rewrite L4', t4_div|].
      intros i j k l Hi Hj Hk Hl.
      pose proof (G4 i j k l Hi Hj Hk Hl) as X. pose proof (G4' i j k l Hi Hj Hk Hl) as X'. unfold f4qcm_get in X, X'.
      rewrite (nth_error_nth _ _ 0 X), (nth_error_nth _ _ 0 X').
      unfold quartic_spec.
      rewrite (con4_re (3 * N) (coord p) s lx lx' n Ht HX (rot4th N (3 * N) axes f4x)); try assumption.
      + ring.
      + intros a b c d Ha Hb Hc Hd'. rewrite !rot4th_lemma by (try assumption; now apply Ht). now apply F4.
    - rewrite Eo in R1. rewrite Eo' in R2. cbn [obind] in R1, R2. exists o, o'. auto.
  Qed.
End Runs.
