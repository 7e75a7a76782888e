(** Lemmas about normal modes: eigen systems, orientation, translation. *)
From Coq Require Import Reals Lra List ZArith Arith Lia Bool Permutation Sorted.
From Verif Require Import Num Loops Index ListFacts IndexFacts ResFacts Anharm AnharmFacts Transform
  TransformFacts RotFacts NormalFacts HarmFacts.
Import ListNotations.
Open Scope nat_scope.
Local Open Scope R_scope.

(** ** small matrix algebra *)
Definition meq (n : nat) (A B : nat -> nat -> R) : Prop :=
  forall a b, (a < n)%nat -> (b < n)%nat -> A a b = B a b.
(** orthogonal matrix: orthonormal rows and columns *)
Definition orth (n : nat) (U : nat -> nat -> R) : Prop :=
  (forall a b, (a < n)%nat -> (b < n)%nat -> Sum n (fun k => U a k * U b k) = delta a b) /\
  (forall a b, (a < n)%nat -> (b < n)%nat -> Sum n (fun k => U k a * U k b) = delta a b).
(** the [i]-th value belongs to the [i]-th column, and the columns are orthonormal *)
Definition eigen_system (n : nat) (A : nat -> nat -> R) (vals : list R) (V : nat -> nat -> R) : Prop :=
  length vals = n /\ orth n V /\
  forall a i x, (a < n)%nat -> nth_error vals i = Some x ->
    Sum n (fun b => A a b * V b i) = x * V a i.

Lemma sum_g n f g : (forall i, (i < n)%nat -> f i = g i) -> Sum n f = Sum n g.
Proof. intros E. apply Rsum_ext. intros i Hi. apply in_seq in Hi. apply E. lia. Qed.
Lemma sum_delta n (f : nat -> R) a : (a < n)%nat -> Sum n (fun k => delta a k * f k) = f a.
Proof.
  intros Ha. rewrite (Rsum_only _ n a Ha).
  - unfold delta. rewrite Nat.eqb_refl. ring.
  - intros k _ Hk. unfold delta. destruct (Nat.eqb_spec a k); [congruence|ring].
Qed.
Lemma mprod_assoc n A B C a b : mprod n (mprod n A B) C a b = mprod n A (mprod n B C) a b.
Proof.
  unfold mprod.
  transitivity (Sum n (fun s => Sum n (fun t => A a t * B t s * C s b))).
  { apply sum_g. intros s _. now rewrite Rsum_scal_r. }
  rewrite Rsum_swap. apply sum_g. intros t _. rewrite <- Rsum_scal. apply sum_g. intros. ring.
Qed.
Lemma mprod_l n A A' B a b : (forall k, (k < n)%nat -> A a k = A' a k) -> mprod n A B a b = mprod n A' B a b.
Proof. intros E. apply sum_g. intros k Hk. now rewrite E. Qed.
Lemma mprod_r n A B B' a b : (forall k, (k < n)%nat -> B k b = B' k b) -> mprod n A B a b = mprod n A B' a b.
Proof. intros E. apply sum_g. intros k Hk. now rewrite E. Qed.
Lemma mprod_delta_l n A a b : (a < n)%nat -> mprod n delta A a b = A a b.
Proof. intros Ha. unfold mprod. now apply (sum_delta n (fun k => A k b)). Qed.
Lemma delta_sym a b : delta a b = delta b a.
Proof. unfold delta. now rewrite Nat.eqb_sym. Qed.
Lemma orth_rows n U a b : orth n U -> (a < n)%nat -> (b < n)%nat -> mprod n U (tr U) a b = delta a b.
Proof. intros [H _]. apply H. Qed.
Lemma orth_cols n U a b : orth n U -> (a < n)%nat -> (b < n)%nat -> mprod n (tr U) U a b = delta a b.
Proof. intros [_ H]. apply H. Qed.
Lemma tr_mprod n U V a b : tr (mprod n U V) a b = mprod n (tr V) (tr U) a b.
Proof. unfold tr, mprod. apply sum_g. intros. ring. Qed.
Lemma orth_tr n U : orth n U -> orth n (tr U).
Proof. intros [H1 H2]. split; assumption. Qed.
Lemma orth_mprod n U V : orth n U -> orth n V -> orth n (mprod n U V).
Proof.
  assert (H : forall U V, orth n U -> orth n V -> forall a b, (a < n)%nat -> (b < n)%nat ->
    mprod n (mprod n U V) (tr (mprod n U V)) a b = delta a b).
  { intros U' V' HU HV a b Ha Hb. rewrite mprod_assoc.
    rewrite (mprod_r n U' _ (tr U')); [now apply orth_rows|]. intros k Hk.
    rewrite (mprod_r n V' _ (mprod n (tr V') (tr U'))) by (intros; apply tr_mprod).
    rewrite <- mprod_assoc. rewrite (mprod_l n _ delta); [now apply mprod_delta_l|].
    intros m Hm. now apply orth_rows. }
  intros HU HV. split; [now apply H|]. intros a b Ha Hb.
  rewrite <- (H (tr V) (tr U)) with (a := a) (b := b); try assumption; try now apply orth_tr.
  apply sum_g. intros k Hk. unfold tr at 3. rewrite <- !tr_mprod. reflexivity.
Qed.

Lemma every_atom_orth N axes : orth 3 axes -> orth (3 * N) (every_atom axes).
Proof.
  intros H.
  assert (G : forall ax, orthonormal_rows ax -> forall a b, (a < 3 * N)%nat -> (b < 3 * N)%nat ->
    Sum (3 * N) (fun k => every_atom ax a k * every_atom ax b k) = delta a b).
  { intros ax Hx a b Ha Hb. rewrite <- (every_atom_inv N ax a b Hx Ha Hb). unfold mprod.
    apply sum_g. intros k Hk. f_equal. unfold every_atom, tr. now rewrite Nat.eqb_sym. }
  split.
  - apply G. exact (proj1 H).
  - intros a b Ha Hb. rewrite <- (G (tr axes)); try assumption.
    + apply sum_g. intros k Hk. unfold every_atom, tr. now rewrite (Nat.eqb_sym (k / 3) (a / 3)), (Nat.eqb_sym (k / 3) (b / 3)).
    + intros i j Hi Hj. now apply H.
Qed.

(** ** eigen systems *)
Lemma eigen_turn n U S vals V : orth n U -> eigen_system n (con2 n U S) vals V ->
  eigen_system n S vals (mprod n U V).
Proof.
  intros HU (Hl & HV & He). split; [exact Hl|]. split; [now apply orth_mprod|].
  intros a i x Ha Ex.
  assert (E : forall b, (b < n)%nat -> mprod n (tr U) (mprod n S (mprod n U V)) b i = x * V b i).
  { intros b Hb. rewrite <- (He b i x Hb Ex). unfold con2, con1, mprod, tr.
    transitivity (Sum n (fun k => Sum n (fun s => Sum n (fun t => U k b * S k s * U s t * V t i)))).
    { apply sum_g. intros k _. rewrite <- Rsum_scal. apply sum_g. intros s _.
      rewrite <- !Rsum_scal. apply sum_g. intros. ring. }
    transitivity (Sum n (fun k => Sum n (fun t => Sum n (fun s => U k b * S k s * U s t * V t i)))).
    { apply sum_g. intros k _. apply Rsum_swap. }
    rewrite Rsum_swap. apply sum_g. intros t _. rewrite <- Rsum_scal_r. apply sum_g. intros k _.
    rewrite Rmult_assoc, <- Rsum_scal_r, <- Rsum_scal. apply sum_g. intros. ring. }
  change (mprod n S (mprod n U V) a i = x * mprod n U V a i).
  transitivity (mprod n (mprod n U (tr U)) (mprod n S (mprod n U V)) a i).
  { rewrite (mprod_l n (mprod n U (tr U)) delta); [now rewrite mprod_delta_l|]. intros k Hk. now apply orth_rows. }
  rewrite mprod_assoc. rewrite (mprod_r n U _ (fun b i => x * V b i)) by (intros; now apply E).
  unfold mprod. rewrite <- Rsum_scal. apply sum_g. intros. ring.
Qed.

Definition hits (x y : R) : R := if Req_EM_T x y then 1 else 0.
Lemma count_sum (l : list R) x :
  INR (count_occ Req_EM_T l x) = Rsum (map (fun y => hits y x) l) (fun z => z).
Proof.
  induction l as [|y l IH]; [reflexivity|]. cbn [map count_occ]. rewrite Rsum_cons. unfold hits at 1.
  destruct (Req_EM_T y x); [rewrite S_INR, IH|rewrite IH]; ring.
Qed.
Lemma count_sum_nth (l : list R) x :
  INR (count_occ Req_EM_T l x) = Sum (length l) (fun i => hits (nth i l 0) x).
Proof.
  rewrite count_sum, Rsum_map. symmetry.
  transitivity (Rsum (map (fun i => nth i l 0) (seq 0 (length l))) (fun y => hits y x)).
  - now rewrite Rsum_map.
  - f_equal. clear. induction l as [|y l IH]; [reflexivity|].
    cbn [length seq map nth]. rewrite <- seq_shift, map_map. f_equal. exact IH.
Qed.

Definition sym2 (n : nat) (A : nat -> nat -> R) : Prop :=
  forall a b, (a < n)%nat -> (b < n)%nat -> A a b = A b a.

(** overlaps of two orthogonal matrices *)
Definition overlap n (V W : nat -> nat -> R) i j : R := Sum n (fun a => V a i * W a j).
Lemma overlap_orth n V W : orth n V -> orth n W -> orth n (overlap n V W).
Proof.
  intros HV HW. pose proof (orth_mprod n (tr V) W (orth_tr n V HV) HW) as H. exact H.
Qed.
Lemma overlap_eigen n A h V h' V' i j x y : sym2 n A ->
  eigen_system n A h V -> eigen_system n A h' V' ->
  (i < n)%nat -> (j < n)%nat -> nth_error h i = Some x -> nth_error h' j = Some y ->
  x * overlap n V V' i j = y * overlap n V V' i j.
Proof.
  intros Sy (_ & _ & H1) (_ & _ & H2) Hi Hj Ex Ey. unfold overlap. rewrite <- !Rsum_scal.
  transitivity (Sum n (fun a => Sum n (fun b => A a b * V b i * V' a j))).
  { apply sum_g. intros a Ha. rewrite Rsum_scal_r, (H1 a i x Ha Ex). ring. }
  rewrite Rsum_swap. apply sum_g. intros b Hb.
  transitivity (V b i * Sum n (fun a => A b a * V' a j)).
  { rewrite <- Rsum_scal. apply sum_g. intros a Ha. rewrite (Sy a b Ha Hb). ring. }
  rewrite (H2 b j y Hb Ey). ring.
Qed.

Lemma eigenvalues_unique n A h V h' V' : sym2 n A ->
  eigen_system n A h V -> eigen_system n A h' V' -> Permutation h h'.
Proof.
  intros Sy E1 E2. apply (Permutation_count_occ Req_EM_T). intros x. apply INR_eq.
  rewrite !count_sum_nth. destruct E1 as (L1 & O1 & H1), E2 as (L2 & O2 & H2). rewrite L1, L2.
  pose proof (overlap_orth n V V' O1 O2) as [R1 C1].
  set (P := overlap n V V') in *.
  transitivity (Sum n (fun i => Sum n (fun j => hits (nth i h 0) x * (P i j * P i j)))).
  { apply sum_g. intros i Hi. rewrite Rsum_scal, (R1 i i Hi Hi). unfold delta. rewrite Nat.eqb_refl. ring. }
  transitivity (Sum n (fun i => Sum n (fun j => hits (nth j h' 0) x * (P i j * P i j)))).
  2: { rewrite Rsum_swap. apply sum_g. intros j Hj. rewrite Rsum_scal, (C1 j j Hj Hj).
       unfold delta. rewrite Nat.eqb_refl. ring. }
  apply sum_g. intros i Hi. apply sum_g. intros j Hj.
  destruct (nth_error h i) as [y|] eqn:Ey; [|apply nth_error_None in Ey; lia].
  destruct (nth_error h' j) as [z|] eqn:Ez; [|apply nth_error_None in Ez; lia].
  rewrite (nth_error_nth h i 0 Ey), (nth_error_nth h' j 0 Ez).
  assert (Q : y * P i j = z * P i j).
  { apply (overlap_eigen n A h V h' V' i j y z); try assumption; repeat split; try assumption; apply O1 || apply O2. }
  destruct (Req_dec (P i j) 0) as [->|Nz]; [ring|].
  assert (y = z) as -> by (apply (Rmult_eq_reg_r (P i j)); assumption). reflexivity.
Qed.

Lemma sorted_unique (l l' : list R) :
  StronglySorted Rge l -> StronglySorted Rge l' -> Permutation l l' -> l = l'.
Proof.
  revert l'. induction l as [|x l IH]; intros l' S1 S2 Hp.
  - apply Permutation_nil in Hp. now subst.
  - destruct l' as [|y l']; [symmetry in Hp; apply Permutation_nil in Hp; discriminate|].
    apply StronglySorted_inv in S1 as [S1 F1]. apply StronglySorted_inv in S2 as [S2 F2].
    rewrite Forall_forall in F1, F2.
    assert (x = y) as ->.
    { assert (In x (y :: l')) as Ix by (apply (Permutation_in _ Hp); now left).
      assert (In y (x :: l)) as Iy by (apply (Permutation_in _ (Permutation_sym Hp)); now left).
      destruct Ix as [->|Ix]; [reflexivity|]. destruct Iy as [->|Iy]; [reflexivity|].
      pose proof (F1 y Iy). pose proof (F2 x Ix). lra. }
    f_equal. apply IH; try assumption. apply Permutation_cons_inv in Hp. exact Hp.
Qed.

Lemma Rsum_perm {A} (f : A -> R) l l' : Permutation l l' -> Rsum l f = Rsum l' f.
Proof.
  induction 1; rewrite ?Rsum_cons; try congruence; lra.
Qed.
Lemma map_nth_seq {A} (l : list A) d : map (fun i => nth i l d) (seq 0 (length l)) = l.
Proof.
  induction l as [|y l IH]; [reflexivity|].
  cbn [length seq map nth]. rewrite <- seq_shift, map_map. f_equal. exact IH.
Qed.

(** sorting keeps an eigen system *)
Lemma sort_eigen_system n A vals V : eigen_system n A vals V ->
  exists vals' V', sort_eigen vals V n true = Some (vals', V') /\
    eigen_system n A vals' V' /\ StronglySorted Rge vals'.
Proof.
  intros (Hl & [O1 O2] & He). destruct (sort_eigen_lemma vals V true) as [(vals' & V' & sg & E & L & Hp & Hc & Hs) _].
  rewrite Hl in *. exists vals', V'. split; [exact E|].
  assert (Lg : length sg = n) by (rewrite (Permutation_length Hp); apply seq_length).
  assert (Sg : forall i, (i < n)%nat -> (nth i sg 0%nat < n)%nat /\ nth_error vals' i = nth_error vals (nth i sg 0%nat)
      /\ forall a, V' a i = V a (nth i sg 0%nat)).
  { intros i Hi. destruct (Hc i Hi) as (s & Es & Ev & Ea).
    rewrite (nth_error_nth sg i 0%nat Es). split; [|split; assumption].
    apply nth_error_In in Es. apply (Permutation_in _ Hp) in Es. apply in_seq in Es. lia. }
  split; [split; [assumption|split; [split|]]|].
  - intros a b Ha Hb. rewrite <- (O1 a b Ha Hb).
    transitivity (Rsum sg (fun s => V a s * V b s)).
    + rewrite <- (map_nth_seq sg 0%nat), Rsum_map, Lg. apply sum_g. intros i Hi.
      destruct (Sg i Hi) as (_ & _ & Ea). now rewrite !Ea.
    + now apply Rsum_perm.
  - intros i j Hi Hj. destruct (Sg i Hi) as (Bi & _ & Ei), (Sg j Hj) as (Bj & _ & Ej).
    transitivity (delta (nth i sg 0%nat) (nth j sg 0%nat)).
    + rewrite <- (O2 _ _ Bi Bj). apply sum_g. intros k _. now rewrite Ei, Ej.
    + unfold delta. assert (ND : NoDup sg) by (apply (Permutation_NoDup (Permutation_sym Hp)), seq_NoDup).
      destruct (Nat.eqb_spec i j) as [->|Ne]; [now rewrite Nat.eqb_refl|].
      destruct (Nat.eqb_spec (nth i sg 0%nat) (nth j sg 0%nat)) as [Eq|]; [|reflexivity].
      exfalso. apply Ne. apply (proj1 (NoDup_nth sg 0%nat) ND); lia.
  - intros a i x Ha Ex. assert (Hi : (i < n)%nat) by (rewrite <- L; apply nth_error_Some; congruence).
    destruct (Sg i Hi) as (Bi & Ev & Ei). rewrite Ev in Ex. rewrite Ei, <- (He a _ x Ha Ex).
    apply sum_g. intros b _. now rewrite Ei.
  - assert (G : forall k l, (forall i j x y, (i < j)%nat -> nth_error l i = Some x -> nth_error l j = Some y -> x >= y) ->
      k = length l -> StronglySorted Rge l).
    { intros k l. revert k. induction l as [|x l IH]; intros k H _; [constructor|]. constructor.
      - apply (IH (length l)); [|reflexivity]. intros i j x' y' Hij E1 E2. apply (H (S i) (S j)); try assumption. lia.
      - apply Forall_forall. intros y Hy. apply In_nth_error in Hy as [j Ej].
        apply (H O (S j)); [lia|reflexivity|exact Ej]. }
    apply (G n); [|now symmetry]. intros i j x y Hij Ex Ey.
    assert (Hi : (i < n)%nat) by (rewrite <- L; apply nth_error_Some; congruence).
    assert (Hj : (j < n)%nat) by (rewrite <- L; apply nth_error_Some; congruence).
    destruct (Hc i Hi) as (s & Es & _), (Hc j Hj) as (t & Et & _).
    destruct (Hs i j x y s t Hij Ex Ey Es Et) as [H|[-> _]]; lra.
Qed.

(** ** the secular matrix is the turned mass-weighted matrix *)
Definition weighted (w : nat -> R) (f : nat -> nat -> R) (a b : nat) : R :=
  FACT2 * f a b / (sqrt (w (a / 3)%nat) * sqrt (w (b / 3)%nat)).
Lemma secular_R N axes f w a b : sym2 (3 * N) f -> (forall q, (q < N)%nat -> 0 < w q) ->
  (a < 3 * N)%nat -> (b < 3 * N)%nat ->
  secular N axes f w a b = weighted w (con2 (3 * N) (every_atom axes) f) a b.
Proof.
  intros Sy Hw Ha Hb. unfold secular. cbv zeta.
  destruct (form_sec_any_lemma (3 * N) (fun a b => nmul FACT2 (rot2nd N axes f a b)) (fun _ _ => 0) (make_sqm w) a b Ha Hb)
    as [E _]. rewrite E. unfold weighted, make_sqm. rewrite nz_R. cbn [nmul ndiv nsqrt Rnum].
  assert (Sp : forall x, (x < 3 * N)%nat -> sqrt (w (x / 3)%nat) <> 0).
  { intros x Hx. apply Rgt_not_eq, sqrt_lt_R0, Hw. now apply block_lt. }
  assert (S2 : con2 (3 * N) (every_atom axes) f a b = con2 (3 * N) (every_atom axes) f b a).
  { apply con2_sym. exact Sy. }
  destruct (Nat.le_ge_cases a b) as [L|L].
  - rewrite Nat.min_l, Nat.max_r by lia. rewrite rot2nd_lemma by assumption. field. split; now apply Sp.
  - rewrite Nat.min_r, Nat.max_l by lia. rewrite rot2nd_lemma by assumption. rewrite S2. field. split; now apply Sp.
Qed.

Lemma weighted_turn N axes f w a b :
  (forall q, (q < N)%nat -> 0 < w q) -> (a < 3 * N)%nat -> (b < 3 * N)%nat ->
  weighted w (con2 (3 * N) (every_atom axes) f) a b = con2 (3 * N) (every_atom axes) (weighted w f) a b.
Proof.
  intros Hw Ha Hb.
  assert (Sp : forall x, (x < 3 * N)%nat -> sqrt (w (x / 3)%nat) <> 0).
  { intros x Hx. apply Rgt_not_eq, sqrt_lt_R0, Hw. now apply block_lt. }
  unfold weighted, con2, con1 at 1 3, Rdiv. rewrite Rmult_assoc, (Rmult_comm FACT2).
  rewrite <- !Rsum_scal_r. apply sum_g. intros r Hr. unfold con1.
  rewrite !Rmult_assoc. rewrite <- Rsum_scal_r.
  destruct (Nat.eq_dec (r / 3) (a / 3)) as [Er|Er].
  2: { unfold every_atom at 1 3. destruct (Nat.eqb_spec (r / 3) (a / 3)); [contradiction|]. ring. }
  f_equal. apply sum_g. intros s Hs.
  destruct (Nat.eq_dec (s / 3) (b / 3)) as [Es|Es].
  2: { unfold every_atom. destruct (Nat.eqb_spec (s / 3) (b / 3)); [contradiction|]. ring. }
  rewrite Er, Es. ring.
Qed.

Lemma weighted_sym N w f : sym2 (3 * N) f -> sym2 (3 * N) (weighted w f).
Proof. intros Sy a b Ha Hb. unfold weighted. rewrite (Sy a b Ha Hb), (Rmult_comm (sqrt (w (a / 3)%nat))). reflexivity. Qed.
Lemma eigen_system_ext n A B vals V : meq n A B -> eigen_system n A vals V -> eigen_system n B vals V.
Proof.
  intros E (Hl & HO & He). split; [exact Hl|]. split; [exact HO|]. intros a i x Ha Ex.
  rewrite <- (He a i x Ha Ex). apply sum_g. intros b Hb. now rewrite E.
Qed.

(** what the eigensolver promises for the matrix [A] *)
Definition solves (n : nat) (eig : (nat -> nat -> R) -> list R * (nat -> nat -> R)) (A : nat -> nat -> R) : Prop :=
  eigen_system n A (fst (eig A)) (snd (eig A)).

Lemma harmonic_run N axes f w eig :
  solves (3 * N) eig (secular N axes f w) ->
  exists h lxm, harmonic N axes f w eig = Some (map to_wavenumber h, lxm) /\
    eigen_system (3 * N) (secular N axes f w) h lxm /\ StronglySorted Rge h.
Proof.
  unfold solves, harmonic. destruct (eig (secular N axes f w)) as [vals vecs]. cbn [fst snd]. intros H.
  destruct (sort_eigen_system _ _ _ _ H) as (h & V & E & He & Hs). rewrite E. cbn [obind].
  now exists h, V.
Qed.

(** C66 *)
Lemma orientation_lemma N axes axes' f w eig eig' :
  sym2 (3 * N) f -> (forall q, (q < N)%nat -> 0 < w q) -> orth 3 axes -> orth 3 axes' ->
  solves (3 * N) eig (secular N axes f w) -> solves (3 * N) eig' (secular N axes' f w) ->
  exists freq lxm lxm', harmonic N axes f w eig = Some (freq, lxm) /\
    harmonic N axes' f w eig' = Some (freq, lxm').
Proof.
  intros Sy Hw O O' S S'.
  destruct (harmonic_run _ _ _ _ _ S) as (h & V & E & He & Hs).
  destruct (harmonic_run _ _ _ _ _ S') as (h' & V' & E' & He' & Hs').
  assert (h = h') as <-; [|now exists (map to_wavenumber h), V, V'].
  apply sorted_unique; try assumption.
  assert (T : forall ax, meq (3 * N) (secular N ax f w) (con2 (3 * N) (every_atom ax) (weighted w f))).
  { intros ax a b Ha Hb. rewrite secular_R by assumption. now apply weighted_turn. }
  eapply (eigenvalues_unique (3 * N) (weighted w f)); [now apply weighted_sym| |].
  - eapply eigen_turn; [apply every_atom_orth, O|]. eapply eigen_system_ext; [apply T|exact He].
  - eapply eigen_turn; [apply every_atom_orth, O'|]. eapply eigen_system_ext; [apply T|exact He'].
Qed.

(** C65 *)
Lemma normal_modes_lemma N axes f w eig :
  sym2 (3 * N) f -> (forall q, (q < N)%nat -> 0 < w q) ->
  solves (3 * N) eig (secular N axes f w) ->
  exists freq lxm, harmonic N axes f w eig = Some (freq, lxm) /\ length freq = (3 * N)%nat /\
    let lx := make_lx (3 * N) (make_sqm w) lxm in
    let hess := fun a b => FACT2 * con2 (3 * N) (every_atom axes) f a b in
    (forall i j, (i < 3 * N)%nat -> (j < 3 * N)%nat ->
       Sum (3 * N) (fun a => w (a / 3)%nat * lx a i * lx a j) = (if Nat.eqb i j then 1 else 0)) /\
    (forall i j, (i < 3 * N)%nat -> (j < 3 * N)%nat -> i <> j -> con2 (3 * N) lx hess i j = 0) /\
    (forall i, (i < 3 * N)%nat -> nth_error freq i = Some (to_wavenumber (con2 (3 * N) lx hess i i))) /\
    StronglySorted Rge freq.
Proof.
  intros Sy Hw S. destruct (harmonic_run _ _ _ _ _ S) as (h & V & E & (Hl & HO & He) & Hs).
  exists (map to_wavenumber h), V. split; [exact E|]. split; [now rewrite map_length|]. cbv zeta.
  set (n := (3 * N)%nat) in *. set (lx := make_lx n (make_sqm w) V).
  assert (Sp : forall x, (x < n)%nat -> 0 < sqrt (w (x / 3)%nat)).
  { intros x Hx. apply sqrt_lt_R0, Hw. now apply block_lt. }
  assert (Lx : forall a i, (a < n)%nat -> (i < n)%nat -> lx a i = V a i / sqrt (w (a / 3)%nat)).
  { intros a i Ha Hi. unfold lx. rewrite make_lx_eq by assumption. unfold make_sqm. rewrite nz_R.
    cbn [nmul ndiv nsqrt Rnum]. unfold Rdiv. ring. }
  assert (G : forall i j x, (i < n)%nat -> (j < n)%nat -> nth_error h j = Some x ->
    con2 n lx (fun a b => FACT2 * con2 n (every_atom axes) f a b) i j = x * delta i j).
  { intros i j x Hi Hj Ex. unfold con2 at 1.
    transitivity (Sum n (fun a => V a i * (x * V a j))).
    - apply sum_g. intros a Ha. rewrite <- (He a j x Ha Ex). rewrite (Lx a i Ha Hi).
      unfold Rdiv. rewrite Rmult_assoc. f_equal. unfold con1. rewrite <- Rsum_scal. apply sum_g. intros b Hb.
      rewrite (Lx b j Hb Hj). rewrite secular_R by assumption. unfold weighted. fold n. unfold Rdiv.
      rewrite Rinv_mult. ring.
    - rewrite <- (proj2 HO i j Hi Hj), <- Rsum_scal. apply sum_g. intros. ring. }
  split; [|split; [|split]].
  - intros i j Hi Hj. transitivity (delta i j); [|reflexivity]. rewrite <- (proj2 HO i j Hi Hj).
    apply sum_g. intros a Ha. rewrite (Lx a i Ha Hi), (Lx a j Ha Hj).
    pose proof (Sp a Ha). rewrite <- (sqrt_sqrt (w (a / 3)%nat)) at 1.
    + field. lra.
    + apply Rlt_le, Hw. now apply block_lt.
  - intros i j Hi Hj Ne. destruct (nth_error h j) as [x|] eqn:Ex; [|apply nth_error_None in Ex; lia].
    rewrite (G i j x Hi Hj Ex). unfold delta. destruct (Nat.eqb_spec i j); [contradiction|ring].
  - intros i Hi. destruct (nth_error h i) as [x|] eqn:Ex; [|apply nth_error_None in Ex; lia].
    rewrite nth_error_map, Ex. cbn [option_map]. rewrite (G i i x Hi Hi Ex). unfold delta.
    rewrite Nat.eqb_refl, Rmult_1_r. reflexivity.
  - clear -Hs. induction Hs as [|x l Hs IH Hf]; [constructor|]. cbn [map]. constructor; [exact IH|].
    apply Forall_forall. intros y Hy. apply in_map_iff in Hy as (z & <- & Hz).
    rewrite Forall_forall in Hf. specialize (Hf z Hz).
    destruct (Rgt_dec x z) as [L|L].
    + apply Rgt_ge. now apply (wavenumber_lemma z x).
    + assert (x = z) as -> by lra. apply Rge_refl.
Qed.
