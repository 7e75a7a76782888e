(** A bent molecule of three atoms whose energy does not change when it is moved or turned. *)
From Coq Require Import Reals Lra List ZArith NArith Arith Lia Bool Ascii String Permutation Sorted FunctionalExtensionality.
From Verif Require Import Num Loops ListFacts Index IndexFacts LoadFacts Text TextFacts SpacingFacts DummyFacts Modes ModesFacts ResFacts RangeFacts
  StatesFacts Anharm AnharmFacts VibRot VibRotFacts SymRotFacts Distort Transform TransformFacts RotFacts NormalFacts ModeFacts ZeroFacts InertiaFacts EckartFacts
  SymAnharm Polyads Report ReportFacts OutputFacts Geom GeomFacts IrrepFacts FermiFacts PerturbFacts PerturbSum PerturbLevels VanVleck VibPerturb SymE0 HarmFacts DistortFacts
  FermiWitness Finish FinishFacts RunFacts RunSecond RunFermi RunRot OutText OutFacts OutTables OutRun Program ProgramFacts BlankFacts ProgramRun FrameFacts FrameWitness RotFiles.
Import ListNotations.
Import Text.
Open Scope list_scope.
Open Scope nat_scope.
Local Open Scope R_scope.
#[local] Existing Instance Rtext.

(** ** sums of integers *)
Definition zs (n : nat) (f : nat -> Z) : Z := fold_right Z.add 0%Z (map f (seq 0 n)).
Lemma sum_IZR n f : Sum n (fun k => IZR (f k)) = IZR (zs n f).
Proof.
  unfold zs. generalize (seq 0 n). induction l as [|a l IH]; [reflexivity|]. rewrite Rsum_cons. cbn [map fold_right].
  now rewrite plus_IZR, IH.
Qed.
Definition all2 (n m : nat) (p : nat -> nat -> bool) : bool := forallb (fun i => forallb (p i) (seq 0 m)) (seq 0 n).
Lemma all2_spec n m p : all2 n m p = true -> forall i j, (i < n)%nat -> (j < m)%nat -> p i j = true.
Proof.
  unfold all2. intros H i j Hi Hj. rewrite forallb_forall in H. specialize (H i (proj2 (in_seq n 0 i) (conj (Nat.le_0_l i) Hi))).
  rewrite forallb_forall in H. exact (H j (proj2 (in_seq m 0 j) (conj (Nat.le_0_l j) Hj))).
Qed.

(** ** orthonormal columns of a square matrix have orthonormal rows *)
Lemma square_orth n (V : nat -> nat -> R) :
  (forall i j, (i < n)%nat -> (j < n)%nat -> Sum n (fun a => V a i * V a j) = delta i j) -> orth n V.
Proof.
  intros H.
  assert (Pick : forall (v : nat -> R) i, (i < n)%nat -> Sum n (fun a => delta i a * v a) = v i) by (intros; now apply sum_delta).
  set (G := fun a b => Sum n (fun i => V a i * V b i)).
  assert (Be : forall v, Sum n (fun i => Sum n (fun a => V a i * v a) * Sum n (fun a => V a i * v a)) <= Sum n (fun a => v a * v a)).
  { intros v. exact (bessel n n (fun i a => V a i) v H). }
  assert (Two : forall a b s t, (a < n)%nat -> (b < n)%nat ->
    s * s * G a a + 2 * s * t * G a b + t * t * G b b <= s * s + 2 * s * t * delta a b + t * t).
  { intros a b s t Ha Hb. specialize (Be (fun c => s * delta a c + t * delta b c)).
    assert (E1 : forall i, Sum n (fun c => V c i * (s * delta a c + t * delta b c)) = s * V a i + t * V b i).
    { intros i. rewrite <- (Pick (fun c => V c i) a Ha), <- (Pick (fun c => V c i) b Hb), <- !Rsum_scal, <- Rsum_plus.
      apply sum_g. intros. ring. }
    assert (E2 : Sum n (fun c => (s * delta a c + t * delta b c) * (s * delta a c + t * delta b c)) = s * s + 2 * s * t * delta a b + t * t).
    { transitivity (s * s * Sum n (fun c => delta a c * delta a c) + 2 * s * t * Sum n (fun c => delta b c * delta a c) + t * t * Sum n (fun c => delta b c * delta b c)).
      - rewrite <- !Rsum_scal, <- !Rsum_plus. apply sum_g. intros. ring.
      - rewrite !(sum_delta n) by assumption. unfold delta at 1 3. rewrite !Nat.eqb_refl. ring. }
    cbv beta in Be. rewrite E2 in Be. rewrite (sum_g n _ (fun i => (s * V a i + t * V b i) * (s * V a i + t * V b i))) in Be by (intros; now rewrite E1).
    eapply Rle_trans; [|exact Be]. unfold G. rewrite <- !Rsum_scal, <- !Rsum_plus. apply Req_le, sum_g. intros. ring. }
  assert (One : forall a, (a < n)%nat -> G a a <= 1).
  { intros a Ha. specialize (Two a a 1 0 Ha Ha). lra. }
  assert (Tr : Sum n (fun a => G a a) = INR n).
  { unfold G. rewrite Rsum_swap. rewrite (sum_g n _ (fun _ => 1)); [apply sum_const|].
    intros i Hi. rewrite (H i i Hi Hi). unfold delta. now rewrite Nat.eqb_refl. }
  assert (Eq : forall a, (a < n)%nat -> G a a = 1).
  { intros a Ha. destruct (Req_dec (G a a) 1) as [|D]; [assumption|]. exfalso.
    assert (Z : Sum n (fun c => 1 - G c c) = 0) by (rewrite Rsum_minus, sum_const, Tr; ring).
    assert (L : Sum n (fun c => delta a c * (1 - G a a)) <= Sum n (fun c => 1 - G c c)).
    { apply Rsum_le. intros c Hc%in_seq. unfold delta. destruct (Nat.eqb_spec a c) as [<-|]; [lra|].
      pose proof (One c ltac:(lia)). lra. }
    rewrite (sum_delta n (fun _ => 1 - G a a) a Ha) in L. pose proof (One a Ha). lra. }
  split; [|exact H]. intros a b Ha Hb. change (G a b = delta a b).
  destruct (Nat.eq_dec a b) as [<-|D]; [rewrite Eq by exact Ha; unfold delta; now rewrite Nat.eqb_refl|].
  pose proof (Two a b 1 1 Ha Hb) as T1. pose proof (Two a b 1 (-1) Ha Hb) as T2.
  rewrite !Eq in T1, T2 by assumption. lra.
Qed.

(** a basis in which a matrix is diagonal *)
Lemma diagonal_eigen n A V : orth n V ->
  (forall i j, (i < n)%nat -> (j < n)%nat -> i <> j -> con2 n V A i j = 0) ->
  eigen_system n A (map (fun i => con2 n V A i i) (seq 0 n)) V.
Proof.
  intros HO D. split; [now rewrite map_length, seq_length|]. split; [exact HO|].
  intros a i x Ha Ex. assert (Hi : (i < n)%nat).
  { rewrite <- (seq_length n 0), <- (map_length (fun i => con2 n V A i i)). apply nth_error_Some. congruence. }
  rewrite nth_error_map, nth_error_seq in Ex by lia. apply some_eq in Ex. subst x. cbn [Nat.add].
  destruct HO as [Or _].
  transitivity (Sum n (fun c => delta a c * Sum n (fun b => A c b * V b i))); [symmetry; now apply sum_delta|].
  transitivity (Sum n (fun j => V a j * con2 n V A j i)).
  - rewrite (sum_g n _ (fun c => Sum n (fun j => V a j * (V c j * Sum n (fun b => A c b * V b i))))).
    + rewrite Rsum_swap. apply sum_g. intros j Hj. rewrite Rsum_scal. f_equal. unfold con2, con1. apply sum_g. intros c Hc.
      f_equal. apply sum_g. intros. ring.
    + intros c Hc. rewrite <- (Or a c Ha Hc), <- Rsum_scal_r. apply sum_g. intros. ring.
  - rewrite (sum_g n _ (fun j => delta i j * (con2 n V A i i * V a i))).
    + rewrite (sum_delta n (fun _ => con2 n V A i i * V a i) i Hi). reflexivity.
    + intros j Hj. unfold delta. destruct (Nat.eqb_spec i j) as [<-|Ne]; [ring|]. rewrite D by auto. ring.
Qed.

(** ** the molecule: at (0, 4), (-3, -2) and (3, -2) after scaling *)
Definition tri_in : text := unlines (map lit
  ["# SPECTRO ####"; "1 1 1 1 1 1 1 4"; "# GEOM ####"; "3 0"; "8 0 8 2"; "1 -6 -4 2"; "1 6 -4 2"]%string).
Definition tri_symm : symm R unit := {|
  to_angstrom := map (fun a => atom_at a (vscale (1 / 2) (where_ a)));
  normalize := fun ats => ((18, 24, 42), qturn, AsymmTop, map (fun a => atom_at a (in_frame qturn (where_ a))) ats);
  centre_of_mass := square_com;
  point_group := fun _ => OtherGroup;
  masses := map (fun _ => 1);
  find_buddy := fun _ _ _ _ => None;
  irrep_of := fun _ _ _ _ => Some tt;
  irrep_A := tt;
  axis_default := AX;
  molecule_lines := map (fun a => lit "atom " ++ show_N (number a));
  irrep_text := sample_label |}.
Definition tri_atoms : list (atom R) :=
  map (fun '(k, (x, y)) => {| number := Z.to_N (Int_part k); ax := x; ay := y; az := 2; weight := None |})
    [(8, (0, 8)); (1, (-6, -4)); (1, (6, -4))].

Lemma tri_read : exists s0, read tri_in = Some s0 /\ atoms s0 = tri_atoms /\ header s0 = [1; 1; 1; 1; 1; 1; 1; 4]%Z.
Proof.
  assert (L : lines tri_in = map lit
    ["# SPECTRO ####"; "1 1 1 1 1 1 1 4"; "# GEOM ####"; "3 0"; "8 0 8 2"; "1 -6 -4 2"; "1 6 -4 2"]%string) by (vm_compute; reflexivity).
  unfold read. rewrite L. cbn [map].
  assert (O : forall l, forallb (fun k => negb (contains k l)) keywords = true -> ordinary l).
  { intros l Q k Hk. rewrite forallb_forall in Q. specialize (Q k Hk). now apply negb_true_iff in Q. }
  set (l1 := lit "8 0 8 2"). set (l2 := lit "1 -6 -4 2"). set (l3 := lit "1 6 -4 2").
  assert (E0 : ofold read_line [lit "# SPECTRO ####"; lit "1 1 1 1 1 1 1 4"; lit "# GEOM ####"; lit "3 0"] (start (F := R)) =
    Some {| coord_map := []; Text.state := InGeom; skip := 0%nat; ret := {| header := [1; 1; 1; 1; 1; 1; 1; 4]%Z; atoms := []; Text.weights := [];
            curvils := []; degmodes := []; dummies := [] |} |}) by reflexivity.
  change [lit "# SPECTRO ####"; lit "1 1 1 1 1 1 1 4"; lit "# GEOM ####"; lit "3 0"; l1; l2; l3]
    with ([lit "# SPECTRO ####"; lit "1 1 1 1 1 1 1 4"; lit "# GEOM ####"; lit "3 0"] ++ [l1; l2; l3]).
  rewrite ofold_app, E0. cbn [obind].
  match goal with |- context [ofold _ _ ?s] => set (s0 := s) end. cbn [ofold].
  assert (NZ : forall z, (0 < z)%Z -> f_to_N (IZR z) <> 0%N) by (intros z Hz; rewrite number_R; lia).
  destruct (read_line_geom s0 l1 (lit "8") (lit "0") (lit "8") (lit "2") (IZR 8) (IZR 0) (IZR 8) (IZR 2)) as (s1 & E1 & K1 & S1 & R1);
    try reflexivity. { apply O. reflexivity. } { apply NZ. lia. }
  rewrite E1. cbn [obind].
  destruct (read_line_geom s1 l2 (lit "1") (lit "-6") (lit "-4") (lit "2") (IZR 1) (IZR (-6)) (IZR (-4)) (IZR 2)) as (s2 & E2 & K2 & S2 & R2);
    try reflexivity; try assumption. { apply O. reflexivity. } { apply NZ. lia. }
  rewrite E2. cbn [obind].
  destruct (read_line_geom s2 l3 (lit "1") (lit "6") (lit "-4") (lit "2") (IZR 1) (IZR 6) (IZR (-4)) (IZR 2)) as (s3 & E3 & K3 & S3 & R3);
    try reflexivity; try assumption. { apply O. reflexivity. } { apply NZ. lia. }
  rewrite E3. cbn [obind]. rewrite R3, R2, R1. unfold s0. cbn [ret header atoms Text.weights curvils degmodes dummies List.app].
  unfold apply_weights. cbn [header nth_error obind Z.eqb]. eexists. split; [reflexivity|]. split; reflexivity.
Qed.

Lemma tri_ok : symm_ok tri_symm (1 / 2) (fun _ _ => 1) tri_atoms.
Proof.
  constructor; try reflexivity.
  - intros ats Ht x Hx. assert (W : forall f : nat -> R, Sum (List.length ats) (fun q => nth q (map (fun _ => 1) ats) 0 * f q) = Sum (List.length ats) f).
    { intros f. apply sum_g. intros q Hq. rewrite (nth_indep _ 0 1) by (now rewrite map_length).
      rewrite (map_nth (fun _ : atom R => 1) ats {| number := 0; ax := 0; ay := 0; az := 0; weight := None |}). ring. }
    cbn [masses tri_symm]. rewrite W. unfold total in *. cbn [masses centre_of_mass tri_symm] in *.
    unfold square_com. three x; cbn [comp fst snd]; field; exact Ht.
  - intros pr axes r ats' E. cbn [normalize tri_symm] in E. split4 E. split; [exact qturn_orth|].
    exists (0, 0, 0). apply map_ext. intros a. destruct a as [n x y z w].
    cbn [atom_at vsub where_ ax ay az number weight]. now rewrite !Rminus_0_r.
  - intros pr axes r ats' E _ x y Hx Hy. cbn [normalize tri_symm] in E. split4 E.
    cbn [centre_of_mass to_angstrom masses tri_symm].
    unfold square_com, inertia, Rsum, place_of.
    cbn [List.length tri_atoms map seq fold_right nth where_ atom_at vscale ax ay az number weight vsub in_frame qturn comp fst snd].
    three x; three y; unfold kron; cbn [comp fst snd Nat.eqb]; field.
  - intros pr axes r ats' E. cbn [normalize tri_symm] in E. split4 E. discriminate.
  - intros pr axes ats' E. cbn [normalize tri_symm] in E. apply pair_equal_spec in E as [E _]. apply pair_equal_spec in E as [_ E]. discriminate.
  - intros pr axes r ats' E. cbn [normalize tri_symm] in E. split4 E. discriminate.
Qed.

Lemma tri_loaded : exists l, load_input tri_symm tri_in = Some l /\ l_rotor l = AsymmTop /\ l_axes l = qturn /\
  comp (l_primat l) 0 = 18 /\ comp (l_primat l) 1 = 24 /\ comp (l_primat l) 2 = 42 /\ List.length (atoms (l_input l)) = 3%nat.
Proof.
  destruct tri_read as (s0 & E & Ha & Hh). unfold load_input. rewrite E. cbn [obind]. unfold process_molecule. rewrite Ha.
  cbn [normalize to_angstrom tri_symm atoms is_sym_top obind orient_geom point_group is_linear andb].
  set (at_ := map _ (combine _ _)).
  assert (Ln : List.length at_ = 3%nat) by (unfold at_; rewrite map_length, combine_length, !map_length; reflexivity).
  rewrite Ln. assert (Sz : exists sz, make_sizes 3 false = Some sz) by (eexists; reflexivity).
  destruct Sz as (sz & ->). cbn [obind]. eexists. split; [reflexivity|].
  cbn [l_rotor l_axes l_input l_primat header atoms comp fst snd]. auto 10.
Qed.

(** ** its force constants *)
Definition tri_vecs : list (list Z) :=
  [[0; -2; 0;  0; 1; 0;  0; 1; 0]; [0; 0; 0;  1; 0; 0;  -1; 0; 0]; [2; 0; 0;  -1; -2; 0;  -1; 2; 0];
   [1; 0; 0;  1; 0; 0;  1; 0; 0]; [0; 1; 0;  0; 1; 0;  0; 1; 0]; [0; 0; 1;  0; 0; 1;  0; 0; 1];
   [-4; 0; 0;  2; -3; 0;  2; 3; 0]; [0; 0; 2;  0; 0; -1;  0; 0; -1]; [0; 0; 0;  0; 0; -1;  0; 0; 1]]%Z.
Definition tri_vec (a i : nat) : Z := nth a (nth i tri_vecs []) 0%Z.
Definition tri_norm (i : nat) : Z := nth i [6; 2; 14; 3; 3; 3; 42; 6; 2]%Z 1%Z.
Definition tri_force (i : nat) : Z := nth i [4; 20; 1]%Z 0%Z.
Definition tri_hess (a b : nat) : Z := zs 3 (fun i => tri_force i * tri_vec a i * tri_vec b i)%Z.
Definition tri_z2 : list Z := flat_map (fun a => map (tri_hess a) (seq 0 9)) (seq 0 9).

Lemma tri_numbers : numbers (listing tri_z2) = Some (map IZR tri_z2).
Proof.
  unfold numbers. cbn [fparse Rtext]. rewrite omap_opt.
  match goal with |- option_map ?f ?a = Some (map _ ?b) => assert (Q : a = Some b) by (vm_compute; reflexivity); rewrite Q end; reflexivity.
Qed.
Lemma tri_listed : lists2 9 (map IZR tri_z2) (fun a b => IZR (tri_hess a b)).
Proof.
  intros i j Hi Hj. rewrite nth_error_map.
  assert (Q : all2 9 9 (fun i j => match nth_error tri_z2 (i * 9 + j) with Some z => (z =? tri_hess i j)%Z | None => false end) = true)
    by (vm_compute; reflexivity).
  pose proof (all2_spec _ _ _ Q i j Hi Hj) as Q'. cbn beta in Q'.
  destruct (nth_error tri_z2 (i * 9 + j)) as [z|]; [|discriminate]. apply Z.eqb_eq in Q'. subst z. reflexivity.
Qed.
Lemma tri_symmetric : symmetric_list 9 (map IZR tri_z2).
Proof.
  intros i j Hi Hj. rewrite (tri_listed i j), (tri_listed j i) by assumption. do 2 f_equal. unfold tri_hess, zs.
  cbn [map seq fold_right]. ring.
Qed.
Lemma tri_same fc2 : lists2 9 (map IZR tri_z2) fc2 -> meq 9 fc2 (fun a b => IZR (tri_hess a b)).
Proof. intros L i j Hi Hj. apply some_eq. now rewrite <- (L i j), <- (tri_listed i j). Qed.

Lemma tri_free fc2 : lists2 9 (map IZR tri_z2) fc2 ->
  translation_free 3 fc2 /\ rotation_free 3 fc2 (fun q x => comp (place_of tri_atoms q) x).
Proof.
  intros L. pose proof (tri_same fc2 L) as M. split.
  - intros a m Ha Hm. rewrite (sum_g 3 _ (fun q => IZR (tri_hess a (3 * q + m)))) by (intros q Hq; apply M; lia).
    rewrite sum_IZR.
    assert (Q : all2 9 3 (fun a m => (zs 3 (fun q => tri_hess a (3 * q + m)) =? 0)%Z) = true) by (vm_compute; reflexivity).
    pose proof (all2_spec _ _ _ Q a m Ha Hm) as Q'. apply Z.eqb_eq in Q'. now rewrite Q'.
  - intros W HW a Ha. change (3 * 3)%nat with 9%nat in *.
    assert (D : forall k, W k k = 0) by (intros k; specialize (HW k k); lra).
    rewrite (sum_g 9 _ (fun b => IZR (tri_hess a b) * Sum 3 (fun k => W (b mod 3)%nat k * comp (place_of tri_atoms (b / 3)) k)))
      by (intros b Hb; now rewrite M).
    unfold Rsum. cbn [seq map fold_right]. 
    change (0 mod 3)%nat with 0%nat. change (1 mod 3)%nat with 1%nat. change (2 mod 3)%nat with 2%nat.
    change (3 mod 3)%nat with 0%nat. change (4 mod 3)%nat with 1%nat. change (5 mod 3)%nat with 2%nat.
    change (6 mod 3)%nat with 0%nat. change (7 mod 3)%nat with 1%nat. change (8 mod 3)%nat with 2%nat.
    rewrite !D, (HW 1%nat 0%nat), (HW 2%nat 0%nat), (HW 2%nat 1%nat).
    do 9 (destruct a as [|a]; [unfold tri_hess, zs, tri_force, tri_vec, tri_vecs, place_of, tri_atoms;
      cbn -[Rplus Rmult Ropp]; ring|]). lia.
Qed.

(** ** its modes *)
Definition tri_turn (r c : nat) : Z :=
  if (r / 3 =? c / 3)%nat then nth (c mod 3) (nth (r mod 3) [[0; 1; 0]; [-1; 0; 0]; [0; 0; 1]] [])%Z 0%Z else 0%Z.
Definition tri_hess' (a b : nat) : Z := zs 9 (fun r => tri_turn r a * zs 9 (fun s => tri_turn s b * tri_hess r s))%Z.
Definition tri_vec' (a i : nat) : Z := zs 9 (fun r => tri_turn r a * tri_vec r i)%Z.
Definition tri_value (i : nat) : Z := (tri_force i * tri_norm i)%Z.
Definition tri_vals : list R := map (fun i => FACT2 * IZR (tri_value i)) (seq 0 9).
Definition tri_V (a i : nat) : R := IZR (tri_vec' a i) / sqrt (IZR (tri_norm i)).
Definition tri_eig (A : nat -> nat -> R) : list R * (nat -> nat -> R) := (tri_vals, tri_V).

Lemma tri_turn_R r c : (r < 9)%nat -> every_atom qturn r c = IZR (tri_turn r c).
Proof.
  intros Hr. unfold every_atom, tri_turn. destruct (_ =? _)%nat; [|reflexivity].
  assert (H1 : (r mod 3 < 3)%nat) by (apply Nat.mod_upper_bound; lia).
  assert (H2 : (c mod 3 < 3)%nat) by (apply Nat.mod_upper_bound; lia).
  generalize dependent (r mod 3)%nat. generalize dependent (c mod 3)%nat. intros x Hx y Hy. three x; three y; cbn [qturn nth]; lra.
Qed.
Lemma tri_turned f a b : meq 9 f (fun a b => IZR (tri_hess a b)) -> con2 9 (every_atom qturn) f a b = IZR (tri_hess' a b).
Proof.
  intros M. unfold con2, con1, tri_hess'. rewrite <- sum_IZR. apply sum_g. intros r Hr.
  rewrite mult_IZR, <- sum_IZR, tri_turn_R by exact Hr. f_equal. apply sum_g. intros s Hs.
  now rewrite mult_IZR, tri_turn_R, M by assumption.
Qed.
Lemma tri_norm_pos i : 0 < sqrt (IZR (tri_norm i)).
Proof.
  apply sqrt_lt_R0, IZR_lt. unfold tri_norm. do 9 (destruct i as [|i]; [reflexivity|]). destruct i; reflexivity.
Qed.
Lemma tri_orth : orth 9 tri_V.
Proof.
  apply square_orth. intros i j Hi Hj.
  assert (Q : all2 9 9 (fun i j => (zs 9 (fun a => tri_vec' a i * tri_vec' a j) =? (if (i =? j)%nat then tri_norm i else 0))%Z) = true)
    by (vm_compute; reflexivity).
  pose proof (all2_spec _ _ _ Q i j Hi Hj) as Q'. apply Z.eqb_eq in Q'.
  pose proof (tri_norm_pos i) as Pi. pose proof (tri_norm_pos j) as Pj.
  rewrite (sum_g 9 _ (fun a => / (sqrt (IZR (tri_norm i)) * sqrt (IZR (tri_norm j))) * IZR (tri_vec' a i * tri_vec' a j))).
  - rewrite Rsum_scal, sum_IZR, Q'. unfold delta. destruct (Nat.eqb_spec i j) as [<-|]; [|ring].
    rewrite <- (sqrt_sqrt (IZR (tri_norm i))) at 3; [field; lra|]. apply Rlt_le. destruct (Rle_lt_dec (IZR (tri_norm i)) 0) as [Z|]; [|assumption].
    rewrite (sqrt_neg_0 _ Z) in Pi. lra.
  - intros a Ha. unfold tri_V. rewrite mult_IZR. field. lra.
Qed.
Lemma tri_system : eigen_system 9 (fun a b => FACT2 * IZR (tri_hess' a b)) tri_vals tri_V.
Proof.
  split; [reflexivity|]. split; [exact tri_orth|]. intros a i x Ha Ex. unfold tri_vals in Ex. rewrite nth_error_map in Ex.
  destruct (nth_error (seq 0 9) i) as [k|] eqn:Ek; [|discriminate]. apply some_eq in Ex.
  assert (Hi : (i < 9)%nat) by (rewrite <- (seq_length 9 0); apply nth_error_Some; congruence).
  rewrite nth_error_seq in Ek by lia. apply some_eq in Ek. subst k x. cbn [Nat.add].
  assert (Q : all2 9 9 (fun a i => (zs 9 (fun b => tri_hess' a b * tri_vec' b i) =? tri_value i * tri_vec' a i)%Z) = true)
    by (vm_compute; reflexivity).
  pose proof (all2_spec _ _ _ Q a i Ha Hi) as Q'. apply Z.eqb_eq in Q'. pose proof (tri_norm_pos i) as Pi.
  rewrite (sum_g 9 _ (fun b => FACT2 / sqrt (IZR (tri_norm i)) * IZR (tri_hess' a b * tri_vec' b i))).
  - rewrite Rsum_scal, sum_IZR, Q', mult_IZR. unfold tri_V. field. lra.
  - intros b Hb. unfold tri_V. rewrite mult_IZR. field. lra.
Qed.
Lemma tri_solves fc2 w : lists2 9 (map IZR tri_z2) fc2 -> (forall q, (q < 3)%nat -> w q = 1) ->
  solves (3 * 3) tri_eig (secular 3 qturn fc2 w).
Proof.
  intros L Hw. unfold solves, tri_eig. cbn [fst snd]. change (3 * 3)%nat with 9%nat.
  refine (eigen_system_ext 9 _ _ _ _ _ tri_system).
  intros a b Ha Hb. symmetry. rewrite (secular_R 3); [| |intros q Hq; rewrite Hw by exact Hq; lra|exact Ha|exact Hb].
  - unfold weighted. rewrite !Hw, sqrt_1 by (apply Nat.div_lt_upper_bound; lia).
    change (3 * 3)%nat with 9%nat. rewrite (tri_turned fc2 a b (tri_same fc2 L)). field.
  - intros i j Hi Hj. change (3 * 3)%nat with 9%nat in Hi, Hj. apply some_eq. rewrite <- (L i j), <- (L j i) by assumption.
    now apply tri_symmetric.
Qed.

(** three of its frequencies are positive, whatever the modes *)
Lemma tri_freq fc2 freq lx : lists2 9 (map IZR tri_z2) fc2 ->
  let hess := fun a b => FACT2 * con2 9 (every_atom qturn) fc2 a b in
  (forall i j, (i < 9)%nat -> (j < 9)%nat -> Sum 9 (fun a => lx a i * lx a j) = (if Nat.eqb i j then 1 else 0)) ->
  (forall i j, (i < 9)%nat -> (j < 9)%nat -> i <> j -> con2 9 lx hess i j = 0) ->
  List.length freq = 9%nat ->
  (forall i, (i < 9)%nat -> nth_error freq i = Some (to_wavenumber (con2 9 lx hess i i))) ->
  StronglySorted Rge freq ->
  freq = map (fun z => to_wavenumber (FACT2 * IZR z)) [40; 24; 14; 0; 0; 0; 0; 0; 0]%Z.
Proof.
  intros L hess M1 M2 Lf M3 M4. pose proof FACT2_pos as FP.
  assert (O : orth 9 lx) by (apply square_orth; exact M1).
  pose proof (diagonal_eigen 9 hess lx O M2) as E1.
  assert (E2 : eigen_system 9 hess tri_vals tri_V).
  { refine (eigen_system_ext 9 _ _ _ _ _ tri_system). intros a b _ _. unfold hess. now rewrite (tri_turned fc2 a b (tri_same fc2 L)). }
  assert (Sy : sym2 9 hess).
  { intros a b Ha Hb. unfold hess. rewrite !(tri_turned fc2 _ _ (tri_same fc2 L)).
    assert (Q : all2 9 9 (fun a b => (tri_hess' a b =? tri_hess' b a)%Z) = true) by (vm_compute; reflexivity).
    pose proof (all2_spec _ _ _ Q a b Ha Hb) as Q'. apply Z.eqb_eq in Q'. now rewrite Q'. }
  pose proof (eigenvalues_unique 9 hess _ _ _ _ Sy E1 E2) as P.
  assert (Ef : freq = map to_wavenumber (map (fun i => con2 9 lx hess i i) (seq 0 9))).
  { rewrite map_map. apply (nth_ext _ _ 0 0); [rewrite map_length, seq_length; exact Lf|]. intros i Hi. rewrite Lf in Hi.
    rewrite (nth_error_nth _ _ _ (M3 i Hi)). symmetry. apply nth_error_nth. now rewrite nth_error_map, nth_error_seq by lia. }
  apply sorted_unique; [exact M4| |].
  - assert (Mo : forall a b, (0 <= b <= a)%Z -> to_wavenumber (FACT2 * IZR a) >= to_wavenumber (FACT2 * IZR b)).
    { intros a b H. assert (0 <= IZR b) by (apply IZR_le; lia). assert (IZR b <= IZR a) by (apply IZR_le; lia).
      rewrite !wavenumber_R. destruct (Rlt_dec _ 0); [nra|]. destruct (Rlt_dec _ 0); [nra|]. apply Rle_ge.
      apply Rmult_le_compat_l; [apply Rlt_le, WAVE_pos|]. apply sqrt_le_1; nra. }
    cbn [map]. repeat (constructor; [|flist; apply Mo; lia]). constructor.
  - rewrite Ef. etransitivity; [apply Permutation_map, P|]. unfold tri_vals. rewrite map_map.
    change (Permutation (map (fun z => to_wavenumber (FACT2 * IZR z)) [24; 40; 14; 0; 0; 0; 0; 0; 0]%Z)
      (map (fun z => to_wavenumber (FACT2 * IZR z)) [40; 24; 14; 0; 0; 0; 0; 0; 0]%Z)).
    apply Permutation_map. apply perm_swap.
Qed.

Lemma firstn_sorted k (l : list R) : StronglySorted Rge l -> StronglySorted Rge (firstn k l).
Proof.
  revert k. induction l as [|x l IH]; intros [|k] H; try constructor; apply StronglySorted_inv in H as [H1 H2]; [now apply IH|].
  apply Forall_forall. intros y Hy. rewrite Forall_forall in H2. apply H2. rewrite <- (firstn_skipn k l). apply in_app_iff. now left.
Qed.
Lemma nth_error_firstn_lt {A} (l : list A) k i : (i < k)%nat -> nth_error (firstn k l) i = nth_error l i.
Proof. revert l i. induction k as [|k IH]; intros [|x l] [|i] H; try lia; try reflexivity. cbn. apply IH. lia. Qed.

(** everything that [rotation_from_files] asks for, and a report *)
Lemma tri_meets : exists s0 l,
  read tri_in = Some s0 /\ load_input tri_symm tri_in = Some l /\
  symm_ok tri_symm (1 / 2) (fun _ _ => 1) (atoms s0) /\ atoms s0 = tri_atoms /\ l_axes l = qturn /\
  let mass q := nth q (masses tri_symm (atoms s0)) 0 in
  let J x := inertia 3 mass (place_of (atoms (l_input l))) x x in
  List.length (atoms s0) = 3%nat /\ (forall q, (q < 3)%nat -> mass q = 1) /\
  l_rotor l = AsymmTop /\ (2 < nth 7 (header s0) 4)%Z /\
  Forall plain (molecule_lines tri_symm (atoms (l_input l))) /\
  J 0%nat = 18 /\ J 1%nat = 24 /\ J 2%nat = 42 /\
  (forall fc2, lists2 9 (map IZR tri_z2) fc2 -> solves (3 * 3) tri_eig (secular 3 (l_axes l) fc2 mass)) /\
  (forall fc2, lists2 9 (map IZR tri_z2) fc2 ->
     translation_free 3 fc2 /\ rotation_free 3 fc2 (fun q x => comp (place_of (atoms s0) q) x)).
Proof.
  destruct tri_read as (s0 & E0 & Ha & Hh). destruct tri_loaded as (l & El & Hr & Hx & P0 & P1 & P2 & Ln).
  exists s0, l. split; [exact E0|]. split; [exact El|]. rewrite Ha. split; [exact tri_ok|]. split; [reflexivity|]. split; [exact Hx|].
  cbv zeta. split; [reflexivity|].
  assert (M : forall q, (q < 3)%nat -> nth q (masses tri_symm tri_atoms) 0 = 1) by (intros q Hq; three q; reflexivity).
  split; [exact M|]. split; [exact Hr|]. split; [rewrite Hh; reflexivity|]. split.
  { cbn [molecule_lines tri_symm]. apply Forall_forall. intros x Hi. apply in_map_iff in Hi as (a & <- & _).
    apply plain_app; [|apply plain_show]. split; [repeat constructor|cbn; intuition discriminate]. }
  destruct (load_frame_lemma tri_symm (1 / 2) (fun _ _ => 1) tri_in l El) as (s1 & E1 & _ & F).
  assert (s1 = s0) as -> by congruence. rewrite Ha in F.
  destruct (F tri_ok) as (_ & Em & _ & _ & In_). { unfold total. cbn [masses tri_symm tri_atoms map fold_right]. lra. }
  rewrite Ln, Em in In_. specialize (In_ ltac:(right; left; rewrite Hr; reflexivity)).
  assert (Q : forall x, (x < 3)%nat -> inertia 3 (fun q => nth q (masses tri_symm tri_atoms) 0) (place_of (atoms (l_input l))) x x = comp (l_primat l) x).
  { intros x H. rewrite In_ by assumption. unfold kron. rewrite Nat.eqb_refl. ring. }
  split; [rewrite Q by lia; exact P0|]. split; [rewrite Q by lia; exact P1|]. split; [rewrite Q by lia; exact P2|].
  split; [intros fc2 L; rewrite Hx; now apply tri_solves|exact tri_free].
Qed.

Lemma ROTCONST_pos : 0 < @ROTCONST R _.
Proof.
  unfold ROTCONST, PH, AVN, PI64, CL. cbn [nmul ndiv nlit Rnum]. rewrite !nz_R.
  repeat (apply Rmult_lt_0_compat || apply Rdiv_lt_0_compat); lra.
Qed.
Definition tri_lam : R := / sqrt (2 * ROTCONST).
Lemma tri_lam_ok : 2 * ROTCONST * tri_lam ^ 2 = 1.
Proof.
  pose proof ROTCONST_pos as P. unfold tri_lam. assert (S : 0 < sqrt (2 * @ROTCONST R _)) by (apply sqrt_lt_R0; lra).
  replace (2 * @ROTCONST R _) with (sqrt (2 * ROTCONST) * sqrt (2 * ROTCONST)) at 1 by (apply sqrt_sqrt; lra). field. lra.
Qed.

Lemma tri_constants : let B x := ROTCONST / x in B 24 <> B 42 /\ 2 * B 18 <> B 24 + B 42.
Proof. cbv zeta. pose proof ROTCONST_pos as P. split; lra. Qed.

Lemma tri_program : exists fuel t,
  program tri_symm eig_solve tri_eig fuel sample_er false tri_in (listing tri_z2) (listing sample_z3) (listing sample_z4) = Some t.
Proof.
  destruct tri_meets as (s0 & l & E0 & El & Ok & Ea & Ex & Ln & Hm & Hr & Hh & Hp & J0 & J1 & J2 & Hs & Hf). destruct sample_numbers as (_ & N2 & N3 & _).
  destruct tri_constants as [C1 C2].
  destruct (rotation_from_files_lemma tri_symm (1 / 2) (fun _ _ => 1) eig_solve tri_eig sample_er sample_name sample_prints_R
    _ _ _ _ s0 l _ _ _ tri_lam E0 El tri_numbers N2 N3 Ok) as (fc2 & f3x & f4x & fuel0 & freq & lx & a & L2 & _ & _ & M1 & M2 & M3 & M4 & _ & M5).
  { rewrite Ln. lia. } { exact Hr. } { exact Hh. } { rewrite Ln. intros q Hq. rewrite Hm by exact Hq. lra. } { exact Hp. }
  { rewrite Ln. reflexivity. } { rewrite Ln. exact tri_symmetric. } { rewrite Ln. vm_compute. reflexivity. }
  { rewrite Ln. vm_compute. reflexivity. } { rewrite Ln. exact Hs. } { rewrite Ln. exact Hf. }
  { rewrite Ln. intros x Hx. three x; rewrite ?J0, ?J1, ?J2; lra. } { rewrite Ln, J1, J2. exact C1. } { rewrite Ln, J0, J1, J2. exact C2. }
  { exact tri_lam_ok. }
  rewrite Ln, Ex in *. change (3 * 3)%nat with 9%nat in *.
  destruct M5 with (fuel := fuel0) as (t & _ & _ & _ & _ & Et & _); [|lia|eauto].
  assert (Lf : (9 <= List.length freq)%nat).
  { destruct (le_lt_dec 9 (List.length freq)) as [|Q]; [assumption|]. pose proof (M3 8%nat ltac:(lia)) as Z.
    assert (nth_error freq 8 <> None) as Y by congruence. apply nth_error_Some in Y. lia. }
  assert (Ef := tri_freq fc2 (firstn 9 freq) lx L2).
  cbv zeta in Ef. specialize (Ef ltac:(intros i j Hi Hj; rewrite <- (M1 i j Hi Hj); apply sum_g; intros b Hb;
    rewrite Hm by (apply Nat.div_lt_upper_bound; lia); ring) M2 ltac:(rewrite firstn_length; lia)
    ltac:(intros i Hi; rewrite <- (M3 i Hi); apply nth_error_firstn_lt; exact Hi) ltac:(apply firstn_sorted; exact M4)).
  intros i Hi. assert (Ei : nth i freq 0 = nth i (firstn 9 freq) 0).
  { rewrite <- (firstn_skipn 9 freq) at 1. apply app_nth1. rewrite firstn_length. lia. }
  rewrite Ei, Ef. pose proof FACT2_pos as FP. change (9 - 6)%nat with 3%nat in Hi.
  three i; cbn [map nth]; rewrite wavenumber_R; (destruct (Rlt_dec _ 0) as [H|H]; [exfalso; lra|]);
    (apply Rmult_lt_0_compat; [apply WAVE_pos|apply sqrt_lt_R0; lra]).
Qed.

Lemma tri_apart : let B x := ROTCONST / x in B 24 <> B 42 /\ B 42 <> B 18 /\ 2 * B 18 <> B 24 + B 42 /\
  forall x y, In x [18; 24; 42] -> In y [18; 24; 42] -> x <> y -> / 200 < Rabs (B x - B y).
Proof.
  cbv zeta.
  assert (P : 10 < @ROTCONST R _).
  { unfold ROTCONST, PH, AVN, PI64, CL. cbn [nmul ndiv nlit Rnum]. rewrite !nz_R. lra. }
  split; [lra|]. split; [lra|]. split; [lra|].
  intros x y Hx Hy Ne. cbn [In] in Hx, Hy.
  destruct Hx as [<-|[<-|[<-|[]]]]; destruct Hy as [<-|[<-|[<-|[]]]]; try (now elim Ne);
    unfold Rabs; destruct (Rcase_abs _); lra.
Qed.
