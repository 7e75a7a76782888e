(** Two atoms of masses 9 and 16 along the z axis of the input. *)
From Coq Require Import Reals Lra List ZArith NArith Arith Lia Bool Ascii String Permutation.
From Verif Require Import Num Loops Index ListFacts Modes ModesFacts ResFacts Anharm AnharmFacts VibRot VibRotFacts Distort Transform TransformFacts
  RotFacts HarmFacts ModeFacts SymAnharm Polyads Report Geom GeomFacts OrientFacts InertiaFacts Finish OutText OutFacts OutTables OutRun
  Program ProgramFacts ProgramRun FrameFacts Text BlankFacts FrameWitness ThreeWitness FermiWitness DiatomicRun DiatomicWitness DiatomicFiles.
Import ListNotations.
Import Text.
Open Scope list_scope.
Open Scope nat_scope.
Local Open Scope R_scope.
#[local] Existing Instance Rtext.

Definition bond_in : text := unlines (map lit
  ["# SPECTRO ####"; "1 1 1 1 1 1 1 4"; "# GEOM ####"; "2 0"; "1 0 0 0"; "2 0 0 2"]%string).
(** the axes z, x, y of the input *)
Definition bond_axes (i j : nat) : R :=
  match i, j with 2%nat, 0%nat => 1 | 0%nat, 1%nat => 1 | 1%nat, 2%nat => 1 | _, _ => 0 end.
Definition bond_mass (n : N) (w : option R) : R := if N.eqb n 1 then 9 else 16.
Definition bond_masses (ats : list (atom R)) : list R := map (fun a => bond_mass (number a) (weight a)) ats.
Definition bond_com (ats : list (atom R)) : R * R * R :=
  let s x := Sum (List.length ats) (fun q => nth q (bond_masses ats) 0 * comp (place_of ats q) x) / fold_right Rplus 0 (bond_masses ats) in
  (s 0%nat, s 1%nat, s 2%nat).
Definition bond_symm : symm R unit := {|
  to_angstrom := map (fun a => atom_at a (vscale (1 / 2) (where_ a)));
  normalize := fun a => ((0, 144 / 25, 144 / 25), bond_axes, Diatomic, map (fun a => atom_at a (in_frame bond_axes (where_ a))) a);
  centre_of_mass := bond_com;
  point_group := fun _ => OtherGroup;
  masses := bond_masses;
  find_buddy := fun _ _ _ _ => None;
  irrep_of := fun _ _ _ _ => Some tt;
  irrep_A := tt;
  axis_default := AX;
  molecule_lines := map (fun a => lit "atom " ++ show_N (number a));
  irrep_text := sample_label |}.
Definition bond_atoms : list (atom R) :=
  [ {| number := 1; ax := 0; ay := 0; az := 0; weight := None |}; {| number := 2; ax := 0; ay := 0; az := 2; weight := None |} ].

(** the derivatives of an energy that depends on the distance, at distance 1, with derivatives 0, 1, -2, 6 *)
Definition bond_sign (a : nat) : Z := if (a <? 3)%nat then (-1)%Z else 1%Z.
Definition how_many (c : nat) (l : list nat) : nat := List.length (filter (fun a => (a mod 3 =? c)%nat) l).
Definition bond_table (z x y : nat) : Z :=
  match (z, x, y)%nat with
  | (2, 0, 0)%nat => 1
  | (3, 0, 0)%nat => -2 | (1, 2, 0)%nat => 1 | (1, 0, 2)%nat => 1
  | (4, 0, 0)%nat => 6 | (2, 2, 0)%nat => -4 | (2, 0, 2)%nat => -4 | (0, 4, 0)%nat => 3 | (0, 0, 4)%nat => 3 | (0, 2, 2)%nat => 1
  | _ => 0
  end%Z.
Definition bond_value (l : list nat) : Z :=
  (fold_right Z.mul 1 (map bond_sign l) * bond_table (how_many 2 l) (how_many 0 l) (how_many 1 l))%Z.
Definition bond_z2 : list Z := flat_map (fun i => map (fun j => bond_value [i; j]) (seq 0 6)) (seq 0 6).
Definition bond_z3 : list Z := flat_map (fun i => flat_map (fun j => map (fun k => bond_value [i; j; k]) (seq 0 (j + 1))) (seq 0 (i + 1))) (seq 0 6).
Definition bond_z4 : list Z := flat_map (fun i => flat_map (fun j => flat_map (fun k =>
  map (fun l => bond_value [i; j; k; l]) (seq 0 (k + 1))) (seq 0 (j + 1))) (seq 0 (i + 1))) (seq 0 6).
Definition bond_vals : list R := [@FACT2 R Rnum * (25 / 144); 0; 0; 0; 0; 0].
Definition bond_eig (A : nat -> nat -> R) : list R * (nat -> nat -> R) := (bond_vals, two_V).

Lemma bond_read : exists s0, read bond_in = Some s0 /\ atoms s0 = bond_atoms.
Proof.
  assert (L : lines bond_in = map lit
    ["# SPECTRO ####"; "1 1 1 1 1 1 1 4"; "# GEOM ####"; "2 0"; "1 0 0 0"; "2 0 0 2"]%string) by (vm_compute; reflexivity).
  unfold read. rewrite L. cbn [map].
  assert (O : forall l, forallb (fun k => negb (contains k l)) keywords = true -> ordinary l).
  { intros l Q k Hk. rewrite forallb_forall in Q. specialize (Q k Hk). now apply negb_true_iff in Q. }
  set (l1 := lit "1 0 0 0"). set (l2 := lit "2 0 0 2").
  assert (E0 : ofold read_line [lit "# SPECTRO ####"; lit "1 1 1 1 1 1 1 4"; lit "# GEOM ####"; lit "2 0"] (start (F := R)) =
    Some {| coord_map := []; Text.state := InGeom; skip := 0%nat; ret := {| header := [1; 1; 1; 1; 1; 1; 1; 4]%Z; atoms := []; Text.weights := [];
            curvils := []; degmodes := []; dummies := [] |} |}) by reflexivity.
  change [lit "# SPECTRO ####"; lit "1 1 1 1 1 1 1 4"; lit "# GEOM ####"; lit "2 0"; l1; l2]
    with ([lit "# SPECTRO ####"; lit "1 1 1 1 1 1 1 4"; lit "# GEOM ####"; lit "2 0"] ++ [l1; l2]).
  rewrite ofold_app, E0. cbn [obind].
  match goal with |- context [ofold _ _ ?s] => set (s0 := s) end. cbn [ofold].
  assert (NZ : forall z, (0 < z)%Z -> f_to_N (IZR z) <> 0%N) by (intros z Hz; rewrite number_R; lia).
  destruct (read_line_geom s0 l1 (lit "1") (lit "0") (lit "0") (lit "0") (IZR 1) (IZR 0) (IZR 0) (IZR 0)) as (s1 & E1 & K1 & S1 & R1);
    try reflexivity. { apply O. reflexivity. } { apply NZ. lia. }
  rewrite E1. cbn [obind].
  destruct (read_line_geom s1 l2 (lit "2") (lit "0") (lit "0") (lit "2") (IZR 2) (IZR 0) (IZR 0) (IZR 2)) as (s2 & E2 & K2 & S2 & R2);
    try reflexivity; try assumption. { apply O. reflexivity. } { apply NZ. lia. }
  rewrite E2. cbn [obind]. rewrite R2, R1. unfold s0. cbn [ret header atoms Text.weights curvils degmodes dummies List.app].
  rewrite !number_R. unfold apply_weights. cbn [header nth_error obind Z.eqb]. eexists. split; reflexivity.
Qed.

Lemma bond_orth : orth 3 bond_axes.
Proof. split; intros i j Hi Hj; rewrite sum3; three i; three j; unfold bond_axes, delta; cbn [Nat.eqb]; ring. Qed.
Lemma bond_ok : symm_ok bond_symm (1 / 2) bond_mass bond_atoms.
Proof.
  constructor; try reflexivity.
  - intros ats Ht x Hx. unfold total in *. cbn [masses centre_of_mass bond_symm] in *.
    unfold bond_com. three x; cbn [comp fst snd]; field; exact Ht.
  - intros pr axes r ats' E. cbn [normalize bond_symm] in E. split4 E. split; [exact bond_orth|].
    exists (0, 0, 0). apply map_ext. intros a. destruct a as [n x y z w].
    cbn [atom_at vsub where_ ax ay az number weight]. now rewrite !Rminus_0_r.
  - intros pr axes r ats' E _ x y Hx Hy. cbn [normalize bond_symm] in E. split4 E.
    cbn [centre_of_mass to_angstrom masses bond_symm].
    unfold bond_com, bond_masses, bond_mass, inertia, Rsum, place_of.
    cbn [List.length bond_atoms map seq fold_right nth where_ atom_at vscale ax ay az number weight vsub in_frame bond_axes comp fst snd N.eqb Pos.eqb].
    three x; three y; unfold kron; cbn [comp fst snd Nat.eqb]; field.
  - intros pr axes r ats' E _ N. cbn [normalize bond_symm] in E. apply pair_equal_spec in E as [E _]. apply pair_equal_spec in E as [_ E]. now elim N.
  - intros pr axes ats' E. cbn [normalize bond_symm] in E. apply pair_equal_spec in E as [E <-].
    cbn [to_angstrom bond_symm bond_atoms map In]. intros a b Ha Hb.
    destruct Ha as [<-|[<-|[]]], Hb as [<-|[<-|[]]]; cbn [atom_at vscale where_ in_frame ax ay az bond_axes number weight]; split; ring.
  - intros pr axes r ats' E. cbn [normalize bond_symm] in E. split4 E. discriminate.
Qed.
Lemma bond_first pr axes r ats' : normalize bond_symm (to_angstrom bond_symm bond_atoms) = (pr, axes, r, ats') -> first_is_x axes.
Proof. intros E. cbn [normalize bond_symm] in E. split4 E. intros _ H. cbn in H. lra. Qed.

Lemma bond_loaded : exists l, load_input bond_symm bond_in = Some l /\ l_rotor l = Diatomic /\ l_axes l = bond_axes.
Proof.
  destruct bond_read as (s0 & E & Ha). unfold load_input. rewrite E. cbn [obind]. unfold process_molecule. rewrite Ha.
  cbn [normalize to_angstrom bond_symm atoms is_sym_top obind orient_geom point_group is_linear andb negb].
  set (at_ := map _ (combine _ _)).
  assert (Ln : List.length at_ = 2%nat) by (unfold at_; rewrite map_length, combine_length, !map_length; reflexivity).
  rewrite Ln. assert (Sz : exists sz, make_sizes 2 true = Some sz) by (eexists; reflexivity).
  destruct Sz as (sz & ->). cbn [obind]. eexists. split; [reflexivity|]. split; [reflexivity|]. cbn [l_axes].
  destruct (fix_linear_cases bond_axes bond_orth) as [[-> _]|(_ & H & _)]; [reflexivity|cbn in H; lra].
Qed.

Lemma bond_numbers :
  numbers (listing bond_z2) = Some (map IZR bond_z2) /\
  load_vec (listing bond_z3) = Some (map IZR bond_z3) /\ load_vec (listing bond_z4) = Some (map IZR bond_z4).
Proof.
  unfold numbers, load_vec. cbn [fparse Rtext].
  split; [|split]; rewrite omap_opt;
  match goal with |- option_map ?f ?a = Some (map _ ?b) => assert (Q : a = Some b) by (vm_compute; reflexivity); rewrite Q end; reflexivity.
Qed.
Lemma bond_listed i j : (i < 6)%nat -> (j < 6)%nat -> nth_error (map IZR bond_z2) (i * 6 + j) = Some (IZR (bond_value [i; j])).
Proof.
  intros Hi Hj. rewrite nth_error_map.
  assert (Q : forallb (fun i => forallb (fun j => match nth_error bond_z2 (i * 6 + j) with
    | Some z => (z =? bond_value [i; j])%Z | None => false end) (seq 0 6)) (seq 0 6) = true) by (vm_compute; reflexivity).
  rewrite forallb_forall in Q. specialize (Q i). rewrite forallb_forall in Q.
  assert (Q' := Q (proj2 (in_seq 6 0 i) (conj (Nat.le_0_l i) Hi)) j (proj2 (in_seq 6 0 j) (conj (Nat.le_0_l j) Hj))).
  cbn beta in Q'. destruct (nth_error bond_z2 (i * 6 + j)) as [z|]; [|discriminate].
  apply Z.eqb_eq in Q'. subst z. reflexivity.
Qed.
Lemma bond_two i j : (i < 6)%nat -> (j < 6)%nat -> bond_value [i; j] = bond_value [j; i].
Proof. intros Hi Hj. six i; six j; reflexivity. Qed.
Lemma bond_symmetric : symmetric_list 6 (map IZR bond_z2).
Proof. intros i j Hi Hj. rewrite !bond_listed by assumption. now rewrite bond_two. Qed.
Lemma bond_f2 fc2 : lists2 6 (map IZR bond_z2) fc2 -> forall i j, (i < 6)%nat -> (j < 6)%nat -> fc2 i j = IZR (bond_value [i; j]).
Proof. intros L i j Hi Hj. apply some_eq. now rewrite <- (L i j), bond_listed. Qed.

Lemma bond_v (e u g : nat -> R) : e 0%nat = 0 -> e 1%nat = 0 -> e 2%nat = 2 ->
  Sum 6 (fun q => g q * (e (q mod 3)%nat / len3 e * u (q / 3)%nat)) = g 2%nat * u 0%nat + g 5%nat * u 1%nat.
Proof.
  intros E0 E1 E2. assert (L : len3 e = 2).
  { unfold len3. rewrite E0, E1, E2. replace (0 ^ 2 + 0 ^ 2 + 2 ^ 2) with (2 * 2) by ring. apply sqrt_square. lra. }
  rewrite sum6, L. unfold Nat.div, Nat.modulo. cbn [Nat.divmod fst snd Nat.sub]. rewrite E0, E1, E2. field.
Qed.
Lemma bond_f3 f3x : lists3 6 (map IZR bond_z3) f3x ->
  f3x 2%nat 2%nat 2%nat = 2 /\ f3x 5%nat 2%nat 2%nat = -2 /\ f3x 5%nat 5%nat 2%nat = 2 /\ f3x 5%nat 5%nat 5%nat = -2.
Proof.
  intros L.
  assert (Q : forall i j k z, (k <= j)%nat -> (j <= i)%nat -> (i < 6)%nat ->
    nth_error bond_z3 (k + j * (j + 1) / 2 + i * (i + 1) * (i + 2) / 6) = Some z -> f3x i j k = IZR z).
  { intros i j k z H1 H2 H3 E. apply some_eq. rewrite <- (L i j k H1 H2 H3 _ _ _ (Permutation_refl _)). now rewrite nth_error_map, E. }
  repeat split; apply Q; try lia; vm_compute; reflexivity.
Qed.
Lemma bond_f4 f4x : lists4 6 (map IZR bond_z4) f4x ->
  f4x 2%nat 2%nat 2%nat 2%nat = 6 /\ f4x 5%nat 2%nat 2%nat 2%nat = -6 /\ f4x 5%nat 5%nat 2%nat 2%nat = 6 /\
  f4x 5%nat 5%nat 5%nat 2%nat = -6 /\ f4x 5%nat 5%nat 5%nat 5%nat = 6.
Proof.
  intros L.
  assert (Q : forall i j k l z, (l <= k)%nat -> (k <= j)%nat -> (j <= i)%nat -> (i < 6)%nat ->
    nth_error bond_z4 (l + k * (k + 1) / 2 + j * (j + 1) * (j + 2) / 6 + i * (i + 1) * (i + 2) * (i + 3) / 24) = Some z -> f4x i j k l = IZR z).
  { intros i j k l z H1 H2 H3 H4 E. apply some_eq. rewrite <- (L i j k l H1 H2 H3 H4 _ _ _ _ (Permutation_refl _)). now rewrite nth_error_map, E. }
  repeat split; apply Q; try lia; vm_compute; reflexivity.
Qed.
Lemma bond_is_energy e fc2 f3x f4x : e 0%nat = 0 -> e 1%nat = 0 -> e 2%nat = 2 ->
  lists2 6 (map IZR bond_z2) fc2 -> lists3 6 (map IZR bond_z3) f3x -> lists4 6 (map IZR bond_z4) f4x -> bond_energy e fc2 f3x f4x 1 (-2) 6.
Proof.
  intros E0 E1 E2 L2 L3 L4. unfold bond_energy. split; [|split].
  - assert (L : len3 e = 2).
    { unfold len3. rewrite E0, E1, E2. replace (0 ^ 2 + 0 ^ 2 + 2 ^ 2) with (2 * 2) by ring. apply sqrt_square. lra. }
    intros i j a b Hi Hj Ha Hb. rewrite (bond_f2 _ L2) by lia. rewrite L.
    assert (Ci : (i = 0 \/ i = 1)%nat) by lia. assert (Cj : (j = 0 \/ j = 1)%nat) by lia.
    destruct Ci as [-> | ->], Cj as [-> | ->]; three a; three b; rewrite ?E0, ?E1, ?E2; cbn; field.
  - intros u. cbv zeta. destruct (bond_f3 _ L3) as (A & B & C & D). assert (T := lists3_tsym _ _ _ L3).
    rewrite (bond_v e u _ E0 E1 E2). rewrite !(bond_v e u _ E0 E1 E2).
    assert (B1 : f3x 2%nat 5%nat 2%nat = -2) by (rewrite (proj1 (T 2 5 2 ltac:(lia) ltac:(lia) ltac:(lia)))%nat; exact B).
    assert (B2 : f3x 2%nat 2%nat 5%nat = -2) by (rewrite (proj2 (T 2 2 5 ltac:(lia) ltac:(lia) ltac:(lia)))%nat; exact B1).
    assert (C1 : f3x 5%nat 2%nat 5%nat = 2) by (rewrite (proj2 (T 5 2 5 ltac:(lia) ltac:(lia) ltac:(lia)))%nat; exact C).
    assert (C2 : f3x 2%nat 5%nat 5%nat = 2) by (rewrite (proj1 (T 2 5 5 ltac:(lia) ltac:(lia) ltac:(lia)))%nat; exact C1).
    rewrite A, B, B1, B2, C, C1, C2, D. ring.
  - intros u. cbv zeta. destruct (bond_f4 _ L4) as (A & B & C & D & E). assert (T := lists4_tsym _ _ _ L4).
    assert (T1 : forall a b c d, (a < 6)%nat -> (b < 6)%nat -> (c < 6)%nat -> (d < 6)%nat -> f4x a b c d = f4x b a c d) by (intros; now apply T).
    assert (T2 : forall a b c d, (a < 6)%nat -> (b < 6)%nat -> (c < 6)%nat -> (d < 6)%nat -> f4x a b c d = f4x a c b d) by (intros; now apply T).
    assert (T3 : forall a b c d, (a < 6)%nat -> (b < 6)%nat -> (c < 6)%nat -> (d < 6)%nat -> f4x a b c d = f4x a b d c) by (intros; now apply T).
    rewrite (bond_v e u _ E0 E1 E2). rewrite !(bond_v e u _ E0 E1 E2).
    assert (B1 : f4x 2%nat 5%nat 2%nat 2%nat = -6) by (rewrite T1 by lia; exact B).
    assert (B2 : f4x 2%nat 2%nat 5%nat 2%nat = -6) by (rewrite T2 by lia; exact B1).
    assert (B3 : f4x 2%nat 2%nat 2%nat 5%nat = -6) by (rewrite T3 by lia; exact B2).
    assert (C1 : f4x 5%nat 2%nat 5%nat 2%nat = 6) by (rewrite T2 by lia; exact C).
    assert (C2 : f4x 5%nat 2%nat 2%nat 5%nat = 6) by (rewrite T3 by lia; exact C1).
    assert (C3 : f4x 2%nat 5%nat 5%nat 2%nat = 6) by (rewrite T1 by lia; exact C1).
    assert (C4 : f4x 2%nat 5%nat 2%nat 5%nat = 6) by (rewrite T1 by lia; exact C2).
    assert (C5 : f4x 2%nat 2%nat 5%nat 5%nat = 6) by (rewrite T2 by lia; exact C4).
    assert (D1 : f4x 5%nat 5%nat 2%nat 5%nat = -6) by (rewrite T3 by lia; exact D).
    assert (D2 : f4x 5%nat 2%nat 5%nat 5%nat = -6) by (rewrite T2 by lia; exact D1).
    assert (D3 : f4x 2%nat 5%nat 5%nat 5%nat = -6) by (rewrite T1 by lia; exact D2).
    rewrite A, B, B1, B2, B3, C, C1, C2, C3, C4, C5, D, D1, D2, D3, E. ring.
Qed.

Lemma bond_g2 fc2 a b : lists2 6 (map IZR bond_z2) fc2 -> (a < 6)%nat -> (b < 6)%nat ->
  con2 6 (every_atom bond_axes) fc2 a b = 2 * two_f2 a b.
Proof.
  intros L Ha Hb. unfold con2, con1. rewrite sum6. rewrite !sum6. rewrite !(bond_f2 _ L) by lia.
  unfold every_atom, bond_axes, two_f2, two_s, Nat.div, Nat.modulo.
  six a; six b; cbn [Nat.divmod fst snd Nat.sub Nat.eqb nth];
  unfold bond_value, how_many, bond_sign, bond_table; cbn; lra.
Qed.
Lemma bond_solves fc2 w : (forall q, (q < 2)%nat -> w q = two_w q) -> lists2 6 (map IZR bond_z2) fc2 ->
  solves 6 bond_eig (secular 2 bond_axes fc2 w).
Proof.
  intros Hw L. unfold solves, eigen_system. cbn [bond_eig fst snd]. split; [reflexivity|]. split.
  - exact (proj1 (proj2 two_solves)).
  - intros a i v Ha Hv.
    assert (S3 : sqrt 9 = 3) by (replace 9 with (3 * 3) by lra; apply sqrt_square; lra).
    assert (S4 : sqrt 16 = 4) by (replace 16 with (4 * 4) by lra; apply sqrt_square; lra).
    transitivity (Sum 6 (fun b => 2 * weighted two_w two_f2 a b * two_V b i)).
    { apply sum_g. intros b Hb. f_equal.
      rewrite (secular_R 2 bond_axes fc2 w a b).
      - change (3 * 2)%nat with 6%nat. unfold weighted. rewrite bond_g2, !Hw by (assumption || (apply Nat.div_lt_upper_bound; lia)).
        unfold Rdiv. ring.
      - intros p q Hp Hq. rewrite !(bond_f2 _ L) by assumption. now rewrite bond_two.
      - intros q Hq. rewrite Hw by exact Hq. destruct q; cbn; lra.
      - exact Ha.
      - exact Hb. }
    assert (i < 6)%nat by (apply (nth_error_Some bond_vals i); congruence).
    rewrite sum6. unfold weighted, Nat.div, two_f2. set (F := @FACT2 R Rnum) in *. unfold bond_vals in Hv. fold F in Hv. clearbody F.
    six i; cbn [nth_error] in Hv; (assert (Ev := f_equal (fun o => match o with Some y => y | None => 0 end) Hv); cbn in Ev; subst v; clear Hv);
      six a; cbn [Nat.divmod fst Nat.sub two_w]; rewrite S3, S4; unfold two_s, two_V; cbn [nth]; field.
Qed.

Lemma bond_masses_w q : (q < 2)%nat -> nth q (bond_masses bond_atoms) 0 = two_w q.
Proof. intros Hq. assert (C : (q = 0 \/ q = 1)%nat) by lia. destruct C as [-> | ->]; reflexivity. Qed.

(** everything that [diatomic_from_files] asks for *)
Lemma bond_meets : exists s0 l,
  read bond_in = Some s0 /\ load_input bond_symm bond_in = Some l /\ atoms s0 = bond_atoms /\
  symm_ok bond_symm (1 / 2) bond_mass (atoms s0) /\ l_rotor l = Diatomic /\ l_axes l = bond_axes /\
  let mass q := nth q (masses bond_symm (atoms s0)) 0 in
  let e c := comp (place_of (atoms s0) 1) c - comp (place_of (atoms s0) 0) c in
  (forall pr axes rot ats', normalize bond_symm (to_angstrom bond_symm (atoms s0)) = (pr, axes, rot, ats') -> first_is_x axes) /\
  mass 0%nat = 9 /\ mass 1%nat = 16 /\ 1 / 2 * len3 e = 1 /\
  Forall plain (molecule_lines bond_symm (atoms (l_input l))) /\
  (forall fc2, lists2 6 (map IZR bond_z2) fc2 -> solves 6 bond_eig (secular 2 (l_axes l) fc2 mass)) /\
  (forall fc2 f3x f4x, lists2 6 (map IZR bond_z2) fc2 -> lists3 6 (map IZR bond_z3) f3x -> lists4 6 (map IZR bond_z4) f4x ->
     bond_energy e fc2 f3x f4x 1 (-2) 6).
Proof.
  destruct bond_read as (s0 & E & Ha). destruct bond_loaded as (l & El & Hr & Hx). exists s0, l.
  split; [exact E|]. split; [exact El|]. split; [exact Ha|]. rewrite Ha. split; [exact bond_ok|]. split; [exact Hr|]. split; [exact Hx|].
  cbv zeta. split; [exact bond_first|]. split; [reflexivity|]. split; [reflexivity|].
  assert (Z : forall c, comp (place_of bond_atoms 1) c - comp (place_of bond_atoms 0) c = match c with 0%nat | 1%nat => 0 | _ => 2 end)
    by (intros [|[|[|c]]]; cbn; lra).
  split.
  { unfold len3. rewrite !Z. replace (0 ^ 2 + 0 ^ 2 + 2 ^ 2) with (2 * 2) by ring. rewrite sqrt_square; lra. }
  split.
  { cbn [molecule_lines bond_symm]. apply Forall_forall. intros x Hx'. apply in_map_iff in Hx' as (a & <- & _).
    apply plain_app; [|apply plain_show]. split; [repeat constructor|cbn; intuition discriminate]. }
  split. { intros fc2 L. rewrite Hx. apply bond_solves; [|exact L]. intros q Hq. now apply bond_masses_w. }
  intros fc2 f3x f4x L2 L3 L4. apply bond_is_energy; try assumption; now rewrite Z.
Qed.
Lemma bond_prints : prints sample_er (irrep_text bond_symm) sample_name.
Proof. exact sample_prints_R. Qed.
Lemma bond_program : exists fuel t,
  program bond_symm eig_solve bond_eig fuel sample_er false bond_in (listing bond_z2) (listing bond_z3) (listing bond_z4) = Some t.
Proof.
  destruct bond_meets as (s0 & l & Ei & El & Ha & Ok & Hr & _ & Fx & M0 & M1 & Hl & Hg & Sv & Be). destruct bond_numbers as (N1 & N2 & N3).
  destruct (diatomic_from_files_lemma bond_symm (1 / 2) bond_mass eig_solve bond_eig sample_er sample_name bond_prints ltac:(lra)
    _ _ _ _ s0 l _ _ _ 1 (-2) 6 Ei El N1 N2 N3 Ok Hr ltac:(now rewrite Ha) Fx) as (fuel & Q).
  { rewrite M0; lra. } { rewrite M1; lra. } { exact Hg. } { now rewrite map_length. } { exact bond_symmetric. }
  { now rewrite map_length. } { now rewrite map_length. } { exact Sv. } { exact Be. } { lra. }
  { rewrite Hl. unfold reduced. rewrite M0, M1. lra. }
  destruct (Q fuel (le_n _)) as (t & _ & Et & _). eauto.
Qed.
