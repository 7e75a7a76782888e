(** Two atoms of masses 9 and 16 on a line, at distance 1. *)
From Coq Require Import Reals Lra List ZArith Arith Lia Bool.
From Verif Require Import Num Loops ListFacts AnharmFacts Modes ResFacts FrameFacts Transform TransformFacts RotFacts HarmFacts ModeFacts InertiaFacts ReportFacts GeomFacts
  Geom Finish VibRot Report ThreeWitness LinearWitness DiatomicRun DiatomicTurned.
Import ListNotations.
Open Scope nat_scope.
Local Open Scope R_scope.

Definition two_w (i : nat) : R := match i with 0%nat => 9 | _ => 16 end.
Definition two_x (i : nat) : R := match i with 0%nat => - (16 / 25) | _ => 9 / 25 end.
Definition two_geom (i : nat) : R * R * R := (two_x i, 0, 0).
Definition two_mol : molecule R :=
  let I := fun a => inertia 2 two_w two_geom a a in
  mk_mol Diatomic [1; 1; 1; 1; 1; 1; 1; 4]%Z 2 1 two_geom two_w (fun a => rot_const (I a)) I.
(** the derivative of the length of the bond *)
Definition two_s (a : nat) : R := nth a [-1; 0; 0; 1; 0; 0] 0.
Definition two_f2 (a b : nat) : R := two_s a * two_s b / 2.
Definition two_f3 (a b c : nat) : R := - (two_s a * two_s b * two_s c).
Definition two_f4 (a b c d : nat) : R := 3 * (two_s a * two_s b * two_s c * two_s d).
Definition two_V (a i : nat) : R :=
  nth a match i with
    | 0%nat => [- (4 / 5); 0; 0; 3 / 5; 0; 0]
    | 1%nat => [3 / 5; 0; 0; 4 / 5; 0; 0]
    | 2%nat => [0; 1; 0; 0; 0; 0]
    | 3%nat => [0; 0; 1; 0; 0; 0]
    | 4%nat => [0; 0; 0; 0; 1; 0]
    | _ => [0; 0; 0; 0; 0; 1]
    end 0.
Definition two_vals : list R := [@FACT2 R Rnum * (25 / 288); 0; 0; 0; 0; 0].
Definition two_eig (A : nat -> nat -> R) : list R * (nat -> nat -> R) := (two_vals, two_V).

Ltac six a := cases a 6%nat.
Lemma two_axes u a : (a < 6)%nat -> con1 6 (every_atom delta) u a = u a.
Proof.
  intros Ha. transitivity (con1 6 delta u a); [|now apply con1_delta].
  unfold con1. apply sum_g. intros b Hb. now rewrite every_atom_delta.
Qed.
Lemma two_g2 a b : (a < 6)%nat -> (b < 6)%nat -> con2 6 (every_atom delta) two_f2 a b = two_f2 a b.
Proof. intros. unfold con2. rewrite !two_axes by assumption. reflexivity. Qed.
Lemma two_g3 a b c : (a < 6)%nat -> (b < 6)%nat -> (c < 6)%nat -> con3 6 (every_atom delta) two_f3 a b c = two_f3 a b c.
Proof. intros. unfold con3, con2. rewrite !two_axes by assumption. reflexivity. Qed.
Lemma two_g4 a b c d : (a < 6)%nat -> (b < 6)%nat -> (c < 6)%nat -> (d < 6)%nat -> con4 6 (every_atom delta) two_f4 a b c d = two_f4 a b c d.
Proof. intros. unfold con4, con3, con2. rewrite !two_axes by assumption. reflexivity. Qed.

Lemma two_bond : Rabs (two_x 1 - two_x 0) = 1 /\ (forall u, growth two_x u = u 1%nat - u 0%nat).
Proof.
  assert (E : two_x 1 - two_x 0 = 1) by (cbn; lra).
  split; [rewrite E; apply Rabs_R1|]. intros u. unfold growth. rewrite E, Rabs_R1. field.
Qed.
Lemma two_field : bond_field two_x (con2 6 (every_atom delta) two_f2) (con3 6 (every_atom delta) two_f3)
  (con4 6 (every_atom delta) two_f4) (1 / 2) (-1) 3.
Proof.
  destruct two_bond as [_ G]. unfold bond_field. split; [|split; [|split]].
  - intros a b Ha Hb N. rewrite two_g2 by assumption. unfold two_f2.
    destruct N as [N|N]; [six a|six b]; cbn in N; try (exfalso; apply N; reflexivity); cbn; lra.
  - intros u. rewrite G, !sum2, !two_g2 by lia. unfold two_f2, two_s. cbn [nth Nat.mul Nat.add]. field.
  - intros u. rewrite G, !sum2, !two_g3 by lia. unfold two_f3, two_s. cbn [nth Nat.mul Nat.add]. ring.
  - intros u. rewrite G, !sum2, !two_g4 by lia. unfold two_f4, two_s. cbn [nth Nat.mul Nat.add]. ring.
Qed.
Lemma two_solves : solves 6 two_eig (secular 2 delta two_f2 two_w).
Proof.
  unfold solves, eigen_system. cbn [two_eig fst snd]. split; [reflexivity|]. split.
  - split; intros a b Ha Hb; rewrite sum6; six a; six b; unfold two_V, delta; cbn [nth Nat.eqb]; lra.
  - intros a i v Ha Hv.
    assert (S3 : sqrt 9 = 3) by (replace 9 with (3 * 3) by lra; apply sqrt_square; lra).
    assert (S4 : sqrt 16 = 4) by (replace 16 with (4 * 4) by lra; apply sqrt_square; lra).
    transitivity (Sum 6 (fun b => weighted two_w two_f2 a b * two_V b i)).
    { apply sum_g. intros b Hb. f_equal.
      rewrite (secular_R 2 delta two_f2 two_w a b).
      - unfold weighted. now rewrite two_g2.
      - intros p q Hp Hq. unfold two_f2. lra.
      - intros q Hq. destruct q; cbn; lra.
      - exact Ha.
      - exact Hb. }
    assert (i < 6)%nat by (apply (nth_error_Some two_vals i); congruence).
    rewrite sum6. unfold weighted, Nat.div, two_f2. set (F := @FACT2 R Rnum) in *. unfold two_vals in Hv. fold F in Hv. clearbody F.
    six i; cbn [nth_error] in Hv; (assert (Ev := f_equal (fun o => match o with Some y => y | None => 0 end) Hv); cbn in Ev; subst v; clear Hv);
      six a; cbn [Nat.divmod fst Nat.sub two_w]; rewrite S3, S4; unfold two_s, two_V; cbn [nth]; field.
Qed.

Lemma two_example :
  let m := two_mol in
  m_rotor m = Diatomic /\ m_natom m = 2%nat /\ m_nvib m = 1%nat /\
  0 < m_w m 0%nat /\ 0 < m_w m 1%nat /\
  (forall q, (q < 2)%nat -> m_geom m q = (two_x q, 0, 0)) /\ two_x 0%nat <> two_x 1%nat /\
  m_w m 0%nat * two_x 0%nat + m_w m 1%nat * two_x 1%nat = 0 /\
  (forall a, (a < 3)%nat -> m_primat m a = inertia 2 (m_w m) (m_geom m) a a) /\
  (forall a, (a < 3)%nat -> m_rotcon m a = rot_const (m_primat m a)) /\
  / 100 < reduced (m_w m) * Rabs (two_x 1 - two_x 0) ^ 2 /\
  sym2 6 two_f2 /\ tsym3 6 two_f3 /\ tsym4 6 two_f4 /\
  bond_field two_x (con2 6 (every_atom delta) two_f2) (con3 6 (every_atom delta) two_f3)
    (con4 6 (every_atom delta) two_f4) (1 / 2) (-1) 3 /\
  solves 6 two_eig (secular 2 delta two_f2 (m_w m)).
Proof.
  cbv zeta. cbn [two_mol m_rotor m_natom m_nvib m_w m_geom m_primat m_rotcon].
  do 3 (split; [reflexivity|]). split; [cbn; lra|]. split; [cbn; lra|]. split; [reflexivity|].
  split; [cbn; lra|]. split; [cbn; lra|]. split; [reflexivity|]. split; [reflexivity|].
  split. { rewrite (proj1 two_bond). unfold reduced. cbn [two_w]. lra. }
  split. { intros a b _ _. unfold two_f2. lra. }
  split. { intros a b c _ _ _. unfold two_f3. split; ring. }
  split. { intros a b c d _ _ _ _. unfold two_f4. repeat split; ring. }
  split; [exact two_field|exact two_solves].
Qed.

(** the same molecule with the bond along y *)
Definition y_f2 (a b : nat) : R := two_f2 (swap_xy a) (swap_xy b).
Definition y_f3 (a b c : nat) : R := two_f3 (swap_xy a) (swap_xy b) (swap_xy c).
Definition y_f4 (a b c d : nat) : R := two_f4 (swap_xy a) (swap_xy b) (swap_xy c) (swap_xy d).
Definition y_eig (A : nat -> nat -> R) : list R * (nat -> nat -> R) := (two_vals, fun a i => two_V (swap_xy a) i).
Lemma y_solves : solves 6 y_eig (secular 2 delta y_f2 two_w).
Proof.
  assert (Ps : forall q, (q < 2)%nat -> 0 < two_w q) by (intros q Hq; destruct q; cbn; lra).
  assert (Sy : sym2 6 two_f2) by (intros a b _ _; unfold two_f2; lra).
  assert (Sy' : sym2 6 y_f2) by (intros a b _ _; unfold y_f2, two_f2; lra).
  unfold solves. cbn [y_eig fst snd]. pose proof (swap_eigen _ _ _ two_solves) as (L & O & E).
  split; [exact L|]. split; [exact O|]. intros a i v Ha Hv. cbn [two_eig fst snd] in E, Hv. specialize (E a i v Ha Hv).
  rewrite <- E. apply sum_g. intros b Hb. f_equal.
  rewrite (secular_R 2 delta y_f2 two_w a b Sy' Ps Ha Hb), (secular_R 2 delta two_f2 two_w) by (assumption || now apply swap_lt).
  change (3 * 2)%nat with 6%nat. unfold weighted. rewrite !swap_div by assumption. rewrite two_g2 by (now apply swap_lt).
  unfold con2. rewrite !two_axes by assumption. reflexivity.
Qed.
Lemma y_example :
  let m := two_mol in
  m_rotor m = Diatomic /\ m_natom m = 2%nat /\ m_nvib m = 1%nat /\
  0 < m_w m 0%nat /\ 0 < m_w m 1%nat /\
  (forall q, (q < 2)%nat -> m_geom m q = (two_x q, 0, 0)) /\ two_x 0%nat <> two_x 1%nat /\
  sym2 6 y_f2 /\ tsym3 6 y_f3 /\ tsym4 6 y_f4 /\
  bond_field two_x (fun a b => con2 6 (every_atom delta) y_f2 (swap_xy a) (swap_xy b))
    (fun a b c => con3 6 (every_atom delta) y_f3 (swap_xy a) (swap_xy b) (swap_xy c))
    (fun a b c d => con4 6 (every_atom delta) y_f4 (swap_xy a) (swap_xy b) (swap_xy c) (swap_xy d)) (1 / 2) (-1) 3 /\
  solves 6 y_eig (secular 2 delta y_f2 (m_w m)).
Proof.
  cbv zeta. cbn [two_mol m_rotor m_natom m_nvib m_w m_geom m_primat m_rotcon].
  do 3 (split; [reflexivity|]). split; [cbn; lra|]. split; [cbn; lra|]. split; [reflexivity|].
  split; [cbn; lra|].
  split. { intros a b _ _. unfold y_f2, two_f2. lra. }
  split. { intros a b c _ _ _. unfold y_f3, two_f3. split; ring. }
  split. { intros a b c d _ _ _ _. unfold y_f4, two_f4. repeat split; ring. }
  split; [|exact y_solves].
  destruct two_field as (Z & Q2 & Q3 & Q4). 
  assert (G2 : forall a b, (a < 6)%nat -> (b < 6)%nat -> con2 6 (every_atom delta) y_f2 (swap_xy a) (swap_xy b) = con2 6 (every_atom delta) two_f2 a b).
  { intros a b Ha Hb. rewrite two_g2 by assumption. unfold con2. rewrite !two_axes by (now apply swap_lt). unfold y_f2. now rewrite !swap_swap. }
  assert (G3 : forall a b c, (a < 6)%nat -> (b < 6)%nat -> (c < 6)%nat ->
    con3 6 (every_atom delta) y_f3 (swap_xy a) (swap_xy b) (swap_xy c) = con3 6 (every_atom delta) two_f3 a b c).
  { intros a b c Ha Hb Hc. rewrite two_g3 by assumption. unfold con3, con2. rewrite !two_axes by (now apply swap_lt). unfold y_f3. now rewrite !swap_swap. }
  assert (G4 : forall a b c d, (a < 6)%nat -> (b < 6)%nat -> (c < 6)%nat -> (d < 6)%nat ->
    con4 6 (every_atom delta) y_f4 (swap_xy a) (swap_xy b) (swap_xy c) (swap_xy d) = con4 6 (every_atom delta) two_f4 a b c d).
  { intros a b c d Ha Hb Hc Hd. rewrite two_g4 by assumption. unfold con4, con3, con2. rewrite !two_axes by (now apply swap_lt). unfold y_f4. now rewrite !swap_swap. }
  split; [|split; [|split]].
  - intros a b Ha Hb N. rewrite G2 by assumption. now apply Z.
  - intros u. rewrite <- (Q2 u). apply sum_g. intros i Hi. apply sum_g. intros j Hj. now rewrite G2 by lia.
  - intros u. rewrite <- (Q3 u). apply sum_g. intros i Hi. apply sum_g. intros j Hj. apply sum_g. intros k Hk. now rewrite G3 by lia.
  - intros u. rewrite <- (Q4 u). apply sum_g. intros i Hi. apply sum_g. intros j Hj. apply sum_g. intros k Hk. apply sum_g. intros l Hl. now rewrite G4 by lia.
Qed.
