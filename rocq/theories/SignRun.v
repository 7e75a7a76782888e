(** Signs of the modes for every kind of molecule; descriptions that are the same field. *)
From Coq Require Import Reals Lra List ZArith Arith Lia Bool Permutation FunctionalExtensionality.
From Verif Require Import Num Loops ListFacts Index IndexFacts LoadFacts Modes ModesFacts ResFacts Anharm AnharmFacts
  FermiFacts VibRot VibRotFacts Distort Transform TransformFacts RotFacts ModeFacts SymAnharm SymE0 Report Polyads Geom Finish FinishFacts
  RunFacts SignFacts SignSym SameFinish SameRun.
Import ListNotations.
Open Scope nat_scope.
Local Open Scope R_scope.

Lemma renumbering_id N : renumbering N (fun q => q).
Proof. split; auto. Qed.
Lemma coord_id a : coord (fun q => q) a = a.
Proof. unfold coord. symmetry. apply Nat.div_mod. lia. Qed.

Lemma zmat_sg N s (L L' : nat -> nat -> R) : (forall a i, L' a i = s i * L a i) -> zmat N L' = sg2 s (zmat N L).
Proof.
  intros HL. extensionality i. extensionality j. extensionality a. unfold sg2.
  apply (zmat_re N (fun q => q) s L L' (S (i + j)) (fun _ => (0, 0, 0)) (fun _ => (0, 0, 0)) (fun _ => 0) (fun _ => 0)); auto; try lia.
  - apply renumbering_id.
  - intros b k _ _. now rewrite coord_id.
Qed.
Lemma wila_sg N geom w s (L L' : nat -> nat -> R) : (forall a i, L' a i = s i * L a i) ->
  wila N geom w L' = sg1 s (wila N geom w L).
Proof.
  intros HL. extensionality i. extensionality t. unfold sg1.
  apply (wila_re N (fun q => q) s L L' (S i) geom geom w w); auto.
  - apply renumbering_id.
  - intros b k _ _. now rewrite coord_id.
Qed.

Section Finish.
  Context {I : Type}.
  Variable eig2 : R -> R -> R -> R * R * (R * R).

  Lemma finish_sign_lemma (m : molecule R) (s : nat -> R) (freql f3l f4l f3l' f4l' : list R) (irreps : list I) lxm lx lxm' lx' o :
    (forall a b c, eig_ok eig2 a b c) ->
    (forall i, s i = 1 \/ s i = -1) -> (0 < m_natom m)%nat ->
    (forall a i, lxm' a i = s i * lxm a i) ->
    (forall i j k, nth (find3 i j k) f3l' 0 = s i * s j * s k * nth (find3 i j k) f3l 0) ->
    (forall i j k l, nth (find4 i j k l) f4l' 0 = s i * s j * s k * s l * nth (find4 i j k l) f4l 0) ->
    finish eig2 false m freql f3l f4l irreps lxm lx = Some o ->
    (forall k k2, In (k, k2) (i2mode (rs_modes (out_resonances o))) -> s k = s k2) ->
    exists o', finish eig2 false m freql f3l' f4l' irreps lxm' lx' = Some o' /\ numbers o' = numbers o.
  Proof.
    intros He Hs HN HL T3 T4 E Hp.
    unfold finish in *. cbv zeta in *.
    set (freq := fun i => nth i freql (nz 0)) in *.
    set (f3 := fun i j k => nth (find3 i j k) f3l (nz 0)) in *.
    set (f4 := fun i j k l => nth (find4 i j k l) f4l (nz 0)) in *.
    replace (fun i j k => nth (find3 i j k) f3l' (nz 0)) with (sg3 s f3)
      by (extensionality i; extensionality j; extensionality k; unfold sg3, f3; rewrite !nz_R; now rewrite T3).
    replace (fun i j k l => nth (find4 i j k l) f4l' (nz 0)) with (sg4 s f4)
      by (extensionality i; extensionality j; extensionality k; extensionality l; unfold sg4, f4; rewrite !nz_R; now rewrite T4).
    rewrite (zmat_sg _ s lxm lxm' HL), (wila_sg _ _ _ s lxm lxm' HL).
    set (zm := zmat (m_natom m) lxm) in *. set (wl := wila (m_natom m) (m_geom m) (m_w m) lxm) in *.
    rewrite quartic_sg by exact Hs.
    match type of E with obind ?a _ = _ => destruct a as [q|] eqn:Eq; [|discriminate] end. cbn [obind] in E |- *.
    assert (Er : restst_new (m_rotor m) (m_nvib m) (sg2 s zm) (sg3 s f3) freq = restst_new (m_rotor m) (m_nvib m) zm f3 freq).
    { unfold restst_new. destruct (deg_modes _ _ _) as [md|]; [|reflexivity]. cbn [obind].
      now rewrite coriolis_sg, fermi1_sg, fermi2_sg by exact Hs. }
    rewrite Er.
    match type of E with obind ?a _ = _ => destruct a as [rs|] eqn:Ers; [|discriminate] end. cbn [obind] in E |- *.
    match type of E with obind ?a _ = _ => destruct a as [sym|] eqn:Es; [|discriminate] end. cbn [obind] in E |- *.
    assert (Hp' : forall k k2, In (k, k2) (i2mode (rs_modes rs)) -> s k = s k2).
    { assert (Q : out_resonances o = rs).
      { repeat (match type of E with obind ?a _ = _ => destruct a; [|discriminate] end; cbn [obind] in E);
          try (injection E as <-; reflexivity).
        destruct p as [[x g] e0].
        repeat (match type of E with obind ?a _ = _ => destruct a; [|discriminate] end; cbn [obind] in E).
        injection E as <-. reflexivity. }
      rewrite <- Q. exact Hp. }
    rewrite (xcals_sg s Hs f4 freq f3 zm wl (m_rotcon m) (m_primat m) (m_rotor m) _ _ _ Hp'), xcalc_sg, make_e0_sg by exact Hs.
    match type of E with obind ?a _ = _ => destruct a as [[[x g] e0]|] eqn:Ex; [|discriminate] end. cbn [obind andb] in E |- *.
    match type of E with obind ?a _ = _ => destruct a as [lev|] eqn:El; [|discriminate] end. cbn [obind] in E |- *.
    match type of E with obind ?a _ = _ => destruct a as [en|] eqn:Ee; [|discriminate] end. cbn [obind] in E |- *.
    rewrite (enrgy_sg s Hs eig2) by exact He.
    match type of E with obind ?a _ = _ => destruct a as [eng|] eqn:Eg; [|discriminate] end. cbn [obind] in E |- *.
    match type of E with obind ?a _ = _ => destruct a as [li|] eqn:Ei; [|discriminate] end. cbn [obind] in E |- *.
    rewrite alphaa_sg, alphas_sg by exact Hs.
    match type of E with obind ?a _ = _ => destruct a as [rows|] eqn:Ea; [|discriminate] end. cbn [obind] in E |- *.
    match type of E with obind ?a _ = _ => destruct a as [rt|] eqn:Eo; [|discriminate] end. cbn [obind] in E |- *.
    rewrite sextic_sg by exact Hs.
    match type of E with obind ?a _ = _ => destruct a as [sx|] eqn:Esx; [|discriminate] end. cbn [obind] in E |- *.
    match type of E with obind ?a _ = _ => destruct a as [zp|] eqn:Ez; [|discriminate] end. cbn [obind] in E |- *.
    match type of E with obind ?a _ = _ => destruct a as [v1|] eqn:E1; [|discriminate] end. cbn [obind] in E.
    match type of E with obind ?a _ = _ => destruct a as [v2|] eqn:E2; [|discriminate] end. cbn [obind] in E.
    injection E as <-.
    destruct (to_vec_storage (3 * m_natom m) lxm') as (x1 & ->); [lia|].
    destruct (to_vec_storage (3 * m_natom m) lx') as (x2 & ->); [lia|].
    cbn [obind]. eexists. split; reflexivity.
  Qed.
End Finish.

(** the sign of one partner matters for [g] between two degenerate modes *)
Lemma partner_sign_lemma : exists (zm zm' : nat -> nat -> nat -> R) (s : nat -> R),
  (forall i, s i = 1 \/ s i = -1) /\ (forall i j a, zm' i j a = s i * s j * zm i j a) /\
  make_gcnst (fun _ _ _ _ => 0) (fun _ => 1) (fun _ _ _ => 0) zm (fun _ => 1) (make_fermi_checks [] []) [] [(0, 1); (2, 3)]%nat 2 1 1 2%nat 0%nat = 2 /\
  make_gcnst (fun _ _ _ _ => 0) (fun _ => 1) (fun _ _ _ => 0) zm' (fun _ => 1) (make_fermi_checks [] []) [] [(0, 1); (2, 3)]%nat 2 1 1 2%nat 0%nat = -2.
Proof.
  exists (fun i j a => match i, j, a with 0%nat, 1%nat, 2%nat => 1 | 2%nat, 3%nat, 2%nat => 1 | _, _, _ => 0 end).
  exists (fun i j a => match i, j, a with 0%nat, 1%nat, 2%nat => 1 | 2%nat, 3%nat, 2%nat => -1 | _, _, _ => 0 end).
  exists (fun i => match i with 3%nat => -1 | _ => 1 end).
  split. { intros [|[|[|[|i]]]]; auto. }
  split. { intros [|[|[|[|i]]]] [|[|[|[|j]]]] [|[|[|a]]]; ring. }
  split; unfold make_gcnst; cbn; unfold write4, g_value, nsum, acc_add, nsq, upd2; cbn; try lra.
Qed.

(** ** descriptions of the same field *)
Lemma same_solver_lemma N axes fc2 f3x f4x : same_field N (fun q => q) axes fc2 f3x f4x axes fc2 f3x f4x.
Proof. split; [|split]; intros; now rewrite !coord_id. Qed.

Lemma every_atom_re N p axes a b : renumbering N p -> (a < 3 * N)%nat -> (b < 3 * N)%nat ->
  every_atom axes (coord p a) (coord p b) = every_atom axes a b.
Proof.
  intros [_ J] Ha Hb. unfold every_atom, coord.
  assert (D : forall x, ((3 * p (x / 3) + x mod 3) / 3 = p (x / 3))%nat).
  { intros x. symmetry. apply (Nat.div_unique _ 3 _ (x mod 3)); [apply Nat.mod_upper_bound; lia|reflexivity]. }
  assert (M : forall x, ((3 * p (x / 3) + x mod 3) mod 3 = x mod 3)%nat).
  { intros x. symmetry. apply (Nat.mod_unique _ 3 (p (x / 3)%nat)); [apply Nat.mod_upper_bound; lia|reflexivity]. }
  rewrite !D, !M. destruct (Nat.eqb_spec (p (a / 3)%nat) (p (b / 3)%nat)) as [E|E], (Nat.eqb_spec (a / 3) (b / 3)) as [E'|E']; try reflexivity.
  - apply J in E; [contradiction| |]; now apply block_lt.
  - rewrite E' in E. contradiction.
Qed.
Section Renumbered.
  Variables (N : nat) (p : nat -> nat) (axes : nat -> nat -> R).
  Hypothesis Hp : renumbering N p.
  Notation n := (3 * N)%nat.
  Notation U := (every_atom axes).
  Notation t := (coord p).
  Lemma con1_row g g' a : (a < n)%nat -> (forall r, (r < n)%nat -> g' r = g (t r)) -> con1 n U g' a = con1 n U g (t a).
  Proof.
    intros Ha Hg. unfold con1. rewrite <- (sum_renumbered n t (fun r => U r (t a) * g r)) by now apply coord_renumbering.
    apply sum_g. intros r Hr. rewrite Hg by exact Hr. now rewrite (every_atom_re N p axes r a Hp Hr Ha).
  Qed.
  Lemma same_renumbered_lemma fc2 f3x f4x fc2' f3x' f4x' :
    (forall a b, (a < n)%nat -> (b < n)%nat -> fc2' a b = fc2 (t a) (t b)) ->
    (forall a b c, (a < n)%nat -> (b < n)%nat -> (c < n)%nat -> f3x' a b c = f3x (t a) (t b) (t c)) ->
    (forall a b c d, (a < n)%nat -> (b < n)%nat -> (c < n)%nat -> (d < n)%nat -> f4x' a b c d = f4x (t a) (t b) (t c) (t d)) ->
    same_field N p axes fc2 f3x f4x axes fc2' f3x' f4x'.
  Proof.
    intros H2 H3 H4.
    assert (C2 : forall (g g' : nat -> nat -> R) a b, (a < n)%nat -> (b < n)%nat -> (forall r s, (r < n)%nat -> (s < n)%nat -> g' r s = g (t r) (t s)) ->
      con2 n U g' a b = con2 n U g (t a) (t b)).
    { intros g g' a b Ha Hb E. unfold con2. apply con1_row; [exact Ha|]. intros r Hr. apply con1_row; [exact Hb|]. intros; now apply E. }
    assert (C3 : forall (g g' : nat -> nat -> nat -> R) a b c, (a < n)%nat -> (b < n)%nat -> (c < n)%nat ->
      (forall r s q, (r < n)%nat -> (s < n)%nat -> (q < n)%nat -> g' r s q = g (t r) (t s) (t q)) ->
      con3 n U g' a b c = con3 n U g (t a) (t b) (t c)).
    { intros g g' a b c Ha Hb Hc E. unfold con3. apply con1_row; [exact Ha|]. intros r Hr.
      apply C2; try assumption. intros; now apply E. }
    split; [|split].
    - intros a b Ha Hb. now apply C2.
    - intros a b c Ha Hb Hc. now apply C3.
    - intros a b c d Ha Hb Hc Hd. unfold con4. apply con1_row; [exact Ha|]. intros r Hr. apply C3; try assumption.
      intros; now apply H4.
  Qed.
End Renumbered.

(** turning the Cartesian axes: [Q] is the rotation, [axes'] the principal axes in the new frame *)
Lemma every_atom_mprod N Q axes a b : (a < 3 * N)%nat -> (b < 3 * N)%nat ->
  mprod (3 * N) (every_atom Q) (every_atom axes) a b = every_atom (mprod 3 Q axes) a b.
Proof.
  intros Ha Hb. unfold mprod.
  transitivity (con1 (3 * N) (every_atom axes) (every_atom Q a) b). { unfold con1. apply Rsum_ext. intros. ring. }
  rewrite con1_block by exact Hb. unfold every_atom.
  assert (D : forall m, (m < 3)%nat -> ((3 * (b / 3) + m) / 3 = b / 3)%nat).
  { intros m Hm. symmetry. apply (Nat.div_unique _ 3 _ m); lia. }
  assert (M : forall m, (m < 3)%nat -> ((3 * (b / 3) + m) mod 3 = m)%nat).
  { intros m Hm. symmetry. apply (Nat.mod_unique _ 3 (b / 3)%nat); lia. }
  destruct (Nat.eqb_spec (a / 3) (b / 3)) as [E|E].
  - apply sum_g. intros m Hm. rewrite D, M by exact Hm. rewrite E, Nat.eqb_refl. ring.
  - apply Rsum_0. intros m Hm%in_seq. rewrite D by lia. destruct (Nat.eqb_spec (a / 3) (b / 3)); [contradiction|]. ring.
Qed.
Lemma same_turned_lemma N Q axes axes' fc2 f3x f4x :
  (forall i j, (i < 3)%nat -> (j < 3)%nat -> mprod 3 Q axes' i j = axes i j) ->
  same_field N (fun q => q) axes fc2 f3x f4x axes'
    (con2 (3 * N) (every_atom Q) fc2) (con3 (3 * N) (every_atom Q) f3x) (con4 (3 * N) (every_atom Q) f4x).
Proof.
  intros HQ.
  assert (X : forall r c, (r < 3 * N)%nat -> (c < 3 * N)%nat ->
    mprod (3 * N) (every_atom Q) (every_atom axes') r c = every_atom axes r c).
  { intros r c Hr Hc. rewrite every_atom_mprod by assumption. unfold every_atom. destruct (Nat.eqb _ _); [|reflexivity].
    apply HQ; apply Nat.mod_upper_bound; lia. }
  split; [|split].
  - intros a b Ha Hb. rewrite con2_comp, !coord_id. apply con2_mat. intros r c Hr [-> | ->]; now apply X.
  - intros a b c Ha Hb Hc. rewrite con3_comp, !coord_id. apply con3_mat. intros r d Hr [-> | [-> | ->]]; now apply X.
  - intros a b c d Ha Hb Hc Hd. rewrite con4_comp, !coord_id. apply con4_mat. intros r e Hr [-> | [-> | [-> | ->]]]; now apply X.
Qed.
