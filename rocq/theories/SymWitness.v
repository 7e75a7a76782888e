(** Counterexamples about symmetric tops. *)
From Coq Require Import Reals Lra Lia List Arith Bool Permutation Sorted.
From Verif Require Import Num Loops Index Modes VibRot Anharm SymAnharm ListFacts ModesFacts StatesFacts
  ResFacts AnharmFacts VibRotFacts TransformFacts SymFacts SymExact SymE0.
Import ListNotations.
Open Scope R_scope.

Definition zero2 : nat -> nat -> R := fun _ _ => 0.
Definition zero3 : nat -> nat -> nat -> R := fun _ _ _ => 0.
Definition zero4 : nat -> nat -> nat -> nat -> R := fun _ _ _ _ => 0.
Lemma neq_by (c a b : R) : c <> 0 -> a - b = c -> a <> b.
Proof. intros Hc E Q. subst. lra. Qed.

Definition zero1 : nat -> R := fun _ => 0.

(** three nondegenerate modes, w_2 + w_1 ~ w_0 *)
Definition xw (i : nat) : R := match i with 0%nat => 31 | 1%nat => 21 | _ => 11 end.
Definition xf3 (i j k : nat) : R :=
  if ((i + j + k =? 3) && negb (i =? j) && negb (j =? k) && negb (i =? k))%nat then 1 else 0.
Definition xmodes : list mode := [I1 0; I1 1; I1 2].
Definition xres (i j k : nat) : bool :=
  ((i =? 2) && (j =? 1) && (k =? 0) || (i =? 1) && (j =? 2) && (k =? 0))%nat.

Lemma xres_reported : reported [] [(2, 1, 0)%nat] xres.
Proof.
  intros i j k. unfold xres, resonant. rewrite orb_true_iff, !andb_true_iff, !Nat.eqb_eq. cbn [In].
  split.
  - intros [[[-> ->] ->]|[[-> ->] ->]]; right; [left|right]; now left.
  - intros [[_ []]|[[E|[]]|[E|[]]]]; inversion E; subst; auto.
Qed.

Ltac evalR := unfold acc_sub, acc_add, nsum, nsq; cbn [fold_left map];
  rewrite ?nz_R; cbn [nadd nsub nmul ndiv nopp nabs Rnum].

Lemma x_resonance_refuted_lemma :
  exists nvib modes f4 w f3 zeta B r fm1 fm2 res wila x g e0,
    Permutation (flat_map members modes) (seq 0 nvib) /\ reported fm1 fm2 res /\ keys_once fm1 fm2 /\
    (forall i, (i < nvib)%nat -> 0 < w i) /\
    (forall i j m, (i < nvib)%nat -> (j < nvib)%nat -> (m < nvib)%nat ->
       res i j m = false -> w i + w j - w m <> 0) /\
    xcals f4 w f3 zeta B r fm1 fm2 modes wila = Some (x, g, e0) /\
    nth_error (nondeg modes) 0 = Some 0%nat /\ nth_error (nondeg modes) 1 = Some 1%nat /\
    nth_error (nondeg modes) 2 = Some 2%nat /\
    x 1%nat 0%nat <> sx_nn f4 w f3 zeta B res (nondeg modes) 1 0 /\
    x 2%nat 0%nat <> sx_nn f4 w f3 zeta B res (nondeg modes) 2 0.
Proof.
  exists 3%nat, xmodes, zero4, xw, xf3, zero3, zero1, ProlateSymmTop, [], [(2, 1, 0)%nat], xres, zero2.
  assert (Hp : Permutation (flat_map members xmodes) (seq 0 3)) by apply Permutation_refl.
  assert (Hk : keys_once [] [(2, 1, 0)%nat]).
  { refine (conj _ (conj _ _)); cbn; intros.
    - contradiction.
    - intuition congruence.
    - destruct H as [E|[]]. inversion E. lia. }
  assert (Hw : forall i, (i < 3)%nat -> 0 < xw i).
  { intros [|[|[|i]]] Hi; cbn; lra || lia. }
  assert (Hd : forall i j m, (i < 3)%nat -> (j < 3)%nat -> (m < 3)%nat ->
     xres i j m = false -> xw i + xw j - xw m <> 0).
  { intros [|[|[|i]]] [|[|[|j]]] [|[|[|m]]] Hi Hj Hm; cbn; try lia; try discriminate; intros _; lra. }
  destruct (xcals zero4 xw xf3 zero3 zero1 ProlateSymmTop [] [(2, 1, 0)%nat] xmodes zero2) as [[[x g] e0]|] eqn:E.
  2:{ unfold xcals in E. discriminate. }
  exists x, g, e0.
  repeat split; auto; try apply xres_reported; try apply Hk.
  - destruct (shapes xmodes zero4 xw xf3 zero3 zero1 ProlateSymmTop [] [(2, 1, 0)%nat] zero2 x g e0 E) as [-> _].
    rewrite (proj1 (x_nn zero4 xw xf3 zero3 zero1 _ _ 3 xmodes Hp _ 1 0 1 0 ltac:(lia) eq_refl eq_refl)).
    unfold nn_value, sx_nn.
    change (i1mode xmodes) with [0; 1; 2]%nat. change (nondeg xmodes) with [0; 1; 2]%nat.
    evalR. unfold nn_term. cbn [Rsum fold_right].
    cbn -[Rplus Rminus Rmult Rdiv Ropp Rinv IZR plain d1 d2 d3 d4 Rsqr xfrac].
    unfold plain, xfrac, d1, d2, d3, d4, zero1, zero3, zero4, ratio, Rsqr, nsq, keep. unR. rewrite ?nlit_half.
    cbn -[Rplus Rminus Rmult Rdiv Ropp Rinv IZR].
    apply (neq_by (- 1 / 8)); [lra|field].
  - destruct (shapes xmodes zero4 xw xf3 zero3 zero1 ProlateSymmTop [] [(2, 1, 0)%nat] zero2 x g e0 E) as [-> _].
    rewrite (proj1 (x_nn zero4 xw xf3 zero3 zero1 _ _ 3 xmodes Hp _ 2 0 2 0 ltac:(lia) eq_refl eq_refl)).
    unfold nn_value, sx_nn.
    change (i1mode xmodes) with [0; 1; 2]%nat. change (nondeg xmodes) with [0; 1; 2]%nat.
    evalR. unfold nn_term. cbn [Rsum fold_right].
    cbn -[Rplus Rminus Rmult Rdiv Ropp Rinv IZR plain d1 d2 d3 d4 Rsqr xfrac].
    unfold plain, xfrac, d1, d2, d3, d4, zero1, zero3, zero4, ratio, Rsqr, nsq, keep. unR. rewrite ?nlit_half.
    cbn -[Rplus Rminus Rmult Rdiv Ropp Rinv IZR].
    apply (neq_by (- 1795 / 547596)); [lra|field].
Qed.

(** three degenerate modes, w_4 + w_2 ~ w_0 *)
Definition yw (i : nat) : R := match i with 0%nat | 1%nat => 31 | 2%nat | 3%nat => 21 | _ => 11 end.
Definition yf3 (i j k : nat) : R :=
  if ((i + j + k =? 6) && negb (i =? j) && negb (j =? k) && negb (i =? k)
      && Nat.even i && Nat.even j && Nat.even k)%nat then 1 else 0.
Definition ymodes : list mode := [I2 0 1; I2 2 3; I2 4 5].
Definition yres (i j k : nat) : bool :=
  ((i =? 4) && (j =? 2) && (k =? 0) || (i =? 2) && (j =? 4) && (k =? 0))%nat.
Lemma yres_reported : reported [] [(4, 2, 0)%nat] yres.
Proof.
  intros i j k. unfold yres, resonant. rewrite orb_true_iff, !andb_true_iff, !Nat.eqb_eq. cbn [In].
  split.
  - intros [[[-> ->] ->]|[[-> ->] ->]]; right; [left|right]; now left.
  - intros [[_ []]|[[E|[]]|[E|[]]]]; inversion E; subst; auto.
Qed.
Lemma x_degenerate_refuted_lemma :
  exists nvib modes f4 w f3 zeta B r fm1 fm2 res wila x g e0,
    Permutation (flat_map members modes) (seq 0 nvib) /\ reported fm1 fm2 res /\ keys_once fm1 fm2 /\
    asym_lists fm1 fm2 /\
    (forall i, (i < nvib)%nat -> 0 < w i) /\
    (forall i j m, (i < nvib)%nat -> (j < nvib)%nat -> (m < nvib)%nat ->
       res i j m = false -> w i + w j - w m <> 0) /\
    xcals f4 w f3 zeta B r fm1 fm2 modes wila = Some (x, g, e0) /\
    degs modes = [(0, 1); (2, 3); (4, 5)]%nat /\
    forall axis,
    x 4%nat 0%nat <> sx_dd f4 w f3 zeta B res (nondeg modes) (degs modes) axis 4 0 1 /\
    x 2%nat 0%nat <> sx_dd f4 w f3 zeta B res (nondeg modes) (degs modes) axis 2 0 1.
Proof.
  exists 6%nat, ymodes, zero4, yw, yf3, zero3, zero1, ProlateSymmTop, [], [(4, 2, 0)%nat], yres, zero2.
  assert (Hp : Permutation (flat_map members ymodes) (seq 0 6)) by apply Permutation_refl.
  assert (Hk : keys_once [] [(4, 2, 0)%nat]).
  { refine (conj _ (conj _ _)); cbn; intros.
    - contradiction.
    - intuition congruence.
    - destruct H as [E|[]]. inversion E. lia. }
  assert (Ha : asym_lists [] [(4, 2, 0)%nat]).
  { split; [intros i j []|]. intros i j k [E|[]]. injection E as <- <- <-. lia. }
  assert (Hw : forall i, (i < 6)%nat -> 0 < yw i).
  { intros [|[|[|[|[|[|i]]]]]] Hi; cbn; lra || lia. }
  assert (Hd : forall i j m, (i < 6)%nat -> (j < 6)%nat -> (m < 6)%nat ->
     yres i j m = false -> yw i + yw j - yw m <> 0).
  { intros [|[|[|[|[|[|i]]]]]] [|[|[|[|[|[|j]]]]]] [|[|[|[|[|[|m]]]]]] Hi Hj Hm; try lia; cbn; try discriminate; intros _; lra. }
  destruct (xcals zero4 yw yf3 zero3 zero1 ProlateSymmTop [] [(4, 2, 0)%nat] ymodes zero2) as [[[x g] e0]|] eqn:E.
  2:{ unfold xcals in E. discriminate. }
  exists x, g, e0.
  destruct (shapes ymodes zero4 yw yf3 zero3 zero1 ProlateSymmTop [] [(4, 2, 0)%nat] zero2 x g e0 E) as [-> _].
  refine (conj Hp (conj yres_reported (conj Hk (conj Ha (conj Hw (conj Hd (conj eq_refl (conj eq_refl _)))))))).
  intros axis. split.
  - rewrite (proj1 (x_dd zero4 yw yf3 zero3 zero1 _ _ 6 ymodes Hp _ 2 0 4 5 0 1 ltac:(lia) eq_refl eq_refl)).
    unfold v_dd, dd_value, sx_dd. cbn [fst snd].
    change (i1mode ymodes) with (@nil nat). change (i2mode ymodes) with [(0, 1); (2, 3); (4, 5)]%nat.
    change (nondeg ymodes) with (@nil nat). change (degs ymodes) with [(0, 1); (2, 3); (4, 5)]%nat.
    evalR. unfold dd_us. cbn [Rsum fold_right fst].
    cbn -[Rplus Rminus Rmult Rdiv Ropp Rinv IZR d1 d2 d3 d4 Rsqr xfrac].
    unfold xfrac, d1, d2, d3, d4, zero1, zero3, zero4, ratio, Rsqr, nsq, keep. unR. rewrite ?nlit_half.
    cbn -[Rplus Rminus Rmult Rdiv Ropp Rinv IZR].
    apply (neq_by (- 1 / 84)); [lra|field].
  - rewrite (proj1 (x_dd zero4 yw yf3 zero3 zero1 _ _ 6 ymodes Hp _ 1 0 2 3 0 1 ltac:(lia) eq_refl eq_refl)).
    unfold v_dd, dd_value, sx_dd. cbn [fst snd].
    change (i1mode ymodes) with (@nil nat). change (i2mode ymodes) with [(0, 1); (2, 3); (4, 5)]%nat.
    change (nondeg ymodes) with (@nil nat). change (degs ymodes) with [(0, 1); (2, 3); (4, 5)]%nat.
    evalR. unfold dd_us. cbn [Rsum fold_right fst].
    cbn -[Rplus Rminus Rmult Rdiv Ropp Rinv IZR d1 d2 d3 d4 Rsqr xfrac].
    unfold xfrac, d1, d2, d3, d4, zero1, zero3, zero4, ratio, Rsqr, nsq, keep. unR. rewrite ?nlit_half.
    cbn -[Rplus Rminus Rmult Rdiv Ropp Rinv IZR].
    apply (neq_by (- 1 / 8)); [lra|field].
Qed.

(** two degenerate pairs, 2 w_0 ~ w_2 *)
Definition gw (i : nat) : R := match i with 0%nat | 1%nat => 10 | _ => 19 end.
Definition gf3 (i j k : nat) : R :=
  match i, j, k with
  | 0%nat, 0%nat, 2%nat | 0%nat, 2%nat, 0%nat | 2%nat, 0%nat, 0%nat => 1
  | _, _, _ => 0
  end.
Definition gmodes : list mode := [I2 0 1; I2 2 3].
Definition gres (i j k : nat) : bool := ((i =? 0) && (j =? 0) && (k =? 2))%nat.
Lemma gres_reported : reported [(0, 2)%nat] [] gres.
Proof.
  intros i j k. unfold gres, resonant. rewrite !andb_true_iff, !Nat.eqb_eq. cbn [In].
  split.
  - intros [[-> ->] ->]. left. auto.
  - intros [[-> [E|[]]]|[[]|[]]]. inversion E; subst; auto.
Qed.

Lemma g_resonance_refuted_lemma :
  exists nvib modes f4 w f3 zeta B r fm1 fm2 res wila x g e0 k k2,
    Permutation (flat_map members modes) (seq 0 nvib) /\ reported fm1 fm2 res /\ keys_once fm1 fm2 /\
    (forall i, (i < nvib)%nat -> 0 < w i) /\
    (forall i j m, (i < nvib)%nat -> (j < nvib)%nat -> (m < nvib)%nat ->
       res i j m = false -> w i + w j - w m <> 0) /\
    xcals f4 w f3 zeta B r fm1 fm2 modes wila = Some (x, g, e0) /\
    In (k, k2) (degs modes) /\
    g k k <> sg_dd1 f4 w f3 zeta B res (nondeg modes) (degs modes) k k2.
Proof.
  exists 4%nat, gmodes, zero4, gw, gf3, zero3, zero1, ProlateSymmTop, [(0, 2)%nat], [], gres, zero2.
  assert (Hp : Permutation (flat_map members gmodes) (seq 0 4)) by apply Permutation_refl.
  assert (Hk : keys_once [(0, 2)%nat] []).
  { refine (conj _ (conj _ _)); cbn; intros; try contradiction. intuition congruence. }
  destruct (xcals zero4 gw gf3 zero3 zero1 ProlateSymmTop [(0, 2)%nat] [] gmodes zero2) as [[[x g] e0]|] eqn:E.
  2:{ unfold xcals in E. discriminate. }
  exists x, g, e0, 0%nat, 1%nat.
  split; [exact Hp|]. split; [apply gres_reported|]. split; [exact Hk|].
  split; [intros [|[|[|[|i]]]] Hi; cbn; lra || lia|].
  split; [intros [|[|[|[|i]]]] [|[|[|[|j]]]] [|[|[|[|m]]]] Hi Hj Hm; cbn; try lia; try discriminate; intros _; lra|].
  split; [reflexivity|]. split; [now left|].
  destruct (shapes gmodes zero4 gw gf3 zero3 zero1 ProlateSymmTop [(0, 2)%nat] [] zero2 x g e0 E) as [_ ->].
  rewrite (proj1 (g_kk zero4 gw gf3 zero3 zero1 _ _ 4 gmodes Hp _ 0 0 1 eq_refl)).
  unfold g1_value, sg_dd1.
  change (i1mode gmodes) with (@nil nat). change (i2mode gmodes) with [(0, 1); (2, 3)]%nat.
  change (nondeg gmodes) with (@nil nat). change (degs gmodes) with [(0, 1); (2, 3)]%nat.
  evalR. unfold g1_us. cbn [Rsum fold_right fst]. evalR.
  cbn -[Rplus Rminus Rmult Rdiv Ropp Rinv IZR Rsqr].
  unfold zero1, zero3, zero4, Rsqr, keep.
  apply (neq_by (- 1 / 76)); [lra|field].
Qed.

(** three degenerate pairs *)
Definition ew (i : nat) : R := match i with 0%nat | 1%nat => 10 | 2%nat | 3%nat => 23 | _ => 41 end.
Definition ef3 (i j k : nat) : R :=
  if ((i + j + k =? 6) && negb (i =? j) && negb (j =? k) && negb (i =? k)
      && Nat.even i && Nat.even j && Nat.even k)%nat then 1 else 0.
Definition emodes : list mode := [I2 0 1; I2 2 3; I2 4 5].

Lemma e0_pairs_refuted_lemma :
  exists nvib modes f4 w f3 zeta B r wila x g e0,
    Permutation (flat_map members modes) (seq 0 nvib) /\
    (forall i, (i < nvib)%nat -> 0 < w i) /\
    (forall i j m, (i < nvib)%nat -> (j < nvib)%nat -> (m < nvib)%nat -> w i + w j - w m <> 0) /\
    StronglySorted lt (firsts modes) /\ is_linear r = false /\
    xcals f4 w f3 zeta B r [] [] modes wila = Some (x, g, e0) /\
    e0 <> spec_sym_e0 f4 w f3 none (nondeg modes) (firsts modes).
Proof.
  exists 6%nat, emodes, zero4, ew, ef3, zero3, zero1, ProlateSymmTop, zero2.
  assert (Hp : Permutation (flat_map members emodes) (seq 0 6)) by apply Permutation_refl.
  assert (Hw : forall i, (i < 6)%nat -> 0 < ew i).
  { intros [|[|[|[|[|[|i]]]]]] Hi; cbn; lra || lia. }
  assert (Hd : forall i j m, (i < 6)%nat -> (j < 6)%nat -> (m < 6)%nat -> ew i + ew j - ew m <> 0).
  { intros [|[|[|[|[|[|i]]]]]] [|[|[|[|[|[|j]]]]]] [|[|[|[|[|[|m]]]]]] Hi Hj Hm; cbn; try lia; lra. }
  assert (S : StronglySorted lt (firsts emodes)).
  { cbn. repeat constructor. }
  destruct (xcals zero4 ew ef3 zero3 zero1 ProlateSymmTop [] [] emodes zero2) as [[[x g] e0]|] eqn:E.
  2:{ unfold xcals in E. discriminate. }
  exists x, g, e0. repeat (split; [assumption || reflexivity|]).
  rewrite (sym_e0_lemma 6 emodes zero4 ew ef3 Hp Hw Hd zero3 zero1 ProlateSymmTop zero2 x g e0 S E).
  cbn [is_linear].
  cut (lost emodes ew ef3 <> 0); [lra|].
  unfold lost, se_ddd, se_ddn, below. change (firsts emodes) with [0; 2; 4]%nat.
  change (nondeg emodes) with (@nil nat).
  cbn [rev app Rsum fold_right filter Nat.ltb Nat.leb].
  unfold gfrac, none, keep.
  cbn -[Rplus Rminus Rmult Rdiv Ropp Rinv IZR Rsqr]. unfold Rsqr.
  apply (neq_by ((41 * 23 * 10) / ((41 + 23 + 10) * (41 - 23 + 10) * (41 + 23 - 10) * (41 - 23 - 10)))); [lra|field].
Qed.

(** one degenerate pair and one nondegenerate mode, 2 w_0 ~ w_2 *)
Definition hmodes : list mode := [I2 0 1; I1 2].

Lemma e0_resonance_refuted_lemma :
  exists nvib modes f4 w f3 zeta B r fm1 fm2 res wila x g e0,
    Permutation (flat_map members modes) (seq 0 nvib) /\ reported fm1 fm2 res /\ keys_once fm1 fm2 /\
    (forall i, (i < nvib)%nat -> 0 < w i) /\
    (forall i j m, (i < nvib)%nat -> (j < nvib)%nat -> (m < nvib)%nat ->
       res i j m = false -> w i + w j - w m <> 0) /\
    StronglySorted lt (firsts modes) /\ (length (firsts modes) <= 2)%nat /\ is_linear r = false /\
    xcals f4 w f3 zeta B r fm1 fm2 modes wila = Some (x, g, e0) /\
    e0 <> spec_sym_e0 f4 w f3 res (nondeg modes) (firsts modes).
Proof.
  exists 3%nat, hmodes, zero4, gw, gf3, zero3, zero1, ProlateSymmTop, [(0, 2)%nat], [], gres, zero2.
  assert (Hp : Permutation (flat_map members hmodes) (seq 0 3)) by apply Permutation_refl.
  assert (Hk : keys_once [(0, 2)%nat] []).
  { refine (conj _ (conj _ _)); cbn; intros; try contradiction. intuition congruence. }
  destruct (xcals zero4 gw gf3 zero3 zero1 ProlateSymmTop [(0, 2)%nat] [] hmodes zero2) as [[[x g] e0]|] eqn:E.
  2:{ unfold xcals in E. discriminate. }
  exists x, g, e0.
  split; [exact Hp|]. split; [apply gres_reported|]. split; [exact Hk|].
  split; [intros [|[|[|i]]] Hi; cbn; lra || lia|].
  split; [intros [|[|[|i]]] [|[|[|j]]] [|[|[|m]]] Hi Hj Hm; cbn; try lia; try discriminate; intros _; lra|].
  split; [cbn; repeat constructor|]. split; [cbn; lia|]. split; [reflexivity|]. split; [reflexivity|].
  unfold xcals in E. cbv zeta in E.
  destruct (nondeg_nondeg _ _ _ _ _ _ _ _ _ _) as [y|]; [|discriminate]. cbn [obind is_linear] in E.
  apply (f_equal (fun o => match o with Some (_, _, e) => e | None => 0 end)) in E. cbv beta iota in E. subst e0.
  clear x g y.
  unfold make_e2, make_e3, e3_loop, make_e0. evalR.
  cbn -[Rplus Rminus Rmult Rdiv Ropp Rinv IZR].
  change (nondeg hmodes) with [2%nat]. change (firsts hmodes) with [0%nat].
  unfold spec_sym_e0, se_n, se_d, se_dd, se_ddn, se_ddd, below, but, pole.
  cbn -[Rplus Rminus Rmult Rdiv Ropp Rinv IZR Rsqr].
  unfold zero4, keep, Rsqr. cbn -[Rplus Rminus Rmult Rdiv Ropp Rinv IZR].
  apply (neq_by (1 / 624)); [lra|field].
Qed.

(** two nondegenerate and two degenerate modes *)
Definition smodes : list mode := [I1 0; I2 1 2; I1 3; I2 4 5].
Definition sw (i : nat) : R := nth i [31; 23; 23; 17; 11; 11] 1.

Lemma none_reported : reported [] [] none.
Proof. intros i j k. unfold none, resonant. cbn. split; [discriminate|tauto]. Qed.
Lemma none_once : keys_once [] [].
Proof. refine (conj _ (conj _ _)); cbn; tauto. Qed.

Lemma cor_axis_unique r ts (wila : nat -> nat -> R) a b :
  cor_axis r ts wila a -> cor_axis r ts wila b -> a = b.
Proof.
  intros [A0 A1] [B0 B1]. pose proof (axis_lemma r ts wila) as [X0 X1].
  assert (D : xcals_ixyz r ts wila = 0%nat \/ xcals_ixyz r ts wila = 1%nat).
  { unfold xcals_ixyz. destruct (is_linear r); auto. cbv zeta. destruct (_ <? _)%nat; auto.
    destruct (_ <? _)%nat; auto. }
  destruct D as [D|D].
  - apply X0 in D. transitivity 0%nat; [now apply A0|symmetry; now apply B0].
  - apply X1 in D. transitivity 1%nat; [now apply A1|symmetry; now apply B1].
Qed.

Lemma sym_exact_lemma :
  forall nvib modes f4 (w : nat -> R) f3 zeta B r wila x g e0,
  Permutation (flat_map members modes) (seq 0 nvib) ->
  (forall i, (i < nvib)%nat -> 0 < w i) ->
  (forall i j m, (i < nvib)%nat -> (j < nvib)%nat -> (m < nvib)%nat -> w i + w j - w m <> 0) ->
  xcals f4 w f3 zeta B r [] [] modes wila = Some (x, g, e0) ->
  let ns := nondeg modes in
  let ts := degs modes in
  (forall k, In k ns -> x k k = sx_nn1 f4 w f3 none ns k) /\
  (forall p q k l, (q < p)%nat -> nth_error ns p = Some k -> nth_error ns q = Some l ->
     x k l = sx_nn f4 w f3 zeta B none ns k l /\ x l k = x k l) /\
  (forall k l l2, In k ns -> In (l, l2) ts ->
     let v := sx_nd f4 w f3 zeta B none ns ts k l in
     x k l = v /\ x l k = v /\ x k l2 = v /\ x l2 k = v) /\
  (forall k k2, In (k, k2) ts ->
     x k k = sx_dd1 f4 w f3 none ns ts k /\ x k2 k2 = x k k /\
     g k k = sg_dd1 f4 w f3 zeta B none ns ts k k2 /\ g k2 k2 = g k k) /\
  (exists axis, cor_axis r ts wila axis /\
   forall p q k k2 l l2, (q < p)%nat -> nth_error ts p = Some (k, k2) -> nth_error ts q = Some (l, l2) ->
     let v := sx_dd f4 w f3 zeta B none ns ts axis k l l2 in
     let u := sg_dd w f3 zeta B none ns ts axis k k2 l l2 in
     x k l = v /\ x l k = v /\ x k2 l2 = v /\ x l2 k2 = v /\
     g k l = u /\ g l k = u /\ g k2 l2 = u /\ g l2 k2 = u) /\
  (forall k k2 l l2, In (k, k2) ts -> In (l, l2) ts -> x k l2 = 0 /\ x l2 k = 0) /\
  (forall a b, (forall k k2, In (k, k2) ts -> a <> k /\ a <> k2) -> g a b = 0 /\ g b a = 0).
Proof.
  intros nvib modes f4 w f3 zeta B r wila x g e0 Hp Hw Hd E ns ts.
  assert (Hd' : forall i j m, (i < nvib)%nat -> (j < nvib)%nat -> (m < nvib)%nat ->
     none i j m = false -> w i + w j - w m <> 0) by auto.
  assert (So : forall k l, sources_only [] k l).
  { intros k l. refine (conj _ (conj _ _)); cbn; auto. }
  destruct (x_lemma nvib modes f4 w f3 zeta B r [] [] none wila x g e0 Hp none_reported none_once Hw Hd' E)
    as (X1 & X2 & X3 & X4 & (ax & XA & X5) & X6).
  destruct (g_lemma nvib modes f4 w f3 zeta B r [] [] none wila x g e0 Hp none_reported none_once Hw Hd' E)
    as (G1 & (ag & GA & G2) & G3).
  rewrite (cor_axis_unique _ _ _ _ _ GA XA) in G2.
  refine (conj X1 (conj _ (conj _ (conj _ (conj _ (conj X6 G3)))))).
  - intros p q k l Hpq Hk Hl. destruct (X2 p q k l Hpq Hk Hl (So k l)) as [-> ->]. auto.
  - intros k l l2 Hk Hl. exact (X3 k l l2 Hk Hl (So k l)).
  - intros k k2 Hk. destruct (X4 k k2 Hk) as [-> ->].
    destruct (G1 k k2 Hk (fun _ _ _ => eq_refl)) as [-> ->]. auto.
  - exists ax. split; [exact XA|]. intros p q k k2 l l2 Hpq Hk Hl v u.
    destruct (X5 p q k k2 l l2 Hpq Hk Hl (So k l)) as (A & A2 & A3 & A4).
    destruct (G2 p q k k2 l l2 Hpq Hk Hl) as (C & C2 & C3 & C4).
    { intros m _. unfold free, none. auto 10. }
    auto 10.
Qed.

Lemma sym_e0_small_lemma :
  forall nvib modes f4 (w : nat -> R) f3,
  Permutation (flat_map members modes) (seq 0 nvib) ->
  (forall i, (i < nvib)%nat -> 0 < w i) ->
  (forall i j m, (i < nvib)%nat -> (j < nvib)%nat -> (m < nvib)%nat -> w i + w j - w m <> 0) ->
  forall zeta B r wila x g e0,
  StronglySorted lt (firsts modes) -> (length (firsts modes) <= 2)%nat -> is_linear r = false ->
  xcals f4 w f3 zeta B r [] [] modes wila = Some (x, g, e0) ->
  e0 = spec_sym_e0 f4 w f3 none (nondeg modes) (firsts modes).
Proof.
  intros nvib modes f4 w f3 Hp Hw Hd zeta B r wila x g e0 S L Li E.
  rewrite (sym_e0_lemma nvib modes f4 w f3 Hp Hw Hd zeta B r wila x g e0 S E), Li.
  rewrite (lost_small nvib modes f4 w f3 Hw Hd S L). lra.
Qed.

Lemma sym_example :
  Permutation (flat_map members smodes) (seq 0 6) /\ nondeg smodes = [0; 3]%nat /\
  degs smodes = [(1, 2); (4, 5)]%nat /\
  (forall i, (i < 6)%nat -> 0 < sw i) /\
  (forall i j m, (i < 6)%nat -> (j < 6)%nat -> (m < 6)%nat -> sw i + sw j - sw m <> 0) /\
  (exists s, xcals zero4 sw zero3 zero3 zero1 OblateSymmTop [] [] smodes zero2 = Some s) /\
  cor_axis OblateSymmTop (degs smodes) zero2 1%nat /\
  sx_nn zero4 sw (fun _ _ _ => 1) zero3 zero1 none [0; 3]%nat 3 0 <> 0.
Proof.
  refine (conj (Permutation_refl _) (conj eq_refl (conj eq_refl (conj _ (conj _ (conj _ (conj _ _))))))).
  - intros [|[|[|[|[|[|i]]]]]] Hi; cbn; lra || lia.
  - intros [|[|[|[|[|[|i]]]]]] [|[|[|[|[|[|j]]]]]] [|[|[|[|[|[|m]]]]]] Hi Hj Hm; cbn; try lia; lra.
  - eexists. reflexivity.
  - unfold cor_axis. assert (Z : forall i j, Rabs (zero2 i j) <= 1 / 1000000).
    { intros. unfold zero2. rewrite Rabs_R0. lra. }
    split; split; try discriminate.
    + intros (_ & U & _). exfalso. apply (U 1%nat 2%nat); [now left|apply Z].
    + intros _ (_ & U & _). apply (U 1%nat 2%nat); [now left|apply Z].
    + reflexivity.
  - unfold sx_nn. cbn [Rsum fold_right]. unfold xfrac, ratio, none, keep, zero1, zero3, zero4, Rsqr.
    cbn -[Rplus Rminus Rmult Rdiv Ropp Rinv IZR].
    match goal with |- ?a <> 0 => assert (Q : a < 0 \/ 0 < a); [|lra] end.
    first [left; lra|right; lra].
Qed.
Lemma sym_x_example :
  reported [(0, 2)%nat] [] gres /\ keys_once [(0, 2)%nat] [] /\
  (forall i j m, (i < 4)%nat -> (j < 4)%nat -> (m < 4)%nat ->
     gres i j m = false -> gw i + gw j - gw m <> 0) /\
  gw 0 + gw 0 - gw 2 = 1 /\
  sources_only [(1, 0, 3)%nat] 1 0 /\ ~ sources_only [(1, 0, 3)%nat] 3 0 /\
  sx_dd1 zero4 gw gf3 gres [] [(0, 1); (2, 3)]%nat 0 <> sx_dd1 zero4 gw gf3 none [] [(0, 1); (2, 3)]%nat 0.
Proof.
  refine (conj gres_reported (conj _ (conj _ (conj _ (conj _ (conj _ _)))))).
  - refine (conj _ (conj _ _)); cbn; intros; try contradiction. intuition congruence.
  - intros [|[|[|[|i]]]] [|[|[|[|j]]]] [|[|[|[|m]]]] Hi Hj Hm; cbn; try lia; try discriminate; intros _; lra.
  - cbn. lra.
  - refine (conj _ (conj _ _)); cbn; intros; intuition congruence.
  - intros (A & _). apply (A 1%nat 0%nat). now left.
  - unfold sx_dd1, xfrac1. cbn -[Rplus Rminus Rmult Rdiv Ropp Rinv IZR Rsqr].
    unfold zero4, none, keep, Rsqr. apply (neq_by (- 1 / 32)); [lra|field].
Qed.
Lemma sym_g_example :
  In (0, 1)%nat (degs hmodes) /\ (forall l l2, In (l, l2) (degs hmodes) -> gres 0 0 l = false) /\
  In 2%nat (nondeg hmodes) /\ gres 0 0 2 = true /\
  sg_dd1 zero4 gw gf3 zero3 zero1 gres [2%nat] [(0, 1)%nat] 0 1
  <> sg_dd1 zero4 gw gf3 zero3 zero1 none [2%nat] [(0, 1)%nat] 0 1.
Proof.
  refine (conj (or_introl eq_refl) (conj _ (conj (or_introl eq_refl) (conj eq_refl _)))).
  - intros l l2 [E|[]]. now injection E as <- <-.
  - unfold sg_dd1. cbn -[Rplus Rminus Rmult Rdiv Ropp Rinv IZR Rsqr].
    unfold zero4, zero1, zero3, none, keep, Rsqr. apply (neq_by (1 / 32)); [lra|field].
Qed.
Lemma sym_e0_example :
  StronglySorted lt (firsts smodes) /\ firsts smodes = [1; 4]%nat /\ is_linear OblateSymmTop = false /\
  spec_sym_e0 zero4 sw (fun _ _ _ => 1) none [0; 3]%nat [1; 4]%nat
  <> se_n zero4 sw (fun _ _ _ => 1) none [0; 3]%nat + se_d zero4 sw (fun _ _ _ => 1) none [0; 3]%nat [1; 4]%nat.
Proof.
  refine (conj _ (conj eq_refl (conj eq_refl _))).
  - cbn. repeat constructor.
  - unfold spec_sym_e0.
    cut (se_dd sw (fun _ _ _ => 1) none [1; 4]%nat - Rsum [1; 4]%nat (se_ddn sw (fun _ _ _ => 1) none [0; 3]%nat [1; 4]%nat)
      - se_ddd sw (fun _ _ _ => 1) none [1; 4]%nat <> 0); [lra|].
    unfold se_dd, se_ddn, se_ddd, below, but, pole, gfrac. cbn -[Rplus Rminus Rmult Rdiv Ropp Rinv IZR Rsqr].
    unfold none, keep, Rsqr. cbn -[Rplus Rminus Rmult Rdiv Ropp Rinv IZR].
    match goal with |- ?a <> 0 => assert (Q : a < 0 \/ 0 < a); [|lra] end.
    first [left; lra|right; lra].
Qed.
