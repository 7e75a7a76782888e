(** Lemmas about the reported frequencies and the choice of axes for anharmonic constants. *)
From Coq Require Import Reals Lra List ZArith Arith Lia Bool Permutation Sorted.
From Verif Require Import Num Loops Index ListFacts IndexFacts ResFacts Anharm AnharmFacts DistortFacts
  VibRotFacts Transform TransformFacts RotFacts NormalFacts HarmFacts ModeFacts ZeroFacts.
Import ListNotations.
Open Scope nat_scope.
Local Open Scope R_scope.

Definition positive (x : R) : bool := if Rlt_dec 0 x then true else false.

Lemma sorted_split (l : list R) : StronglySorted Rge l -> (forall x, In x l -> 0 <= x) ->
  l = filter positive l ++ repeat 0 (count_occ Req_EM_T l 0).
Proof.
  intros Hs. induction Hs as [|x l Hs IH Hf]; intros Hp; [reflexivity|]. cbn [filter count_occ].
  unfold positive at 1. destruct (Rlt_dec 0 x) as [L|L].
  - destruct (Req_EM_T x 0); [lra|]. cbn. f_equal. apply IH. intros; apply Hp. now right.
  - assert (x = 0) as -> by (pose proof (Hp x (or_introl eq_refl)); lra).
    destruct (Req_EM_T 0 0); [|contradiction].
    rewrite Forall_forall in Hf.
    assert (Z : forall y, In y l -> y = 0).
    { intros y Hy. pose proof (Hf y Hy). pose proof (Hp y (or_intror Hy)). lra. }
    clear -Z. assert (filter positive l = []) as ->.
    { induction l as [|y l IH]; [reflexivity|]. cbn. unfold positive at 1.
      rewrite (Z y (or_introl eq_refl)). destruct (Rlt_dec 0 0); [lra|]. apply IH. intros; apply Z. now right. }
    cbn [app repeat]. f_equal. induction l as [|y l IH]; [reflexivity|].
    cbn [count_occ]. rewrite (Z y (or_introl eq_refl)). destruct (Req_EM_T 0 0); [|contradiction].
    cbn [repeat]. f_equal. apply IH. intros; apply Z. now right.
Qed.

Lemma reported_lemma N axes f w eig nvib :
  solves (3 * N) eig (secular N axes f w) -> sym2 (3 * N) f -> (forall q, (q < N)%nat -> 0 < w q) ->
  exists freq lxm, harmonic N axes f w eig = Some (freq, lxm) /\
    ((forall x, In x freq -> 0 <= x) -> (count_occ Req_EM_T freq 0%R + nvib = 3 * N)%nat ->
     reported_harms nvib freq = Some (filter positive freq)) /\
    ((3 * N < nvib)%nat -> reported_harms nvib freq = None).
Proof.
  intros HS Sy Hw. destruct (normal_modes_lemma N axes f w eig Sy Hw HS) as (fr & V & E & L & _ & _ & _ & Hs).
  exists fr, V. split; [exact E|]. unfold reported_harms. rewrite L. split.
  - intros Hp Hc. destruct (Nat.ltb_spec (3 * N) nvib); [lia|]. f_equal.
    pose proof (sorted_split fr Hs Hp) as Sp.
    assert (LF : length (filter positive fr) = nvib).
    { apply (f_equal (@length R)) in Sp. rewrite app_length, repeat_length, L in Sp. lia. }
    rewrite Sp at 1. rewrite firstn_app, LF, Nat.sub_diag. cbn. rewrite app_nil_r. apply firstn_all2. lia.
  - intros Hn. destruct (Nat.ltb_spec (3 * N) nvib); [reflexivity|lia].
Qed.

(** ** a maximum instead of a minimum *)
Definition bad_f (a b : nat) : R :=
  match a, b with
  | 2%nat, 2%nat | 5%nat, 5%nat => - (1)
  | 2%nat, 5%nat | 5%nat, 2%nat => 1
  | _, _ => 0
  end.
Definition bad_vals : list R := [0; 0; 0; 0; 0; -2 * @FACT2 R Rnum].
Definition bad_vecs (a i : nat) : R :=
  match a, i with
  | 0%nat, 0%nat | 1%nat, 1%nat | 3%nat, 2%nat | 4%nat, 3%nat => 1
  | 2%nat, 4%nat | 5%nat, 4%nat | 2%nat, 5%nat => / sqrt 2
  | 5%nat, 5%nat => - / sqrt 2
  | _, _ => 0
  end.
Definition bad_w (q : nat) : R := 1.

Lemma isq2 : / sqrt 2 * / sqrt 2 = / 2.
Proof. rewrite <- Rinv_mult, sqrt_sqrt by lra. reflexivity. Qed.
Lemma delta_orth n : orth n delta.
Proof.
  split; intros a b Ha Hb.
  - rewrite (sum_delta n (fun k => delta b k) a Ha). apply delta_sym.
  - rewrite <- (sum_delta n (fun k => delta k b) a Ha). apply sum_g. intros k _. now rewrite (delta_sym k a).
Qed.
Ltac six x := destruct x as [|[|[|[|[|[|?]]]]]]; [..|exfalso; lia].
Lemma bad_orth : orth 6 bad_vecs.
Proof.
  pose proof isq2 as Q.
  split; intros a b Ha Hb; six a; six b; cbn [Rsum fold_right seq bad_vecs delta Nat.eqb]; lra.
Qed.
Lemma every_atom_delta r c : every_atom delta r c = delta r c.
Proof.
  unfold every_atom, delta. pose proof (block_eq r). pose proof (block_eq c).
  destruct (Nat.eqb_spec (r / 3) (c / 3)), (Nat.eqb_spec (r mod 3) (c mod 3)), (Nat.eqb_spec r c); try reflexivity; subst; lia.
Qed.
Lemma bad_secular : meq 6 (secular 2 delta bad_f bad_w) (fun a b => FACT2 * bad_f a b).
Proof.
  intros a b Ha Hb. rewrite (secular_R 2).
  - unfold weighted, bad_w. rewrite sqrt_1.
    rewrite (con2_mat _ _ delta) by (intros; apply every_atom_delta). rewrite con2_delta by assumption. field.
  - intros r s Hr Hs. change (3 * 2)%nat with 6%nat in *. six r; six s; reflexivity.
  - intros. unfold bad_w. lra.
  - exact Ha.
  - exact Hb.
Qed.
Lemma bad_solves : solves 6 (fun _ => (bad_vals, bad_vecs)) (secular 2 delta bad_f bad_w).
Proof.
  unfold solves. cbn [fst snd]. apply (eigen_system_ext 6 (fun a b => FACT2 * bad_f a b)).
  { intros a b Ha Hb. symmetry. now apply bad_secular. }
  split; [reflexivity|]. split; [apply bad_orth|]. intros a i x Ha Ex.
  assert (Hi : (i < 6)%nat) by (change 6%nat with (length bad_vals); apply nth_error_Some; congruence).
  unfold bad_vals in Ex. set (c := @FACT2 R Rnum) in *. clearbody c. set (d := / sqrt 2) in *.
  six a; six i; cbn in Ex; injection Ex as <-; cbn [Rsum fold_right seq bad_vecs bad_f]; fold d; ring.
Qed.
Lemma FACT2_pos : 0 < @FACT2 R Rnum.
Proof.
  unfold FACT2, HE, A0, nz. cbn [nlit nmul ndiv Rnum].
  apply Rdiv_lt_0_compat; repeat apply Rmult_lt_0_compat; try apply Rdiv_lt_0_compat; lra.
Qed.

Lemma sort_pairs_id reverse (l : list (nat * R)) :
  StronglySorted (fun p q => before reverse (snd q) (snd p) = false) l -> sort_pairs reverse l = l.
Proof.
  intros H. induction H as [|p l H IH Hf]; [reflexivity|]. unfold sort_pairs in *. cbn [fold_right].
  rewrite IH. destruct l as [|q l]; [reflexivity|]. cbn [insert_pair].
  apply Forall_inv in Hf. now rewrite Hf.
Qed.

Lemma imaginary_refuted_lemma :
  exists N axes f w eig nvib freq lxm l x,
    sym2 (3 * N) f /\ (forall q, (q < N)%nat -> 0 < w q) /\ orth 3 axes /\ translation_free N f /\
    solves (3 * N) eig (secular N axes f w) /\
    harmonic N axes f w eig = Some (freq, lxm) /\
    (count_occ Req_EM_T freq 0%R + nvib = 3 * N)%nat /\
    reported_harms nvib freq = Some l /\ In x freq /\ x <> 0 /\ ~ In x l /\ In 0 l.
Proof.
  destruct (normal_modes_lemma 2 delta bad_f bad_w (fun _ => (bad_vals, bad_vecs))) as (fr & V & E & L & _).
  - intros r s Hr Hs. change (3 * 2)%nat with 6%nat in *. six r; six s; reflexivity.
  - intros. unfold bad_w. lra.
  - exact bad_solves.
  - pose proof FACT2_pos as FP.
    assert (Fr : fr = map to_wavenumber bad_vals).
    { unfold harmonic in E. cbn [fst snd] in E. unfold sort_eigen in E.
      assert (Ep : sort_pairs true (combine (range 0 (length bad_vals)) bad_vals) = combine (range 0 (length bad_vals)) bad_vals).
      { apply sort_pairs_id. unfold bad_vals. set (c := -2 * @FACT2 R Rnum).
        assert (Hc : c < 0) by (unfold c; lra). clearbody c. clear -Hc.
        change (range 0 (length [0; 0; 0; 0; 0; c])) with (seq 0 6). cbn [seq combine].
        repeat constructor; unfold before; cbn [snd]; apply Rltb_false; lra. }
      rewrite Ep in E. cbn in E. injection E as <- _. reflexivity. }
    exists 2%nat, delta, bad_f, bad_w, (fun _ => (bad_vals, bad_vecs)), 1%nat, fr, V, [0], (to_wavenumber (-2 * @FACT2 R Rnum)).
    assert (Z0 : to_wavenumber 0 = 0) by now apply wavenumber_0.
    assert (Zn : to_wavenumber (-2 * @FACT2 R Rnum) <> 0).
    { intros A. apply (proj1 (wavenumber_0 _)) in A. lra. }
    split. { intros r s Hr Hs. change (3 * 2)%nat with 6%nat in *. six r; six s; reflexivity. }
    split. { intros. unfold bad_w. lra. }
    split; [apply delta_orth|]. split.
    { intros a m Ha Hm. change (3 * 2)%nat with 6%nat in *. six a; do 3 (destruct m as [|m]; [cbn; ring|]); lia. }
    split; [exact bad_solves|]. split; [exact E|]. rewrite Fr. unfold bad_vals. cbn [map]. rewrite Z0.
    split. { cbn [count_occ]. destruct (Req_EM_T 0 0); [|contradiction].
      destruct (Req_EM_T (to_wavenumber (-2 * @FACT2 R Rnum)) 0); [contradiction|reflexivity]. }
    split; [reflexivity|]. split; [cbn; auto 10|]. split; [exact Zn|]. split; [|now left].
    intros [A|[]]. now apply Zn.
Qed.

(** the same molecule after a quarter turn about z, and a minimum *)
Definition qturn (a b : nat) : R :=
  match a, b with
  | 0%nat, 1%nat => 1
  | 1%nat, 0%nat => - (1)
  | 2%nat, 2%nat => 1
  | _, _ => 0
  end.
Definition good_f (a b : nat) : R := - bad_f a b.
Definition good_vals : list R := [0; 0; 0; 0; 0; 2 * @FACT2 R Rnum].
Lemma good_sym : sym2 (3 * 2) good_f.
Proof. intros r s Hr Hs. change (3 * 2)%nat with 6%nat in *. six r; six s; reflexivity. Qed.
Lemma bad_w_pos q : (q < 2)%nat -> 0 < bad_w q.
Proof. intros. unfold bad_w. lra. Qed.
Lemma qturn_orth : orth 3 qturn.
Proof.
  split; intros a b Ha Hb; do 3 (destruct a as [|a]; [do 3 (destruct b as [|b]; [cbn; lra|]); lia|]); lia.
Qed.
Lemma good_solves axes : axes = delta \/ axes = qturn ->
  solves (3 * 2) (fun _ => (good_vals, bad_vecs)) (secular 2 axes good_f bad_w).
Proof.
  intros Hx. change (3 * 2)%nat with 6%nat.
  unfold solves. cbn [fst snd]. apply (eigen_system_ext 6 (fun a b => FACT2 * good_f a b)).
  { intros a b Ha Hb. symmetry. rewrite (secular_R 2); [|apply good_sym|apply bad_w_pos|exact Ha|exact Hb].
    unfold weighted, bad_w. rewrite sqrt_1.
    assert (E : con2 (3 * 2) (every_atom axes) good_f a b = good_f a b).
    { destruct Hx as [->| ->].
      - rewrite (con2_mat _ _ delta) by (intros; apply every_atom_delta). now apply con2_delta.
      - six a; six b; cbn; unfold good_f; cbn [bad_f]; lra. }
    rewrite E. field. }
  split; [reflexivity|]. split; [apply bad_orth|]. intros a i x Ha Ex.
  assert (Hi : (i < 6)%nat) by (change 6%nat with (length good_vals); apply nth_error_Some; congruence).
  unfold good_vals in Ex. set (c := @FACT2 R Rnum) in *. clearbody c. set (d := / sqrt 2) in *.
  six a; six i; cbn in Ex; injection Ex as <-; unfold good_f; cbn [Rsum fold_right seq bad_vecs bad_f]; fold d; ring.
Qed.
Lemma good_free : translation_free 2 good_f.
Proof.
  intros a m Ha Hm. change (3 * 2)%nat with 6%nat in *. unfold good_f.
  six a; do 3 (destruct m as [|m]; [cbn; ring|]); lia.
Qed.

(** ** anharmonic constants and the choice of axes *)
Lemma turned_modes N axes (lx lx' : nat -> nat -> R) r i : orth 3 axes -> (r < 3 * N)%nat ->
  (forall a, (a < 3 * N)%nat -> lx' a i = con1 (3 * N) (every_atom axes) (fun r => lx r i) a) ->
  mprod (3 * N) (every_atom axes) lx' r i = lx r i.
Proof.
  intros O Hr E. pose proof (every_atom_orth N axes O) as OU.
  rewrite (mprod_r _ _ lx' (mprod (3 * N) (tr (every_atom axes)) lx)) by (intros; now apply E).
  rewrite <- mprod_assoc, (mprod_l _ _ delta); [now apply mprod_delta_l|]. intros k Hk. now apply orth_rows.
Qed.

Lemma cubic_orientation_lemma N axes f lx lx' nvib w :
  orth 3 axes -> tsym3 (3 * N) f -> (0 < nvib)%nat ->
  (forall a i, (a < 3 * N)%nat -> (i < nvib)%nat ->
     lx' a i = con1 (3 * N) (every_atom axes) (fun r => lx r i) a) ->
  exists v v', force3 (3 * N) f lx nvib w = Some v /\
    force3 (3 * N) (rot3rd N (3 * N) axes f) lx' nvib w = Some v' /\
    forall i j k, (i < nvib)%nat -> (j < nvib)%nat -> (k < nvib)%nat ->
      f3qcm_get v' i j k = f3qcm_get v i j k.
Proof.
  intros O Hf Hn Hl.
  destruct (force3_lemma (3 * N) f lx nvib w Hn Hf) as (v & E & _ & G).
  destruct (force3_lemma (3 * N) (rot3rd N (3 * N) axes f) lx' nvib w Hn (proj1 (proj2 (rot_sym_lemma N axes)) f Hf))
    as (v' & E' & _ & G').
  exists v, v'. split; [exact E|]. split; [exact E'|]. intros i j k Hi Hj Hk. rewrite G, G' by assumption.
  f_equal. unfold cubic_spec. f_equal.
  rewrite (con3_g _ _ _ (con3 (3 * N) (every_atom axes) f)) by (intros; now apply rot3rd_lemma).
  rewrite con3_comp. apply con3_mat. intros r d Hr Hd. apply turned_modes; [exact O|exact Hr|].
  intros a Ha. apply Hl; [exact Ha|]. intuition (subst; assumption).
Qed.
Lemma quartic_orientation_lemma N axes f lx lx' nvib w :
  orth 3 axes -> tsym4 (3 * N) f -> (0 < nvib)%nat ->
  (forall a i, (a < 3 * N)%nat -> (i < nvib)%nat ->
     lx' a i = con1 (3 * N) (every_atom axes) (fun r => lx r i) a) ->
  exists v v', force4 (3 * N) f lx nvib w = Some v /\
    force4 (3 * N) (rot4th N (3 * N) axes f) lx' nvib w = Some v' /\
    forall i j k l, (i < nvib)%nat -> (j < nvib)%nat -> (k < nvib)%nat -> (l < nvib)%nat ->
      f4qcm_get v' i j k l = f4qcm_get v i j k l.
Proof.
  intros O Hf Hn Hl.
  destruct (force4_lemma (3 * N) f lx nvib w Hn Hf) as (v & E & _ & G).
  destruct (force4_lemma (3 * N) (rot4th N (3 * N) axes f) lx' nvib w Hn (proj2 (proj2 (rot_sym_lemma N axes)) f Hf))
    as (v' & E' & _ & G').
  exists v, v'. split; [exact E|]. split; [exact E'|]. intros i j k l Hi Hj Hk Hll. rewrite G, G' by assumption.
  f_equal. unfold quartic_spec. f_equal.
  rewrite (con4_g _ _ _ (con4 (3 * N) (every_atom axes) f)) by (intros; now apply rot4th_lemma).
  rewrite con4_comp. apply con4_mat. intros r d Hr Hd. apply turned_modes; [exact O|exact Hr|].
  intros a Ha. apply Hl; [exact Ha|]. intuition (subst; assumption).
Qed.

(** ** unit factors *)
(** hartree in attojoule, bohr in Angstrom, speed of light, Planck's and Avogadro's
    constants, as powers of ten of the values used in 1973 (CODATA) *)
Definition hartree : R := 4.359813653.
Definition bohr : R := 0.52917706.
Definition light : R := 2.99792458.
Definition planck : R := 6.626176.
Definition avogadro : R := 6.022045.
Definition pi_digits : R := 3.14159265358979323846264338327950288.
Definition relatively (eps x y : R) : Prop := Rabs (x - y) <= eps * Rabs y.

Lemma unit_factors_lemma :
  @FACT2 R Rnum * bohr ^ 2 = hartree /\ @FUNIT3 R Rnum * bohr ^ 3 = hartree /\ @FUNIT4 R Rnum * bohr ^ 4 = hartree /\
  @ALAM R Rnum * (planck * avogadro) = 0.04 * (pi_digits ^ 2 * light) /\
  @FACT4 R Rnum * (@ALAM R Rnum ^ 2 * planck * light) = 1000000 /\
  relatively 1e-14 (@FACT3 R Rnum ^ 2 * (@ALAM R Rnum ^ 3 * planck ^ 2 * light ^ 2)) 1e12 /\
  relatively 1e-14 ((@WAVE R Rnum * (2 * pi_digits * light)) ^ 2) (1e8 * avogadro).
Proof.
  unfold FACT2, FUNIT3, FUNIT4, FACT3, FACT4, ALAM, WAVE, SQLAM3, SQRT_AVN, AVN, PI64, HE, A0, PH, CL, nz,
    hartree, bohr, light, planck, avogadro, pi_digits, relatively.
  cbn [nlit nmul ndiv Rnum pow].
  repeat split; [lra..| |].
  all: unfold Rabs; repeat destruct Rcase_abs; lra.
Qed.
