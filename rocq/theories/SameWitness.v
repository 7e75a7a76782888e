(** An example for the independence of runs: two atoms numbered either way. *)
From Coq Require Import Reals Lra List ZArith Arith Lia Bool Permutation.
From Verif Require Import Num Loops ListFacts Index IndexFacts Modes ResFacts Anharm AnharmFacts Transform TransformFacts ModeFacts
  NormalFacts Report ZeroFacts ReportFacts Geom Finish FinishFacts RunFacts RunSecond SameRun SignRun.
Import ListNotations.
Open Scope nat_scope.
Local Open Scope R_scope.

Definition swap2 (q : nat) : nat := (1 - q)%nat.
Definition pair_mol : molecule R :=
  mk_mol AsymmTop [1; 1; 1; 1; 1; 1; 1; 4]%Z 2 1 (fun i => (INR i, 0, 1)) bad_w (fun _ => 2) (fun _ => 3).
Definition swapped_mol : molecule R :=
  mk_mol AsymmTop [1; 1; 1; 1; 1; 1; 1; 4]%Z 2 1 (fun i => (INR (swap2 i), 0, 1)) bad_w (fun _ => 2) (fun _ => 3).
Definition swapped_f (a b : nat) : R := good_f (coord swap2 a) (coord swap2 b).
Definition pair_f3 (a b c : nat) : R := INR (a * b * c).
Definition pair_f4 (a b c d : nat) : R := INR (a + b + c + d).
(** the other choice of signs *)
Definition other_vecs (a i : nat) : R := - bad_vecs a i.

Lemma swap2_renumbering : renumbering 2 swap2.
Proof. unfold renumbering, swap2. split; intros; lia. Qed.
Lemma same_pair : same_atoms swap2 pair_mol swapped_mol.
Proof.
  split; [exact swap2_renumbering|]. do 6 (split; [reflexivity|]). intros q _. split; reflexivity.
Qed.
Lemma swapped_sym : sym2 (3 * 2) swapped_f.
Proof.
  intros r s Hr Hs. apply good_sym; apply (coord_renumbering 2 swap2 swap2_renumbering); assumption.
Qed.
Lemma swapped_same : same_field 2 swap2 qturn good_f pair_f3 pair_f4 qturn swapped_f
  (fun a b c => pair_f3 (coord swap2 a) (coord swap2 b) (coord swap2 c))
  (fun a b c d => pair_f4 (coord swap2 a) (coord swap2 b) (coord swap2 c) (coord swap2 d)).
Proof. apply same_renumbered_lemma; [exact swap2_renumbering|..]; reflexivity. Qed.
Lemma swapped_good a b : (a < 6)%nat -> (b < 6)%nat -> swapped_f a b = good_f a b.
Proof. intros Ha Hb. unfold swapped_f. six a; six b; reflexivity. Qed.
Lemma swapped_solves : solves (3 * 2) (fun _ => (good_vals, other_vecs)) (secular 2 qturn swapped_f bad_w).
Proof.
  pose proof (good_solves qturn (or_intror eq_refl)) as [L [[O1 O2] S]]. unfold solves. cbn [fst snd] in *.
  split; [exact L|]. split.
  - split; intros a b Ha Hb; [rewrite <- (O1 a b Ha Hb)|rewrite <- (O2 a b Ha Hb)]; apply sum_g; intros k _; unfold other_vecs; ring.
  - intros a i x Ha Ex. specialize (S a i x Ha Ex). unfold other_vecs.
    transitivity (- (x * bad_vecs a i)); [|ring]. rewrite <- S.
    transitivity (-1 * Sum (3 * 2) (fun k => secular 2 qturn good_f bad_w a k * bad_vecs k i)); [|ring].
    rewrite <- Rsum_scal. apply sum_g. intros k Hk.
    assert (E : secular 2 qturn swapped_f bad_w a k = secular 2 qturn good_f bad_w a k).
    { rewrite !secular_R by first [assumption|exact bad_w_pos|exact swapped_sym|exact good_sym].
      unfold weighted. replace (con2 (3 * 2) (every_atom qturn) swapped_f a k) with (con2 (3 * 2) (every_atom qturn) good_f a k);
        [reflexivity|]. unfold con2, con1. apply sum_g. intros r Hr. apply Rmult_eq_compat_l.
      apply sum_g. intros s Hs. apply Rmult_eq_compat_l. symmetry. now apply swapped_good. }
    rewrite E. ring.
Qed.
Lemma pair_distinct freq lxm : harmonic 2 qturn good_f bad_w (fun _ => (good_vals, bad_vecs)) = Some (freq, lxm) ->
  forall i j, (i < 1)%nat -> (j < 3 * 2)%nat -> i <> j -> nth i freq 0 <> nth j freq 0.
Proof.
  intros E. pose proof FACT2_pos as FP.
  assert (Fr : freq = map to_wavenumber [2 * @FACT2 R Rnum; 0; 0; 0; 0; 0]).
  { unfold harmonic in E. cbn [fst snd] in E. unfold sort_eigen in E.
    set (c := 2 * @FACT2 R Rnum) in *. assert (Hc : 0 < c) by (unfold c; lra).
    assert (Ep : sort_pairs true (combine (range 0 (length good_vals)) good_vals)
      = [(5%nat, c); (0%nat, 0); (1%nat, 0); (2%nat, 0); (3%nat, 0); (4%nat, 0)]).
    { unfold good_vals. fold c. clearbody c. change (range 0 (length [0; 0; 0; 0; 0; c])) with (seq 0 6).
      assert (B1 : Rltb 0 c = true) by (apply Rltb_true; lra).
      assert (B0 : Rltb 0 0 = false) by (apply Rltb_false; lra).
      unfold sort_pairs. cbn [seq combine fold_right insert_pair]. unfold before. cbn [snd nltb Rnum].
      repeat (cbn [insert_pair snd]; unfold before; cbn [snd nltb ngtb Rnum]; rewrite ?B1, ?B0). reflexivity. }
    rewrite Ep in E. cbn in E. injection E as <- _. reflexivity. }
  assert (Z0 : to_wavenumber 0 = 0) by now apply wavenumber_0.
  assert (Zn : to_wavenumber (2 * @FACT2 R Rnum) <> 0).
  { intros A. apply (proj1 (wavenumber_0 _)) in A. lra. }
  intros i j Hi Hj Hij. subst freq. replace i with 0%nat in * by lia. cbn [map]. rewrite Z0.
  destruct j as [|[|[|[|[|[|j]]]]]]; cbn [nth]; try congruence; lia.
Qed.

(** ** a symmetric top with a degenerate pair whose two partners are turned round together *)
Definition top_mol : molecule R := mk_mol OblateSymmTop [1; 1; 1; 1; 1; 1; 1; 4]%Z 2 3
  (fun i => match i with 0%nat => (1, 0, 0) | _ => (0, 1, 0) end) (fun _ => 12)
  (fun i => match i with 2%nat => 5 | _ => 10 end) (fun i => match i with 2%nat => 4 | _ => 2 end).
Definition top_freq : list R := [3000; 1000; 1000; 0; 0; 0].
Definition top_signs (i : nat) : R := match i with 1%nat | 2%nat => -1 | _ => 1 end.
Definition top_f3 : list R := [5; 4; 3; 2].
Definition top_f3' : list R := [5; -4; 3; -2].
Definition top_f4 : list R := [7; 6; 5; 4; 3].
Definition top_f4' : list R := [7; -6; 5; -4; 3].

Lemma top_modes : deg_modes OblateSymmTop 3 (fun i => nth i top_freq (nz 0)) = Some [I2 1 2; I1 0].
Proof.
  assert (T1 : Rltb (Rabs (3000 - 1000)) (1 / 10) = false) by (apply Rltb_false; rewrite Rabs_right; lra).
  assert (T2 : Rltb (Rabs (1000 - 1000)) (1 / 10) = true) by (apply Rltb_true; rewrite Rabs_right; lra).
  assert (T3 : Rltb (1 / 10) (Rabs 1000) = true) by (apply Rltb_true; rewrite Rabs_right; lra).
  set (fr := fun i => nth i top_freq (nz 0)).
  assert (A1 : triple_test fr 0 1 2 = false)
    by (unfold triple_test, close, deg_tol, fr; cbn [nth top_freq nltb nabs nsub nlit Rnum]; now rewrite T1).
  assert (A2 : pair_test fr 0 1 = false)
    by (unfold pair_test, close, deg_tol, fr; cbn [nth top_freq nltb nabs nsub nlit Rnum]; now rewrite T1).
  assert (A3 : pair_test fr 0 2 = false)
    by (unfold pair_test, close, deg_tol, fr; cbn [nth top_freq nltb nabs nsub nlit Rnum]; now rewrite T1).
  assert (A4 : pair_test fr 1 2 = true)
    by (unfold pair_test, close, deg_tol, ngtb, fr; cbn [nth top_freq nltb nabs nsub nlit Rnum]; now rewrite T2, T3).
  clearbody fr. unfold deg_modes, triple_pass, pair_pass.
  do 4 (cbn; rewrite ?A1, ?A2, ?A3, ?A4). reflexivity.
Qed.
Lemma top_signs_cubic i j k :
  nth (find3 i j k) top_f3' 0 = top_signs i * top_signs j * top_signs k * nth (find3 i j k) top_f3 0.
Proof.
  destruct (le_lt_dec 4 (find3 i j k)) as [L|L].
  - rewrite !nth_overflow by exact L. ring.
  - change 4%nat with (t3 2) in L. apply find3_bound in L as (Hi & Hj & Hk).
    destruct i as [|[|i]], j as [|[|j]], k as [|[|k]]; try lia; cbn; ring.
Qed.
Lemma top_signs_quartic i j k l :
  nth (find4 i j k l) top_f4' 0 = top_signs i * top_signs j * top_signs k * top_signs l * nth (find4 i j k l) top_f4 0.
Proof.
  destruct (le_lt_dec 5 (find4 i j k l)) as [L|L].
  - rewrite !nth_overflow by exact L. ring.
  - change 5%nat with (t4 2) in L. apply find4_bound in L as (Hi & Hj & Hk & Hl).
    destruct i as [|[|i]], j as [|[|j]], k as [|[|k]], l as [|[|l]]; try lia; cbn; ring.
Qed.
Lemma top_signs_ok i : top_signs i = 1 \/ top_signs i = -1.
Proof. destruct i as [|[|[|i]]]; cbn; auto. Qed.
Lemma top_finish eig2 (irreps : list nat) lxm lx : exists o,
  finish eig2 false top_mol top_freq top_f3 top_f4 irreps lxm lx = Some o /\
  i2mode (rs_modes (out_resonances o)) = [(1, 2)]%nat.
Proof.
  destruct (finish_total_lemma eig2 top_mol top_freq top_f3 top_f4 irreps lxm lx [I2 1 2; I1 0]) as (o & E & M & _).
  - discriminate. - discriminate. - exact top_modes.
  - cbn. apply (Permutation_app_comm [1; 2]%nat [0]%nat).
  - apply comparable_R.
  - cbn. lia. - cbn. lia. - discriminate.
  - exists o. split; [exact E|]. now rewrite M.
Qed.
