(** The couplings of the resonance polyads as elements of the effective Hamiltonian. *)
From Coq Require Import Reals Lra List ZArith Arith Permutation Lia Bool FunctionalExtensionality.
From Verif Require Import Num Loops Index Modes ListFacts ModesFacts StatesFacts ResFacts
  Anharm AnharmFacts EnergyFacts Polyads PolyadFacts PolyadExact PerturbFacts PerturbSum
  VanVleck VanVleckSum VanVleckPairs.
Import ListNotations.
Open Scope nat_scope.
Local Open Scope R_scope.

(** ** values of the words *)
Lemma ho1_up (a : nat) : ho1 (S a) a = sqrt (INR (S a) / 2).
Proof.
  unfold ho1. replace (a =? S a + 1)%nat with false by (symmetry; apply Nat.eqb_neq; lia).
  replace (S a =? a + 1)%nat with true by (symmetry; apply Nat.eqb_eq; lia). now rewrite S_INR.
Qed.
Lemma ho1_down (a : nat) : ho1 a (S a) = sqrt (INR (a + 1) / 2).
Proof.
  unfold ho1. replace (S a =? a + 1)%nat with true by (symmetry; apply Nat.eqb_eq; lia). now rewrite plus_INR.
Qed.
Lemma ho2_up (a : nat) : ho2 (S (S a)) a = sqrt (INR (S (S a)) / 2) * sqrt (INR (S a) / 2).
Proof.
  rewrite (ho2_apart (fun _ => S (S a)) (fun _ => a) 0) by (left; cbn; lia).
  rewrite Nat.min_r by lia. pose proof (pos_INR a). rewrite !S_INR.
  rewrite <- sqrt_mult by lra. f_equal. field.
Qed.
Lemma ho2_down (a : nat) : ho2 a (S (S a)) = sqrt (INR (a + 1) / 2) * sqrt (INR (S a + 1) / 2).
Proof.
  rewrite (ho2_apart (fun _ => a) (fun _ => S (S a)) 0) by (right; cbn; lia).
  rewrite Nat.min_l by lia. pose proof (pos_INR a). rewrite !plus_INR, !S_INR. cbn [INR].
  rewrite <- sqrt_mult by lra. f_equal. field.
Qed.
Lemma ket_1 n v u : (forall m, (m < n)%nat -> u m = v m) -> ket n v u = 1.
Proof. intros E. unfold ket. now rewrite (proj2 (same_iff n u v) E). Qed.
Lemma down_other l u m : m <> l -> down l u m = u m.
Proof. intros N. unfold down. apply Nat.eqb_neq in N. now rewrite N. Qed.
Lemma up_other l u m : m <> l -> up l u m = u m.
Proof. intros N. unfold up. apply Nat.eqb_neq in N. now rewrite N. Qed.
Lemma down_same l u : down l u l = pred (u l).
Proof. unfold down. now rewrite Nat.eqb_refl. Qed.
Lemma up_same l u : up l u l = S (u l).
Proof. unfold up. now rewrite Nat.eqb_refl. Qed.
Definition back (x : letter) (u : occ) : occ := if snd x then down (fst x) u else up (fst x) u.
Definition amp (x : letter) (a : nat) : R := if snd x then sqrt (INR a / 2) else sqrt (INR (a + 1) / 2).
Lemma ops_back x l psi u : ops (x :: l) psi u = amp x (u (fst x)) * ops l psi (back x u).
Proof. rewrite ops_cons. unfold opr, amp, back. destruct (snd x); reflexivity. Qed.
Lemma back_other (i : nat) (s : bool) u m : m <> i -> back (i, s) u m = u m.
Proof. intros N. unfold back. cbn [fst snd]. destruct s; [now apply down_other|now apply up_other]. Qed.
Lemma back_same (i : nat) (s : bool) u : back (i, s) u i = if s then pred (u i) else S (u i).
Proof. unfold back. cbn [fst snd]. destruct s; [apply down_same|apply up_same]. Qed.
(** one and two quanta of one mode *)
Lemma amp_1 i s (a b : nat) : Z.of_nat a = (Z.of_nat b + sg s)%Z ->
  amp (i, s) a = ho1 a b /\ (if s then pred a else S a) = b.
Proof.
  destruct s; cbn [sg]; intros E; unfold amp; cbn [snd].
  - replace a with (S b) by lia. rewrite ho1_up. auto.
  - replace b with (S a) by lia. rewrite ho1_down. auto.
Qed.
Lemma amp_2 i s (a b : nat) : Z.of_nat a = (Z.of_nat b + 2 * sg s)%Z ->
  amp (i, s) a * amp (i, s) (if s then pred a else S a) = ho2 a b /\
  (if s then pred (pred a) else S (S a)) = b.
Proof.
  destruct s; cbn [sg]; intros E; unfold amp; cbn [snd].
  - replace a with (S (S b)) by lia. cbn [pred]. rewrite ho2_up. auto.
  - replace b with (S (S a)) by lia. rewrite ho2_down. auto.
Qed.

Ltac at_mode S m := let H := fresh "S" m in
  assert (H := S m ltac:(assumption)); unfold shift, dl in H; cbn [fold_right fst snd] in H.

Lemma dd_value n i j s (u v : occ) : (i < n)%nat -> (j < n)%nat -> i <> j ->
  let P : list letter := [(i, s); (i, s); (j, negb s); (j, negb s)] in
  (forall m, (m < n)%nat -> Z.of_nat (u m) = (Z.of_nat (v m) + shift P m)%Z) ->
  ops P (ket n v) u = ho2 (u i) (v i) * ho2 (u j) (v j).
Proof.
  intros Hi Hj N P S. unfold P. rewrite !ops_back. cbn [fst ops fold_right].
  assert (Si : Z.of_nat (u i) = (Z.of_nat (v i) + 2 * sg s)%Z).
  { rewrite (S i Hi). unfold P, shift, dl. cbn [fold_right fst snd]. rewrite Nat.eqb_refl.
    rewrite (proj2 (Nat.eqb_neq i j) N). lia. }
  assert (Sj : Z.of_nat (u j) = (Z.of_nat (v j) + 2 * sg (negb s))%Z).
  { rewrite (S j Hj). unfold P, shift, dl. cbn [fold_right fst snd]. rewrite Nat.eqb_refl.
    rewrite (proj2 (Nat.eqb_neq j i) (not_eq_sym N)). lia. }
  destruct (amp_2 i s _ _ Si) as [Ai Ei]. destruct (amp_2 j (negb s) _ _ Sj) as [Aj Ej].
  rewrite (back_same i s u). rewrite !(back_other i s) by (cbn; auto).
  rewrite (back_same j (negb s)). cbn [fst snd].
  rewrite !(back_other i s) by (cbn; auto).
  rewrite ket_1.
  - rewrite <- Ai, <- Aj. ring.
  - intros m Hm. destruct (Nat.eq_dec m i) as [->|Ni]; [|destruct (Nat.eq_dec m j) as [->|Nj]].
    + rewrite !(back_other j (negb s)) by (cbn; auto).
      rewrite (back_same i s), (back_same i s). cbn [fst snd].
      now destruct s.
    + rewrite (back_same j (negb s)), (back_same j (negb s)). cbn [fst snd].
      rewrite !(back_other i s) by (cbn; auto). now destruct (negb s).
    + rewrite !back_other by (cbn; auto). specialize (S m Hm). unfold P, shift, dl in S. cbn [fold_right fst snd] in S.
      rewrite (proj2 (Nat.eqb_neq m i) Ni), (proj2 (Nat.eqb_neq m j) Nj) in S. lia.
Qed.
Lemma aabc_value n i j k s t t' (u v : occ) : (i < n)%nat -> (j < n)%nat -> (k < n)%nat -> i <> j -> i <> k -> j <> k ->
  let P : list letter := [(i, s); (i, s); (j, t); (k, t')] in
  (forall m, (m < n)%nat -> Z.of_nat (u m) = (Z.of_nat (v m) + shift P m)%Z) ->
  ops P (ket n v) u = ho2 (u i) (v i) * ho1 (u j) (v j) * ho1 (u k) (v k).
Proof.
  intros Hi Hj Hk N1 N2 N3 P S. unfold P. rewrite !ops_back. cbn [fst ops fold_right].
  assert (Si : Z.of_nat (u i) = (Z.of_nat (v i) + 2 * sg s)%Z).
  { rewrite (S i Hi). unfold P, shift, dl. cbn [fold_right fst snd]. rewrite Nat.eqb_refl.
    rewrite (proj2 (Nat.eqb_neq i j) N1), (proj2 (Nat.eqb_neq i k) N2). lia. }
  assert (Sj : Z.of_nat (u j) = (Z.of_nat (v j) + sg t)%Z).
  { rewrite (S j Hj). unfold P, shift, dl. cbn [fold_right fst snd]. rewrite Nat.eqb_refl.
    rewrite (proj2 (Nat.eqb_neq j i) (not_eq_sym N1)), (proj2 (Nat.eqb_neq j k) N3). lia. }
  assert (Sk : Z.of_nat (u k) = (Z.of_nat (v k) + sg t')%Z).
  { rewrite (S k Hk). unfold P, shift, dl. cbn [fold_right fst snd]. rewrite Nat.eqb_refl.
    rewrite (proj2 (Nat.eqb_neq k i) (not_eq_sym N2)), (proj2 (Nat.eqb_neq k j) (not_eq_sym N3)). lia. }
  destruct (amp_2 i s _ _ Si) as [Ai Ei]. destruct (amp_1 j t _ _ Sj) as [Aj Ej].
  destruct (amp_1 k t' _ _ Sk) as [Ak Ek].
  rewrite (back_same i s u). rewrite !(back_other i s) by (cbn; auto). cbn [fst snd].
  rewrite !(back_other j t) by (cbn; auto). rewrite !(back_other i s) by (cbn; auto).
  rewrite ket_1.
  - rewrite <- Ai, <- Aj, <- Ak. ring.
  - intros m Hm. destruct (Nat.eq_dec m i) as [->|Ni]; [|destruct (Nat.eq_dec m j) as [->|Nj]; [|destruct (Nat.eq_dec m k) as [->|Nk]]].
    + rewrite (back_other k t'), (back_other j t) by (cbn; auto).
      rewrite (back_same i s), (back_same i s). cbn [fst snd].
      now destruct s.
    + rewrite (back_other k t') by (cbn; auto).
      rewrite (back_same j t). cbn [fst snd].
      rewrite !(back_other i s) by (cbn; auto). exact Ej.
    + rewrite (back_same k t'). cbn [fst snd].
      rewrite (back_other j t), !(back_other i s) by (cbn; auto). exact Ek.
    + rewrite !back_other by (cbn; auto). specialize (S m Hm). unfold P, shift, dl in S. cbn [fold_right fst snd] in S.
      rewrite (proj2 (Nat.eqb_neq m i) Ni), (proj2 (Nat.eqb_neq m j) Nj), (proj2 (Nat.eqb_neq m k) Nk) in S. lia.
Qed.
Lemma one_value n i j s t (u v : occ) : (i < n)%nat -> (j < n)%nat -> i <> j ->
  let P : list letter := [(i, s); (j, t)] in
  (forall m, (m < n)%nat -> Z.of_nat (u m) = (Z.of_nat (v m) + shift P m)%Z) ->
  ops P (ket n v) u = ho1 (u i) (v i) * ho1 (u j) (v j).
Proof.
  intros Hi Hj N P S. unfold P. rewrite !ops_back. cbn [fst ops fold_right].
  assert (Si : Z.of_nat (u i) = (Z.of_nat (v i) + sg s)%Z).
  { rewrite (S i Hi). unfold P, shift, dl. cbn [fold_right fst snd]. rewrite Nat.eqb_refl.
    rewrite (proj2 (Nat.eqb_neq i j) N). lia. }
  assert (Sj : Z.of_nat (u j) = (Z.of_nat (v j) + sg t)%Z).
  { rewrite (S j Hj). unfold P, shift, dl. cbn [fold_right fst snd]. rewrite Nat.eqb_refl.
    rewrite (proj2 (Nat.eqb_neq j i) (not_eq_sym N)). lia. }
  destruct (amp_1 i s _ _ Si) as [Ai Ei]. destruct (amp_1 j t _ _ Sj) as [Aj Ej].
  rewrite !(back_other i s) by (cbn; auto).
  rewrite ket_1.
  - rewrite <- Ai, <- Aj. ring.
  - intros m Hm. destruct (Nat.eq_dec m i) as [->|Ni]; [|destruct (Nat.eq_dec m j) as [->|Nj]].
    + rewrite (back_other j t) by (cbn; auto).
      rewrite (back_same i s). exact Ei.
    + rewrite (back_same j t). cbn [fst snd].
      rewrite !(back_other i s) by (cbn; auto). exact Ej.
    + rewrite !back_other by (cbn; auto). specialize (S m Hm). unfold P, shift, dl in S. cbn [fold_right fst snd] in S.
      rewrite (proj2 (Nat.eqb_neq m i) Ni), (proj2 (Nat.eqb_neq m j) Nj) in S. lia.
Qed.
Lemma aab_value n i j s t (u v : occ) : (i < n)%nat -> (j < n)%nat -> i <> j ->
  let P : list letter := [(i, s); (i, s); (j, t)] in
  (forall m, (m < n)%nat -> Z.of_nat (u m) = (Z.of_nat (v m) + shift P m)%Z) ->
  ops P (ket n v) u = ho2 (u i) (v i) * ho1 (u j) (v j).
Proof.
  intros Hi Hj N P S. unfold P. rewrite !ops_back. cbn [fst ops fold_right].
  assert (Si : Z.of_nat (u i) = (Z.of_nat (v i) + 2 * sg s)%Z).
  { rewrite (S i Hi). unfold P, shift, dl. cbn [fold_right fst snd]. rewrite Nat.eqb_refl.
    rewrite (proj2 (Nat.eqb_neq i j) N). lia. }
  assert (Sj : Z.of_nat (u j) = (Z.of_nat (v j) + sg t)%Z).
  { rewrite (S j Hj). unfold P, shift, dl. cbn [fold_right fst snd]. rewrite Nat.eqb_refl.
    rewrite (proj2 (Nat.eqb_neq j i) (not_eq_sym N)). lia. }
  destruct (amp_2 i s _ _ Si) as [Ai Ei]. destruct (amp_1 j t _ _ Sj) as [Aj Ej].
  rewrite (back_same i s u). rewrite !(back_other i s) by auto.
  rewrite ket_1.
  - rewrite <- Ai, <- Aj. ring.
  - intros m Hm. destruct (Nat.eq_dec m i) as [->|Ni]; [|destruct (Nat.eq_dec m j) as [->|Nj]].
    + rewrite (back_other j t), (back_same i s), (back_same i s) by auto. now destruct s.
    + rewrite (back_same j t), !(back_other i s) by auto. exact Ej.
    + rewrite !back_other by auto. specialize (S m Hm). unfold P, shift, dl in S. cbn [fold_right fst snd] in S.
      rewrite (proj2 (Nat.eqb_neq m i) Ni), (proj2 (Nat.eqb_neq m j) Nj) in S. lia.
Qed.
Lemma abc_value n i j k s t t' (u v : occ) : (i < n)%nat -> (j < n)%nat -> (k < n)%nat -> i <> j -> i <> k -> j <> k ->
  let P : list letter := [(i, s); (j, t); (k, t')] in
  (forall m, (m < n)%nat -> Z.of_nat (u m) = (Z.of_nat (v m) + shift P m)%Z) ->
  ops P (ket n v) u = ho1 (u i) (v i) * ho1 (u j) (v j) * ho1 (u k) (v k).
Proof.
  intros Hi Hj Hk N1 N2 N3 P S. unfold P. rewrite !ops_back. cbn [fst ops fold_right].
  assert (Si : Z.of_nat (u i) = (Z.of_nat (v i) + sg s)%Z).
  { rewrite (S i Hi). unfold P, shift, dl. cbn [fold_right fst snd]. rewrite Nat.eqb_refl.
    rewrite (proj2 (Nat.eqb_neq i j) N1), (proj2 (Nat.eqb_neq i k) N2). lia. }
  assert (Sj : Z.of_nat (u j) = (Z.of_nat (v j) + sg t)%Z).
  { rewrite (S j Hj). unfold P, shift, dl. cbn [fold_right fst snd]. rewrite Nat.eqb_refl.
    rewrite (proj2 (Nat.eqb_neq j i) (not_eq_sym N1)), (proj2 (Nat.eqb_neq j k) N3). lia. }
  assert (Sk : Z.of_nat (u k) = (Z.of_nat (v k) + sg t')%Z).
  { rewrite (S k Hk). unfold P, shift, dl. cbn [fold_right fst snd]. rewrite Nat.eqb_refl.
    rewrite (proj2 (Nat.eqb_neq k i) (not_eq_sym N2)), (proj2 (Nat.eqb_neq k j) (not_eq_sym N3)). lia. }
  destruct (amp_1 i s _ _ Si) as [Ai Ei]. destruct (amp_1 j t _ _ Sj) as [Aj Ej].
  destruct (amp_1 k t' _ _ Sk) as [Ak Ek].
  rewrite !(back_other i s) by auto.
  rewrite !(back_other j t) by auto. rewrite !(back_other i s) by auto.
  rewrite ket_1.
  - rewrite <- Ai, <- Aj, <- Ak. ring.
  - intros m Hm. destruct (Nat.eq_dec m i) as [->|Ni]; [|destruct (Nat.eq_dec m j) as [->|Nj]; [|destruct (Nat.eq_dec m k) as [->|Nk]]].
    + rewrite (back_other k t'), (back_other j t), (back_same i s) by auto. exact Ei.
    + rewrite (back_other k t'), (back_same j t), (back_other i s) by auto. exact Ej.
    + rewrite (back_same k t'), (back_other j t), (back_other i s) by auto. exact Ek.
    + rewrite !back_other by auto. specialize (S m Hm). unfold P, shift, dl in S. cbn [fold_right fst snd] in S.
      rewrite (proj2 (Nat.eqb_neq m i) Ni), (proj2 (Nat.eqb_neq m j) Nj), (proj2 (Nat.eqb_neq m k) Nk) in S. lia.
Qed.

(** ** the program *)
Lemma over_seq n f : over (seq 0 n) f = Rsum (seq 0 n) f.
Proof.
  unfold over. rewrite acc_add_R, seq_length, range_0. unR. rewrite Rplus_0_l. apply Rsum_ext.
  intros k Hk. apply in_seq in Hk. now rewrite mode_at_seq by lia.
Qed.
Lemma over_sub_seq n f : over_sub (seq 0 n) f = - Rsum (seq 0 n) f.
Proof.
  unfold over_sub. rewrite acc_sub_R, seq_length, range_0. unR. rewrite Rminus_0_l. f_equal. apply Rsum_ext.
  intros k Hk. apply in_seq in Hk. now rewrite mode_at_seq by lia.
Qed.
Lemma opp_Rsum {A} (l : list A) f : - Rsum l f = Rsum l (fun k => - f k).
Proof. rewrite Rsum_opp. reflexivity. Qed.
Section Model.
  Variables (w : nat -> R) (zeta f3 : nat -> nat -> nat -> R) (f4 : nat -> nat -> nat -> nat -> R)
    (B : nat -> R) (n : nat) (fm1 : list (nat * nat)) (fm2 : list (nat * nat * nat))
    (res : nat -> nat -> nat -> bool) (iirst : nat -> nat -> nat) (s t : nat).
  Hypothesis Hf1 : forall i j k, f3 i j k = f3 j i k.
  Hypothesis Hf2 : forall i j k, f3 i j k = f3 i k j.
  Hypothesis Hg1 : forall i j k l, f4 i j k l = f4 j i k l.
  Hypothesis Hg2 : forall i j k l, f4 i j k l = f4 i k j l.
  Hypothesis Hg3 : forall i j k l, f4 i j k l = f4 i j l k.
  Hypothesis Hz : forall i j a, zeta i j a = - zeta j i a.
  Hypothesis Hrep : reported fm1 fm2 res.
  Hypothesis Has : asym_lists fm1 fm2.
  Hypothesis Hw : forall i, (i < n)%nat -> 0 < w i.
  Hypothesis Hd : forall i j m, (i < n)%nat -> (j < n)%nat -> (m < n)%nat ->
     res i j m = false -> w i + w j - w m <> 0.
  Notation q := (fun i => iirst i s).
  Notation q' := (fun i => iirst i t).
  Notation dnm := (init_res_denom w fm1 fm2).
  Notation gen := (genrsa w zeta f3 f4 B (seq 0 n) dnm n iirst s t).
  Notation eff := (effective n w f3 f4 zeta B res).
  Notation pf := (pf w res).

  Lemma vv_rs i j k : res i j k = res j i k.
  Proof. apply eq_iff_eq_true. rewrite !(Hrep _ _ _). unfold resonant. intuition (subst; auto). Qed.
  Lemma vv_rd i j k : res i j k = true -> i <> k /\ j <> k.
  Proof.
    intros H. apply Hrep in H. destruct Has as [A1 A2]. destruct H as [[-> H]|[H|H]].
    - specialize (A1 _ _ H). auto.
    - specialize (A2 _ _ _ H). lia.
    - specialize (A2 _ _ _ H). lia.
  Qed.
  Lemma vv_den s1 s2 s3 : (sg_abs s1 < n)%nat -> (sg_abs s2 < n)%nat -> (sg_abs s3 < n)%nat ->
    denom w dnm s1 s2 s3 = dn w res s1 s2 s3.
  Proof.
    intros H1 H2 H3. unfold dn. apply denom_lemma; [exact Hrep|].
    destruct s1 as [a|a], s2 as [b|b], s3 as [c|c]; cbn [sg_abs sval dropped] in *; intros Hn;
      pose proof (Hw a H1); pose proof (Hw b H2); pose proof (Hw c H3);
      match type of Hn with
      | res ?i ?j ?k = false => pose proof (Hd i j k ltac:(assumption) ltac:(assumption) ltac:(assumption) Hn); lra
      | _ => lra
      end.
  Qed.
  Ltac modes := apply Rsum_ext; let k := fresh "k" in let Hk := fresh in intros k Hk; apply in_seq in Hk;
    assert ((k < n)%nat) by lia; rewrite !vv_den by (cbn [sg_abs]; lia).
  Lemma model_aabb i j : (i < n)%nat -> (j < n)%nat ->
    res2a_aabb w zeta f3 f4 B (seq 0 n) dnm i j = kdd n w f3 f4 zeta B res i j.
  Proof.
    intros Hi Hj. unfold res2a_aabb, kdd. rewrite !over_seq. unR. f_equal; [f_equal|].
    - unfold cor, corio, nsq, Rsqr. unR. unfold Rminus. f_equal. pose proof (Hw i Hi). pose proof (Hw j Hj). field; lra.
    - modes. unfold VanVleckPairs.pf, sgn, bar. cbn [fst snd negb].
      rewrite nlit_half. replace (nlit 1 8) with (/ 8) by (cbn; lra). field.
    - modes. unfold VanVleckPairs.pf, sgn, bar. cbn [fst snd negb].
      rewrite nlit_half. unfold nsq, Rsqr. unR. field.
  Qed.
  Lemma model_aaab i j : (i < n)%nat -> (j < n)%nat ->
    res2a_aaab w f3 f4 (seq 0 n) dnm i j = kaaab n w f3 f4 res i j.
  Proof.
    intros Hi Hj. unfold res2a_aaab, kaaab. rewrite !over_sub_seq. unR.
    match goal with |- ?a + 0 + - ?b + - ?c = _ => replace (a + 0 + - b + - c) with (a + (- b + - c)) by ring end.
    f_equal. rewrite <- Ropp_plus_distr, <- Rsum_plus, opp_Rsum.
    modes. unfold VanVleckPairs.pf, sgn, bar. cbn [fst snd negb]. pose proof (Hw k ltac:(assumption)).
    rewrite nlit_half, nlit_quarter. field. lra.
  Qed.
  Lemma model_acbc i k j : (i < n)%nat -> (k < n)%nat -> (j < n)%nat ->
    res2a_acbc w zeta f3 f4 B (seq 0 n) dnm i k j = kacbc n w f3 f4 zeta B res i k j.
  Proof.
    intros Hi Hk Hj. unfold res2a_acbc, kacbc. rewrite !over_sub_seq, !opp_Rsum. unR. f_equal; [f_equal|].
    - modes. unfold VanVleckPairs.pf, sgn, bar. cbn [fst snd negb]. pose proof (Hw k0 ltac:(assumption)).
      rewrite nlit_half, nlit_quarter. field. lra.
    - modes. unfold VanVleckPairs.pf, sgn, bar. cbn [fst snd negb]. rewrite nlit_half, nlit_quarter. field.
  Qed.
  Lemma model_aabc i j k : (i < n)%nat -> (j < n)%nat -> (k < n)%nat ->
    res2a_aabc w zeta f3 f4 B (seq 0 n) dnm i j k = kaabc n w f3 f4 zeta B res i j k.
  Proof.
    intros Hi Hj Hk. unfold res2a_aabc, kaabc. rewrite !over_sub_seq, !opp_Rsum. unR. f_equal; [f_equal|].
    - rewrite nlit_half. unfold cor, corio. unR. unfold Rdiv. ring.
    - modes. unfold VanVleckPairs.pf, sgn, bar. cbn [fst snd negb]. rewrite nlit_half, nlit_quarter. field.
    - modes. unfold VanVleckPairs.pf, sgn, bar. cbn [fst snd negb]. rewrite nlit_half. field.
  Qed.
  Lemma kaabc_sym i j k : kaabc n w f3 f4 zeta B res i k j = kaabc n w f3 f4 zeta B res i j k.
  Proof.
    unfold kaabc. rewrite (Hg3 i i k j), (Rmult_comm (w k) (w j)).
    assert (A : corio zeta B i k i j = corio zeta B i j i k) by (unfold corio; ring). rewrite A.
    f_equal; [f_equal|].
    - unfold Rdiv. ring.
    - apply Rsum_ext. intros l _. rewrite (Hf1 k j l), (pf_12 w res vv_rs (k, true)). reflexivity.
    - apply Rsum_ext. intros l _. unfold Rdiv. ring.
  Qed.

  Ltac difference Ho := let m := fresh "m" in let Hm := fresh in intros m Hm; unfold shift, dl; cbn [fold_right fst snd sg negb];
    repeat match goal with |- context [(?y =? ?x)%nat] => destruct (Nat.eqb_spec y x) as [?E|?E]; [try subst|] end;
    try lia; rewrite (Ho m) by auto; lia.

  Lemma effective_aabb_lemma i j : (i < j)%nat -> (j < n)%nat -> apart q q' i 2 -> apart q q' j 2 ->
    (q i + q j = q' i + q' j)%nat ->
    (forall m, (m < n)%nat -> m <> i -> m <> j -> q m = q' m) ->
    gen = Some (eff q q').
  Proof.
    intros Hij Hj Ai Aj Hs Ho. rewrite (dd_gen w zeta f3 f4 B n iirst s t _ i j) by assumption.
    f_equal. rewrite model_aabb by lia.
    assert (Hi : (i < n)%nat) by lia. assert (N : i <> j) by lia.
    assert (G : forall b, (forall m, (m < n)%nat -> Z.of_nat (q m) = (Z.of_nat (q' m) + shift [(i, b); (i, b); (j, negb b); (j, negb b)] m)%Z) ->
      kdd n w f3 f4 zeta B res i j * (ho2 (q i) (q' i) * ho2 (q j) (q' j)) = eff q q').
    { intros b S. rewrite (eff_dd n w f3 f4 zeta B res Hw Hf1 Hf2 Hg1 Hg2 Hg3 Hz vv_rs vv_rd i j b q q' Hi Hj N S).
      f_equal. symmetry. exact (dd_value n i j b q q' Hi Hj N S). }
    destruct Ai as [Ai|Ai].
    - apply (G true). unfold apart in *. difference Ho.
    - apply (G false). unfold apart in *. difference Ho.
  Qed.
  Lemma effective_aabc_lemma i j k : i <> j -> i <> k -> (j < k)%nat -> (i < n)%nat -> (k < n)%nat ->
    apart q q' i 2 -> apart q q' j 1 -> apart q q' k 1 ->
    (q i + q j + q k = q' i + q' j + q' k)%nat ->
    (forall m, (m < n)%nat -> m <> i -> m <> j -> m <> k -> q m = q' m) ->
    gen = Some (eff q q').
  Proof.
    intros N1 N2 Hjk Hi Hk Ai Aj Ak Hs Ho.
    rewrite (aabc_gen w zeta f3 f4 B n iirst s t _ i j k); try assumption.
    2:{ rewrite !model_aabc by lia. apply kaabc_sym. }
    f_equal. rewrite model_aabc by lia.
    assert (Hj : (j < n)%nat) by lia. assert (N3 : j <> k) by lia.
    assert (G : forall b, (forall m, (m < n)%nat -> Z.of_nat (q m) = (Z.of_nat (q' m) + shift [(i, b); (i, b); (j, negb b); (k, negb b)] m)%Z) ->
      kaabc n w f3 f4 zeta B res i j k * (ho2 (q i) (q' i) * ho1 (q j) (q' j) * ho1 (q k) (q' k)) = eff q q').
    { intros b S. rewrite (eff_aabc n w f3 f4 zeta B res Hw Hf1 Hf2 Hg1 Hg2 Hg3 Hz vv_rs vv_rd i j k b q q' Hi Hj Hk N1 N2 N3 S).
      f_equal. symmetry. exact (aabc_value n i j k b (negb b) (negb b) q q' Hi Hj Hk N1 N2 N3 S). }
    unfold apart in *. destruct Ai as [Ai|Ai].
    - apply (G true). difference Ho.
    - apply (G false). difference Ho.
  Qed.
  Lemma effective_one_lemma i j : (i < j)%nat -> (j < n)%nat -> apart q q' i 1 -> apart q q' j 1 ->
    (q i + q j = q' i + q' j)%nat ->
    (forall m, (m < n)%nat -> m <> i -> m <> j -> q m = q' m) ->
    gen = Some (eff q q').
  Proof.
    intros Hij Hj Ai Aj Hs Ho. rewrite (oneone_gen w zeta f3 f4 B n iirst s t _ i j) by assumption.
    f_equal. rewrite !model_aaab by lia.
    assert (Hi : (i < n)%nat) by lia. assert (N : i <> j) by lia.
    assert (G : forall b, (forall m, (m < n)%nat -> Z.of_nat (q m) = (Z.of_nat (q' m) + shift [(i, b); (j, negb b)] m)%Z) ->
      INR (Nat.min (q i) (q' i)) + 1 = INR (q i) + (if b then 0 else 1) ->
      INR (Nat.min (q j) (q' j)) + 1 = INR (q j) + (if b then 1 else 0) ->
      (kaaab n w f3 f4 res i j * (INR (Nat.min (q i) (q' i)) + 1) / 2
       + kaaab n w f3 f4 res j i * (INR (Nat.min (q j) (q' j)) + 1) / 2
       + Rsum (seq 0 n) (fun k => if ((k =? i) || (k =? j))%nat then 0
           else res2a_acbc w zeta f3 f4 B (seq 0 n) dnm i k j * (INR (q k) + / 2)))
      * (ho1 (q i) (q' i) * ho1 (q j) (q' j)) = eff q q').
    { intros b S E1 E2. rewrite (eff_one n w f3 f4 zeta B res Hw Hf1 Hf2 Hg1 Hg2 Hg3 Hz vv_rs vv_rd q q' i j b Hi Hj N S).
      cbv beta. f_equal; [|symmetry; exact (one_value n i j b (negb b) q q' Hi Hj N S)]. cbv beta in E1, E2.
      rewrite E1, E2. f_equal; [unfold Rdiv; ring|]. apply Rsum_ext. intros k Hk. apply in_seq in Hk.
      destruct ((k =? i) || (k =? j))%nat; [reflexivity|]. now rewrite model_acbc by lia. }
    unfold apart in *. destruct Ai as [Ai|Ai].
    - apply (G true).
      + difference Ho.
      + rewrite Nat.min_r by lia. rewrite Ai, plus_INR. cbn [INR]. lra.
      + rewrite Nat.min_l by lia. reflexivity.
    - apply (G false).
      + difference Ho.
      + rewrite Nat.min_l by lia. reflexivity.
      + rewrite Nat.min_r by lia. replace (q j) with (q' j + 1)%nat by lia. rewrite plus_INR. cbn [INR]. lra.
  Qed.

  (** *** cubic elements *)
  Lemma cubic_only P u v : of_word n P -> length P = 3%nat -> reduced P ->
    (forall m, (m < n)%nat -> Z.of_nat (u m) = (Z.of_nat (v m) + shift P m)%Z) ->
    eff u v = (if near n res v u then tsum n 3 (fun l => c3 f3 l * ops l (ket n v) u) else 0) /\
    only n 3 (fun l => c3 f3 l * ops l (ket n v) u) P.
  Proof.
    intros HPw HPl HPr S. split.
    - rewrite (effective_words n w f3 f4 zeta B res Hf1 Hf2 vv_rs vv_rd), pos3_words.
      rewrite (tsum_0 n 4); [ring|]. intros l Hl Hlw.
      destruct (Req_dec (ops l (ket n v) u) 0) as [E|E]; [rewrite E; ring|exfalso].
      pose proof (ops_support n _ v u E) as T.
      assert (X : energy (fun _ => 1) l = energy (fun _ => 1) P).
      { rewrite <- !(total n) by assumption. apply Rsum_ext. intros i Hi. apply in_seq in Hi. f_equal.
        specialize (S i ltac:(lia)). specialize (T i ltac:(lia)). lia. }
      destruct P as [|a [|b [|c [|]]]]; try discriminate.
      destruct l as [|p [|x [|r [|y [|]]]]]; try discriminate.
      unfold energy, es in X. cbn [fold_right] in X.
      destruct (snd a), (snd b), (snd c), (snd p), (snd x), (snd r), (snd y); lra.
    - intros l Hl Hlw Hn. assert (E : ops l (ket n v) u <> 0) by (intros E; apply Hn; rewrite E; ring).
      pose proof (ops_support n _ v u E) as T. apply forced_word; [exact HPr|now rewrite Hl, HPl|].
      intros i [x [Hx <-]]. assert (Hi : (fst x < n)%nat) by (apply in_app_or in Hx; destruct Hx; auto).
      specialize (S _ Hi). specialize (T _ Hi). lia.
  Qed.
  Lemma near_modes i j k : (i < n)%nat -> (j < n)%nat -> (k < n)%nat -> i <> j -> i <> k -> j <> k ->
    apart q q' i 1 -> apart q q' j 1 -> apart q q' k 1 ->
    near n res q' q = true -> res j k i = true \/ res i k j = true \/ res i j k = true.
  Proof.
    intros Hi Hj Hk N1 N2 N3 Ai Aj Ak H.
    apply (near_iff n w f3 q' res Hf1 Hf2 vv_rs vv_rd q) in H.
    destruct H as (i' & j' & k' & b & Hi' & Hj' & Hk' & Hr & D).
    assert (I : forall m, (m < n)%nat -> apart q q' m 1 -> m = i' \/ m = j' \/ m = k').
    { intros m Hm Am. specialize (D m Hm). unfold apart, dl in *.
      destruct (Nat.eqb_spec m i'); [auto|]. destruct (Nat.eqb_spec m j'); [auto|].
      destruct (Nat.eqb_spec m k'); [auto|]. exfalso. destruct b; cbn [sg] in D; lia. }
    pose proof (vv_rs i' j' k') as Y.
    destruct (I i Hi Ai) as [-> | [-> | ->]], (I j Hj Aj) as [-> | [-> | ->]], (I k Hk Ak) as [-> | [-> | ->]];
      try (exfalso; congruence); rewrite ?Hr, <- ?Y, ?Hr; auto.
  Qed.
  Lemma effective_abc_lemma i j k : (i < j)%nat -> (j < k)%nat -> (k < n)%nat ->
    apart q q' i 1 -> apart q q' j 1 -> apart q q' k 1 ->
    (forall m, (m < n)%nat -> m <> i -> m <> j -> m <> k -> q m = q' m) ->
    near n res q' q = true \/ res j k i = false /\ res i k j = false /\ res i j k = false ->
    gen = Some (eff q q').
  Proof.
    intros Hij Hjk Hk Ai Aj Ak Ho Hr.
    rewrite (type2_lemma w zeta f3 f4 B (seq 0 n) fm1 fm2 res n iirst s t Hrep Hd i j k) by assumption.
    assert (Hi : (i < n)%nat) by lia. assert (Hj : (j < n)%nat) by lia.
    assert (N1 : i <> j) by lia. assert (N2 : i <> k) by lia. assert (N3 : j <> k) by lia.
    assert (T : res j k i || res i k j || res i j k = near n res q' q).
    { destruct (near n res q' q) eqn:E.
      - rewrite !orb_true_iff. pose proof (near_modes i j k Hi Hj Hk N1 N2 N3 Ai Aj Ak E). tauto.
      - destruct Hr as [Hr|(-> & -> & ->)]; [discriminate|reflexivity]. }
    rewrite T. f_equal.
    assert (G : forall a b c, (forall m, (m < n)%nat -> Z.of_nat (q m) = (Z.of_nat (q' m) + shift [(i, a); (j, b); (k, c)] m)%Z) ->
      (if near n res q' q then f3 i j k * (ho1 (q i) (q' i) * ho1 (q j) (q' j) * ho1 (q k) (q' k)) else 0) = eff q q').
    { intros a b c S. set (P := [(i, a); (j, b); (k, c)] : list letter).
      assert (Hr' : reduced P).
      { intros x Hx Hb. unfold P in *. cbn [In] in Hx, Hb. unfold bar in Hb.
        destruct Hx as [<-|[<-|[<-|[]]]], Hb as [E|[E|[E|[]]]]; cbn [fst snd] in E; injection E; intros; try lia;
          first [destruct a; discriminate|destruct b; discriminate|destruct c; discriminate]. }
      assert (HP : of_word n P) by (intros y H; unfold P in H; cbn [In] in H; intuition (subst; assumption)).
      destruct (cubic_only P q q' HP eq_refl Hr' S) as [E O]. rewrite E. destruct (near n res q' q); [|reflexivity].
      rewrite (ts3 n _ (i, a) (j, b) (k, c) Hi Hj Hk); [|congruence|congruence|congruence|exact O].
      assert (V : forall l, Permutation l P -> ops l (ket n q') q = ho1 (q i) (q' i) * ho1 (q j) (q' j) * ho1 (q k) (q' k)).
      { intros l Hl. rewrite <- (ops_perm P l _ (Permutation_sym Hl) Hr').
        exact (abc_value n i j k a b c q q' Hi Hj Hk N1 N2 N3 S). }
      rewrite !V by (unfold P; perm4). cbn [c3 fst].
      rewrite (Hf2 i k j), (Hf1 j i k), (Hf2 j k i), (Hf1 j i k), (Hf1 k i j), (Hf2 i k j), (Hf2 k j i), (Hf1 k i j), (Hf2 i k j). field. }
    unfold apart in *.
    destruct Ai as [Ai|Ai], Aj as [Aj|Aj], Ak as [Ak|Ak];
      [apply (G true true true)|apply (G true true false)|apply (G true false true)|apply (G true false false)
      |apply (G false true true)|apply (G false true false)|apply (G false false true)|apply (G false false false)];
      difference Ho.
  Qed.
  Lemma near_modes1 i j : (i < n)%nat -> (j < n)%nat -> i <> j -> apart q q' i 2 -> apart q q' j 1 ->
    near n res q' q = true -> res i i j = true.
  Proof.
    intros Hi Hj N Ai Aj H.
    apply (near_iff n w f3 q' res Hf1 Hf2 vv_rs vv_rd q) in H.
    destruct H as (i' & j' & k' & b & Hi' & Hj' & Hk' & Hr & D).
    pose proof (D i Hi) as D1. pose proof (D j Hj) as D2. unfold apart, dl in *.
    destruct (Nat.eqb_spec i i') as [<-|]; [|exfalso; destruct (Nat.eqb_spec i j'), (Nat.eqb_spec i k'), b; cbn [sg] in D1; lia].
    destruct (Nat.eqb_spec i j') as [<-|]; [|exfalso; destruct (Nat.eqb_spec i k'), b; cbn [sg] in D1; lia].
    destruct (Nat.eqb_spec j k') as [<-|]; [exact Hr|exfalso].
    destruct (Nat.eqb_spec j i) as [->|]; [lia|]. destruct b; cbn [sg] in D2; lia.
  Qed.
  Lemma effective_aab_lemma i j : i <> j -> (i < n)%nat -> (j < n)%nat ->
    apart q q' i 2 -> apart q q' j 1 ->
    (forall m, (m < n)%nat -> m <> i -> m <> j -> q m = q' m) ->
    near n res q' q = true \/ res i i j = false ->
    gen = Some (eff q q').
  Proof.
    intros N Hi Hj Ai Aj Ho Hr.
    rewrite (type1_lemma w zeta f3 f4 B (seq 0 n) fm1 fm2 res n iirst s t Hrep Hd i j); try assumption.
    2:{ intros a b. now rewrite (Hf1 a b b), (Hf2 b a b). }
    assert (T : res i i j = near n res q' q).
    { destruct (near n res q' q) eqn:E.
      - now apply near_modes1.
      - destruct Hr as [Hr|Hr]; [discriminate|exact Hr]. }
    rewrite T. f_equal.
    assert (G : forall a b, (forall m, (m < n)%nat -> Z.of_nat (q m) = (Z.of_nat (q' m) + shift [(i, a); (i, a); (j, b)] m)%Z) ->
      (if near n res q' q then / 2 * f3 i i j * (ho2 (q i) (q' i) * ho1 (q j) (q' j)) else 0) = eff q q').
    { intros a b S. set (P := [(i, a); (i, a); (j, b)] : list letter).
      assert (Hr' : reduced P).
      { intros x Hx Hb. unfold P in *. cbn [In] in Hx, Hb. unfold bar in Hb.
        destruct Hx as [<-|[<-|[<-|[]]]], Hb as [E|[E|[E|[]]]]; cbn [fst snd] in E; injection E; intros; try congruence;
          first [destruct a; discriminate|destruct b; discriminate]. }
      assert (HP : of_word n P) by (intros y H; unfold P in H; cbn [In] in H; intuition (subst; assumption)).
      destruct (cubic_only P q q' HP eq_refl Hr' S) as [E O]. rewrite E. destruct (near n res q' q); [|reflexivity].
      rewrite (ts3e n _ (i, a) (j, b) Hi Hj); [|congruence|exact O].
      assert (V : forall l, Permutation l P -> ops l (ket n q') q = ho2 (q i) (q' i) * ho1 (q j) (q' j)).
      { intros l Hl. rewrite <- (ops_perm P l _ (Permutation_sym Hl) Hr').
        exact (aab_value n i j a b q q' Hi Hj N S). }
      rewrite !V by (unfold P; perm4). cbn [c3 fst].
      rewrite (Hf2 i j i), (Hf1 j i i), (Hf2 i j i). field. }
    unfold apart in *.
    destruct Ai as [Ai|Ai], Aj as [Aj|Aj];
      [apply (G true true)|apply (G true false)|apply (G false true)|apply (G false false)];
      difference Ho.
  Qed.
End Model.

(** ** a concrete force field: three modes, mode 0 resonant with the sum of 1 and 2 *)
Definition tri_w (i : nat) : R := match i with 0%nat => 2050 | 1%nat => 1100 | _ => 1000 end.
Definition tri_f3 (_ _ _ : nat) : R := 70.
Definition tri_f4 (_ _ _ _ : nat) : R := 30.
Definition tri_zeta (i j _ : nat) : R := INR i - INR j.
Definition tri_res (i j k : nat) : bool :=
  ((i =? 2) && (j =? 1) && (k =? 0) || (i =? 1) && (j =? 2) && (k =? 0))%nat.
(** states [0]: (0,2,0), [1]: (0,0,2), [2]: (2,0,0), [3]: (0,1,1), [4]: (1,0,0),
    [5]: (0,1,0), [6]: (0,0,1) *)
Definition tri_states (m s : nat) : nat :=
  nth m (nth s [[0; 2; 0]; [0; 0; 2]; [2; 0; 0]; [0; 1; 1]; [1; 0; 0]; [0; 1; 0]; [0; 0; 1]] [])%nat 0%nat.
Lemma tri_hyps :
  (forall i j k, tri_f3 i j k = tri_f3 j i k) /\ (forall i j k, tri_f3 i j k = tri_f3 i k j) /\
  (forall i j k l, tri_f4 i j k l = tri_f4 j i k l) /\ (forall i j k l, tri_f4 i j k l = tri_f4 i k j l) /\
  (forall i j k l, tri_f4 i j k l = tri_f4 i j l k) /\
  (forall i j a, tri_zeta i j a = - tri_zeta j i a) /\
  reported [] [(2, 1, 0)]%nat tri_res /\ asym_lists [] [(2, 1, 0)]%nat /\
  (forall i, (i < 3)%nat -> 0 < tri_w i) /\
  (forall i j m, (i < 3)%nat -> (j < 3)%nat -> (m < 3)%nat ->
     tri_res i j m = false -> tri_w i + tri_w j - tri_w m <> 0).
Proof.
  do 5 (split; [reflexivity|]). split; [unfold tri_zeta; intros; lra|]. split; [|split; [|split]].
  - intros i j k. unfold tri_res, resonant. cbn [In].
    rewrite orb_true_iff, !andb_true_iff, !Nat.eqb_eq. split.
    + intros [((-> & ->) & ->)|((-> & ->) & ->)]; auto.
    + intros [[_ []]|[[E|[]]|[E|[]]]]; injection E as <- <- <-; auto.
  - split; [intros i j []|]. intros i j k [E|[]]. injection E as <- <- <-. lia.
  - intros i _. destruct i as [|[|i]]; cbn; lra.
  - intros i j m Hi Hj Hm H.
    destruct i as [|[|[|i]]]; [| | |lia]; (destruct j as [|[|[|j]]]; [| | |lia]); (destruct m as [|[|[|m]]]; [| | |lia]);
      try discriminate H; cbn; lra.
Qed.
Lemma tri_near : near 3 tri_res (fun i => tri_states i 4) (fun i => tri_states i 3) = true.
Proof. reflexivity. Qed.
