(** The states of resonance polyads; counterexamples. *)
From Coq Require Import Reals Lra Lia List ZArith Arith Bool Sorted.
From Verif Require Import Num Loops Index Modes Anharm Polyads ListFacts LoadFacts ModesFacts StatesFacts
  ResFacts AnharmFacts EnergyFacts PolyadFacts PolyadExact.
Import ListNotations.
Open Scope nat_scope.

(** ** make_resin *)
(** a list of n quantum numbers given by a function *)
Definition is_state (n : nat) (v : list nat) (q : nat -> nat) : Prop :=
  length v = n /\ forall m, m < n -> nth m v 0 = q m.
(** the two states of a resonance *)
Definition resin_state (n : nat) (fm1 : list (nat * nat)) (fm2 : list (nat * nat * nat)) (v : list nat) : Prop :=
  (exists i j, In (i, j) fm1 /\
     (is_state n v (fun m => if m =? i then 2 else 0) \/ is_state n v (fun m => if m =? j then 1 else 0))) \/
  (exists i j k, In (i, j, k) fm2 /\
     (is_state n v (fun m => if (m =? i) || (m =? j) then 1 else 0) \/
      is_state n v (fun m => if m =? k then 1 else 0))).

Lemma is_state_eq n v q v' q' : is_state n v q -> is_state n v' q' -> (forall m, m < n -> q m = q' m) -> v = v'.
Proof.
  intros [L E] [L' E'] Q. apply (nth_ext v v' 0 0); [congruence|].
  intros m Hm. rewrite E, E', Q by lia. reflexivity.
Qed.
Lemma set_state n v q i x : is_state n v q -> i < n ->
  exists v', set_nth v i x = Some v' /\ is_state n v' (fun m => if m =? i then x else q m).
Proof.
  intros [L E] Hi. assert (S : exists v', set_nth v i x = Some v').
  { clear E. revert i n L Hi. induction v as [|a v IH]; intros i n L Hi; cbn in L; [lia|].
    destruct i as [|i]; cbn; [eauto|]. destruct (IH i (n - 1)) as [v' ->]; [lia..|]. eauto. }
  destruct S as [v' S]. exists v'. split; [exact S|].
  assert (G : length v' = length v /\ forall m, m < length v -> nth m v' 0 = if m =? i then x else nth m v 0).
  { clear E L Hi n. revert i v' S. induction v as [|a v IH]; intros i v' S; [discriminate|].
    destruct i as [|i]; cbn in S.
    - injection S as <-. split; [reflexivity|]. intros [|m] _; reflexivity.
    - destruct (set_nth v i x) as [u|] eqn:U; [|discriminate]. injection S as <-.
      destruct (IH _ _ U) as [L G]. split; [cbn; lia|]. intros [|m] Hm; cbn in *; [reflexivity|]. apply G. lia. }
  destruct G as [G1 G2]. split; [congruence|]. intros m Hm. rewrite G2 by lia.
  destruct (m =? i); [reflexivity|]. apply E, Hm.
Qed.
Lemma zero_state n : is_state n (repeat 0 n) (fun _ => 0).
Proof. split; [apply repeat_length|]. intros. apply nth_repeat_0. Qed.

Lemma resin_lemma n fm1 fm2 :
  (forall i j, In (i, j) fm1 -> i < n /\ j < n) ->
  (forall i j k, In (i, j, k) fm2 -> i < n /\ j < n /\ k < n) ->
  exists ins, resin_inserts n fm1 fm2 = Some ins /\
    (forall v, In v ins <-> resin_state n fm1 fm2 v) /\ (forall v, In v ins -> length v = n).
Proof.
  intros B1 B2. unfold resin_inserts.
  assert (P1 : exists a, ofold (fun acc '(i, j) =>
      let* t1 := set_nth (repeat 0 n) i 2 in
      let* t2 := set_nth (repeat 0 n) j 1 in
      Some (acc ++ [t1; t2])) fm1 [] = Some a /\ forall v, In v a <-> resin_state n fm1 [] v).
  { assert (G : forall fm acc, (forall i j, In (i, j) fm -> i < n /\ j < n) ->
      exists a, ofold (fun acc '(i, j) =>
        let* t1 := set_nth (repeat 0 n) i 2 in
        let* t2 := set_nth (repeat 0 n) j 1 in
        Some (acc ++ [t1; t2])) fm acc = Some a /\ forall v, In v a <-> In v acc \/ resin_state n fm [] v).
    { induction fm as [|[i j] fm IH]; intros acc Hb.
      - exists acc. split; [reflexivity|]. intros v. unfold resin_state. cbn. firstorder.
      - destruct (Hb i j (or_introl eq_refl)) as [Hi Hj]. cbn [ofold].
        destruct (set_state n _ _ i 2 (zero_state n) Hi) as (t1 & E1 & S1).
        destruct (set_state n _ _ j 1 (zero_state n) Hj) as (t2 & E2 & S2).
        rewrite E1, E2. cbn [obind].
        destruct (IH (acc ++ [t1; t2])) as (a & Ea & Ha); [intros; apply Hb; now right|].
        exists a. split; [exact Ea|]. intros v. rewrite Ha, in_app_iff. cbn [In]. split.
        + intros [[I|[<-|[<-|[]]]]|I]; auto.
          * right. left. exists i, j. split; [now left|]. now left.
          * right. left. exists i, j. split; [now left|]. now right.
          * right. destruct I as [(i' & j' & I & S)|(i' & j' & k' & [] & _)].
            left. exists i', j'. split; [now right|exact S].
        + intros [I|[(i' & j' & [E|I] & S)|(i' & j' & k' & [] & _)]].
          * auto.
          * injection E as <- <-. left. right. destruct S as [S|S]; [left|right; left]; eapply is_state_eq; eauto; reflexivity.
          * right. left. exists i', j'. auto. }
    destruct (G fm1 [] B1) as (a & Ea & Ha). exists a. split; [exact Ea|]. intros v. rewrite Ha. cbn. tauto. }
  destruct P1 as (a & Ea & Ha). rewrite Ea. cbn [obind].
  assert (G : forall fm acc, (forall i j k, In (i, j, k) fm -> i < n /\ j < n /\ k < n) ->
    exists b, ofold (fun acc '(i, j, k) =>
      let* t1 := set_nth (repeat 0 n) i 1 in
      let* t1 := set_nth t1 j 1 in
      let* t2 := set_nth (repeat 0 n) k 1 in
      Some (acc ++ [t1; t2])) fm acc = Some b /\ forall v, In v b <-> In v acc \/ resin_state n [] fm v).
  { induction fm as [|[[i j] k] fm IH]; intros acc Hb.
    - exists acc. split; [reflexivity|]. intros v. unfold resin_state. cbn. firstorder.
    - destruct (Hb i j k (or_introl eq_refl)) as (Hi & Hj & Hk). cbn [ofold].
      destruct (set_state n _ _ i 1 (zero_state n) Hi) as (t0 & E0 & S0).
      destruct (set_state n _ _ j 1 S0 Hj) as (t1 & E1 & S1).
      destruct (set_state n _ _ k 1 (zero_state n) Hk) as (t2 & E2 & S2).
      rewrite E0. cbn [obind]. rewrite E1, E2. cbn [obind].
      assert (S1' : is_state n t1 (fun m => if (m =? i) || (m =? j) then 1 else 0)).
      { destruct S1 as [L S1]. split; [exact L|]. intros m Hm. rewrite (S1 m Hm).
        now destruct (m =? i), (m =? j). }
      destruct (IH (acc ++ [t1; t2])) as (b & Eb & Hb'); [intros; apply Hb; now right|].
      exists b. split; [exact Eb|]. intros v. rewrite Hb', in_app_iff. cbn [In]. split.
      + intros [[I|[<-|[<-|[]]]]|I]; auto.
        * right. right. exists i, j, k. split; [now left|]. now left.
        * right. right. exists i, j, k. split; [now left|]. now right.
        * right. destruct I as [(i' & j' & [] & S)|(i' & j' & k' & I & S)].
          right. exists i', j', k'. split; [now right|exact S].
      + intros [I|[(i' & j' & [] & _)|(i' & j' & k' & [E|I] & S)]].
        * auto.
        * injection E as <- <- <-. left. right. destruct S as [S|S]; [left|right; left]; eapply is_state_eq; eauto; reflexivity.
        * right. right. exists i', j', k'. auto. }
  destruct (G fm2 a B2) as (b & Eb & Hb). exists b. split; [exact Eb|].
  assert (Q : forall v, In v b <-> resin_state n fm1 fm2 v).
  { intros v. rewrite Hb, Ha. unfold resin_state. cbn [In]. split.
    - intros [[I|(i & j & k & [] & _)]|[(i & j & [] & _)|I]]; auto.
    - intros [I|I]; auto. }
  split; [exact Q|]. intros v I. apply Q in I.
  destruct I as [(i & j & _ & [[L _]|[L _]])|(i & j & k & _ & [[L _]|[L _]])]; exact L.
Qed.

(** ** resona *)
Definition bad (n s t : nat) : bool :=
  let q := fun i => fixed_iirst i s in
  let q' := fun i => fixed_iirst i t in
  (moved n q q' =? 4)%Z && ((length (differing n q q') =? 4) ||
     negb (net n q q' =? 0)%Z && ((length (differing n q q') =? 2) || (length (differing n q q') =? 3))).
Lemma no_bad : forallb (fun n => forallb (fun s => forallb (fun t => negb (bad n s t)) (seq 0 7)) (seq 0 7)) (seq 0 13) = true.
Proof. vm_compute. reflexivity. Qed.

Section Resona.
  Context {F : Type} `{Num F}.
  Variables (zmat f3 : nat -> nat -> nat -> F) (f4 : nat -> nat -> nat -> nat -> F)
    (e0 : F) (modes : list mode) (freq : nat -> F) (rotcon : nat -> F) (x : nat -> nat -> F)
    (fm1 : list (nat * nat)) (fm2 : list (nat * nat * nat)).
  Notation i1 := (i1mode modes).
  Notation gen := (genrsa freq zmat f3 f4 rotcon i1 (init_res_denom freq fm1 fm2) (length i1) fixed_iirst).
  Notation energy := (polyad_energy freq i1 e0 x).

  Lemma fixed_some s t : length i1 <= 12 -> s < 7 -> t < 7 -> gen s t <> None.
  Proof.
    intros Hn Hs Ht E. apply genrsa_none in E as [M Q].
    assert (B : bad (length i1) s t = false).
    { pose proof no_bad as N. rewrite forallb_forall in N.
      specialize (N (length i1) ltac:(apply in_seq; lia)). rewrite forallb_forall in N.
      specialize (N s ltac:(apply in_seq; lia)). rewrite forallb_forall in N.
      specialize (N t ltac:(apply in_seq; lia)). now apply negb_true_iff in N. }
    unfold bad in B. cbv zeta in B. rewrite M in B. cbn [Z.eqb Pos.eqb andb] in B.
    apply orb_false_iff in B as [B1 B2]. apply Nat.eqb_neq in B1.
    destruct Q as [Q|[Q1 Q2]]; [contradiction|].
    apply Z.eqb_neq in Q1. rewrite Q1 in B2. cbn [negb andb] in B2.
    apply orb_false_iff in B2 as [B2 B3]. apply Nat.eqb_neq in B2, B3. lia.
  Qed.

  Definition row_ok (i : nat) (row : list F) : Prop :=
    length row = i + 1 /\ nth_error row i = Some (energy (fun m => fixed_iirst m i)) /\
    forall j, j < i -> nth_error row j = gen i j.

  Lemma row_lemma i : length i1 <= 12 -> i < 7 ->
    exists row, ofold (fun row j =>
          if (j =? i) then Some (row ++ [energy (fun ii => fixed_iirst ii i)]) else
          let* v := gen i j in Some (row ++ [v])) (range 0 (i + 1)) [] = Some row /\ row_ok i row.
  Proof.
    intros Hn Hi. rewrite range_0. replace (seq 0 (i + 1)) with (seq 0 i ++ [i]) by (now rewrite Nat.add_1_r, seq_S).
    assert (G : forall m, m <= i -> exists r, ofold (fun row j =>
          if (j =? i) then Some (row ++ [energy (fun ii => fixed_iirst ii i)]) else
          let* v := gen i j in Some (row ++ [v])) (seq 0 m) [] = Some r /\ length r = m /\
          forall j, j < m -> nth_error r j = gen i j).
    { induction m as [|m IH]; intros Hm.
      - exists []. split; [reflexivity|]. split; [reflexivity|]. intros; lia.
      - destruct IH as (r & E & L & N); [lia|]. rewrite seq_S, ofold_app, E. cbn [ofold plus].
        replace (m =? i) with false by (symmetry; apply Nat.eqb_neq; lia).
        destruct (gen i m) as [v|] eqn:Ev; [|exfalso; revert Ev; apply fixed_some; lia].
        cbn [obind]. exists (r ++ [v]). split; [reflexivity|]. split; [rewrite app_length; cbn; lia|].
        intros j Hj. destruct (Nat.eq_dec j m) as [->|Nj].
        + rewrite nth_error_app2, L, Nat.sub_diag by lia. now rewrite Ev.
        + rewrite nth_error_app1 by lia. apply N. lia. }
    destruct (G i (le_n i)) as (r & E & L & N). rewrite ofold_app, E. cbn [ofold]. rewrite Nat.eqb_refl.
    eexists. split; [reflexivity|]. split; [rewrite app_length; cbn; lia|]. split.
    - rewrite nth_error_app2, L, Nat.sub_diag by lia. reflexivity.
    - intros j Hj. rewrite nth_error_app1 by lia. now apply N.
  Qed.

  Lemma resona_lemma :
    (length i1 <= 12 -> exists rows, resona zmat f3 f4 e0 modes freq rotcon x fm1 fm2 = Some rows /\
       length rows = 7 /\ forall i row, nth_error rows i = Some row -> row_ok i row) /\
    (12 < length i1 -> resona zmat f3 f4 e0 modes freq rotcon x fm1 fm2 = None).
  Proof.
    unfold resona. split; intros Hn.
    2:{ cbv zeta. replace (12 <? length i1) with true by (symmetry; now apply Nat.ltb_lt). reflexivity. }
    cbv zeta. replace (12 <? length i1) with false by (symmetry; apply Nat.ltb_ge; lia).
    unfold resmat. rewrite range_0. change (length fixed_states) with 7.
    assert (G : forall m, m <= 7 -> exists rows, ofold (fun rows i =>
        let* row := ofold (fun row j =>
          if (j =? i) then Some (row ++ [energy (fun ii => fixed_iirst ii i)]) else
          let* v := gen i j in Some (row ++ [v])) (range 0 (i + 1)) [] in
        Some (rows ++ [row])) (seq 0 m) [] = Some rows /\ length rows = m /\
        forall i row, nth_error rows i = Some row -> row_ok i row).
    { induction m as [|m IH]; intros Hm.
      - exists []. split; [reflexivity|]. split; [reflexivity|]. intros [|i]; discriminate.
      - destruct IH as (rows & E & L & N); [lia|]. rewrite seq_S, ofold_app, E. cbn [ofold plus].
        destruct (row_lemma m Hn ltac:(lia)) as (r & Er & Hr). rewrite Er. cbn [obind].
        exists (rows ++ [r]). split; [reflexivity|]. split; [rewrite app_length; cbn; lia|].
        intros i row Hi. destruct (Nat.lt_ge_cases i m).
        + rewrite nth_error_app1 in Hi by lia. now apply N.
        + rewrite nth_error_app2 in Hi by lia. destruct (i - length rows) as [|z] eqn:Ez; cbn in Hi.
          * injection Hi as <-. replace i with m by lia. exact Hr.
          * destruct z; discriminate. }
    exact (G 7 (le_n 7)).
  Qed.
End Resona.

(** the states of a reported resonance need not be among the fixed ones *)
Lemma states_refuted_lemma :
  exists n fm1 fm2 i j, In (i, j) fm1 /\ asym_lists fm1 fm2 /\ i < n /\ j < n /\
    forall s, s < length fixed_states -> exists m, m < n /\ fixed_iirst m s <> (if m =? i then 2 else 0).
Proof.
  exists 3, [(2, 1)], [], 2, 1. split; [now left|]. split.
  { split; [intros i j [E|[]]; injection E as <- <-; discriminate|intros i j k []]. }
  split; [lia|]. split; [lia|]. intros s _. exists 2. split; [lia|]. cbn [Nat.eqb].
  unfold fixed_iirst, fixed_states. do 7 (destruct s as [|s]; [cbn; discriminate|]).
  destruct s; cbn; discriminate.
Qed.

(** ** a coupling between states that are not in resonance *)
Definition pw (i : nat) : R := nth i [140; 100; 60; 40; 30]%R 1%R.
Definition pf3 (i j k : nat) : R := if (i + j + k =? 6) then 1%R else 0%R.
Definition pfm2 : list (nat * nat * nat) := [(3, 2, 1); (3, 1, 0)].
Definition pfm1 : list (nat * nat) := [(4, 2)].
Definition pstates : list (list nat) := [[0; 1; 0; 1; 0]; [0; 0; 1; 0; 0]].

Lemma coupling_refuted_lemma :
  exists n (w : nat -> R) zmat f3 f4 B fm1 fm2 ins sa sb v i j k,
    asym_lists fm1 fm2 /\ resin_inserts n fm1 fm2 = Some ins /\ In sa ins /\ In sb ins /\
    (forall i j m, i < n -> j < n -> m < n ->
       ~ resonant fm1 fm2 i j m -> (w i + w j - w m <> 0)%R) /\
    is_state n sa (fun m => if (m =? i) || (m =? j) then 1 else 0) /\
    is_state n sb (fun m => if m =? k then 1 else 0) /\
    ~ resonant fm1 fm2 i j k /\
    genrsa w zmat f3 f4 B (seq 0 n) (init_res_denom w fm1 fm2) n
      (fun m s => nth m (nth s [sa; sb] []) 0) 0 1 = Some v /\ (v <> 0)%R.
Proof.
  exists 5, pw, (fun _ _ _ => 0%R), pf3, (fun _ _ _ _ => 0%R), (fun _ => 0%R), pfm1, pfm2.
  eexists. exists [0; 1; 0; 1; 0], [0; 0; 1; 0; 0]. eexists. exists 1, 3, 2.
  split.
  { split; [intros i j [E|[]]; injection E as <- <-; discriminate|].
    intros i j k [E|[E|[]]]; injection E as <- <- <-; lia. }
  split; [reflexivity|]. split; [cbn; auto 10|]. split; [cbn; auto 10|].
  assert (Hd : forall i j m, (i < 5) -> (j < 5) -> (m < 5) ->
       ~ resonant pfm1 pfm2 i j m -> (pw i + pw j - pw m <> 0)%R).
  { assert (R1 : resonant pfm1 pfm2 4 4 2) by (left; cbn; auto).
    assert (R2 : resonant pfm1 pfm2 3 2 1) by (right; left; cbn; auto).
    assert (R3 : resonant pfm1 pfm2 2 3 1) by (right; right; cbn; auto).
    assert (R4 : resonant pfm1 pfm2 3 1 0) by (right; left; cbn; auto).
    assert (R5 : resonant pfm1 pfm2 1 3 0) by (right; right; cbn; auto).
    intros [|[|[|[|[|i]]]]] [|[|[|[|[|j]]]]] [|[|[|[|[|m]]]]] Hi Hj Hm N; try lia;
      try (exfalso; tauto); cbn; lra. }
  split; [exact Hd|].
  split; [split; [reflexivity|]; intros [|[|[|[|[|m]]]]] Hm; cbn; reflexivity || lia|].
  split; [split; [reflexivity|]; intros [|[|[|[|[|m]]]]] Hm; cbn; reflexivity || lia|].
  split.
  { unfold resonant, pfm1, pfm2. cbn. intuition congruence. }
  split.
  { set (res := flagged (make_fermi_checks pfm1 pfm2)).
    assert (Hr : reported pfm1 pfm2 res) by (intros i j k; apply flagged_resonant).
    rewrite (type2_lemma pw _ pf3 _ _ (seq 0 5) pfm1 pfm2 res 5 _ 0 1 Hr) with (i := 1) (j := 2) (k := 3).
    - reflexivity.
    - intros i j m Hi Hj Hm E. apply Hd; auto. intros C. apply Hr in C. congruence.
    - lia.
    - lia.
    - lia.
    - unfold apart. cbn. lia.
    - unfold apart. cbn. lia.
    - unfold apart. cbn. lia.
    - intros [|[|[|[|[|m]]]]] Hm A1 A2 A3; cbn; reflexivity || lia. }
  cbn -[sqrt Rdiv Rplus IZR INR]. unfold ho1. cbn -[sqrt Rdiv Rplus IZR INR].
  assert (S : (sqrt ((INR 0 + 1) / 2) > 0)%R) by (apply sqrt_lt_R0; cbn; lra).
  assert (P : (sqrt ((INR 0 + 1) / 2) * sqrt ((INR 0 + 1) / 2) * sqrt ((INR 0 + 1) / 2) > 0)%R)
    by (repeat apply Rmult_lt_0_compat; exact S).
  lra.
Qed.

(** two sums of two modes each panic *)
Lemma panic_refuted_lemma :
  exists n fm1 fm2 ins sa sb,
    asym_lists fm1 fm2 /\ resin_inserts n fm1 fm2 = Some ins /\ In sa ins /\ In sb ins /\
    forall (F : Type) (N : Num F) (freq : nat -> F) zmat f3 f4 rotcon i1 dnm,
      genrsa freq zmat f3 f4 rotcon i1 dnm n (fun m s => nth m (nth s [sa; sb] []) 0) 0 1 = None.
Proof.
  exists 6, [], [(5, 4, 0); (3, 2, 1)]. eexists. exists [0; 0; 0; 0; 1; 1], [0; 0; 1; 1; 0; 0].
  split.
  { split; [intros i j []|]. intros i j k [E|[E|[]]]; injection E as <- <- <-; lia. }
  split; [reflexivity|]. split; [cbn; auto 10|]. split; [cbn; auto 10|].
  intros F N freq zmat f3 f4 rotcon i1 dnm. apply genrsa_none. split; [reflexivity|left; reflexivity].
Qed.

Lemma polyad_example1 :
  let q := fun m s => nth m (nth s [[2; 0; 1]; [0; 1; 1]] []) 0 in
  apart (fun i => q i 0) (fun i => q i 1) 0 2 /\ apart (fun i => q i 0) (fun i => q i 1) 1 1 /\
  (forall m, m < 3 -> m <> 0 -> m <> 1 -> q m 0 = q m 1) /\
  flagged (make_fermi_checks [(0, 1)] []) 0 0 1 = true /\
  (ho2 2 0 * ho1 0 1 = / 2)%R.
Proof.
  cbv zeta. split; [unfold apart; cbn; lia|]. split; [unfold apart; cbn; lia|].
  split; [intros [|[|[|m]]] Hm A B; cbn; reflexivity || lia|]. split; [reflexivity|].
  pose proof (ho2_apart (fun _ => 2) (fun _ => 0) 0 (or_introl eq_refl)) as E2. cbv beta in E2. rewrite E2.
  pose proof (ho1_apart (fun _ => 0) (fun _ => 1) 0 (or_intror eq_refl)) as E1. cbv beta in E1. rewrite E1.
  cbn [Nat.min INR]. rewrite <- sqrt_mult by lra.
  replace ((0 + 1) * (0 + 2) / 4 * ((0 + 1) / 2))%R with (/ 2 * / 2)%R by field. apply sqrt_square. lra.
Qed.
Lemma polyad_example2 :
  let q := fun m s => nth m (nth s [[2; 0; 1]; [0; 2; 1]] []) 0 in
  apart (fun i => q i 0) (fun i => q i 1) 0 2 /\ apart (fun i => q i 0) (fun i => q i 1) 1 2 /\
  q 0 0 + q 1 0 = q 0 1 + q 1 1 /\
  (forall m, m < 3 -> m <> 0 -> m <> 1 -> q m 0 = q m 1) /\
  (k_aabb (fun i => 10 + 7 * INR i) (fun _ _ _ => 0) (fun _ _ _ => 0) (fun _ _ _ _ => 8) (fun _ => 0) 3 0 1
   * (ho2 2 0 * ho2 0 2) = 1)%R.
Proof.
  cbv zeta. split; [unfold apart; cbn; lia|]. split; [unfold apart; cbn; lia|]. split; [reflexivity|].
  split; [intros [|[|[|m]]] Hm A B; cbn; reflexivity || lia|].
  pose proof (ho2_apart (fun _ => 2) (fun _ => 0) 0 (or_introl eq_refl)) as E2. cbv beta in E2. rewrite E2.
  pose proof (ho2_apart (fun _ => 0) (fun _ => 2) 0 (or_intror eq_refl)) as E1. cbv beta in E1. rewrite E1.
  cbn [Nat.min INR]. rewrite sqrt_sqrt by lra.
  unfold k_aabb, corio. cbn [seq Rsum fold_right INR]. unfold pairfrac, Rsqr. field.
Qed.
