(** Lemmas about energy levels, fundamentals and the treatment of Fermi resonances. *)
From Coq Require Import Reals Lra List ZArith Arith Permutation Lia Bool.
From Verif Require Import Num Loops Index Modes ListFacts ModesFacts StatesFacts ResFacts
  Anharm AnharmFacts.
Import ListNotations.
Open Scope nat_scope.

Lemma ofold_push {A B} (f : A -> option B) (g : A -> B) l acc :
  (forall a, In a l -> f a = Some (g a)) ->
  ofold (fun acc a => let* x := f a in Some (acc ++ [x])) l acc = Some (acc ++ map g l).
Proof.
  revert acc. induction l as [|a l IH]; intros acc E; cbn [ofold map]; [now rewrite app_nil_r|].
  rewrite E by (cbn; auto). cbn [obind]. rewrite IH by (intros; apply E; cbn; auto).
  now rewrite <- app_assoc.
Qed.

(** ** levels over the reals *)
Section Levels.
  Local Open Scope R_scope.
  Variables (freq : nat -> R) (modes : list mode) (x : nat -> nat -> R)
    (gc : option (nat -> nat -> R)) (e0 : R).
  Let n1 := n1dm modes.
  Let n2 := n2dm modes.
  Let a := m1 modes.
  Let e ii := fst (m2 modes ii).

  (** the vibrational term formula *)
  Definition gval : nat -> nat -> R := match gc with Some g => g | None => fun _ _ => 0 end.
  Definition spec_level (v1 : nat -> nat) (v2 : nat -> nat * nat) : R :=
    Rsum (seq 0 n1) (fun i => freq (a i) * (INR (v1 i) + / 2))
    + Rsum (seq 0 n2) (fun i => freq (e i) * (INR (fst (v2 i)) + 1))
    + Rsum (seq 0 n1) (fun i => Rsum (seq 0 (i + 1)) (fun j =>
        x (a i) (a j) * ((INR (v1 i) + / 2) * (INR (v1 j) + / 2))))
    + Rsum (seq 0 n1) (fun i => Rsum (seq 0 n2) (fun j =>
        x (a i) (e j) * ((INR (v1 i) + / 2) * (INR (fst (v2 j)) + 1))))
    + Rsum (seq 0 n2) (fun i => Rsum (seq 0 (i + 1)) (fun j =>
        x (e i) (e j) * ((INR (fst (v2 i)) + 1) * (INR (fst (v2 j)) + 1))))
    + Rsum (seq 0 n2) (fun i => Rsum (seq 0 (i + 1)) (fun j =>
        gval (e i) (e j) * (INR (snd (v2 i)) * INR (snd (v2 j)))))
    + e0.

  Lemma nnat_R n : nnat n = INR n.
  Proof. unfold nnat. cbn. rewrite <- INR_IZR_INZ. lra. Qed.
  Lemma half_R v : half v = INR v + / 2.
  Proof. unfold half. rewrite nnat_R, nlit_half. reflexivity. Qed.

  Lemma level_R v1 v2 :
    gc <> None \/ n2 = 0%nat ->
    level freq modes x gc e0 v1 v2 = Some (spec_level v1 v2).
  Proof.
    intros Hg. unfold level. fold n1 n2. unfold range. rewrite !Nat.sub_0_r.
    rewrite (acc_add_R (seq 0 n1)), (acc_add_R (seq 0 n2)).
    rewrite (fold_plus_R _ (fun i => Rsum (seq 0 (i + 1)) (fun j =>
        x (a i) (a j) * ((INR (v1 i) + / 2) * (INR (v1 j) + / 2))))).
    2:{ intros y i _. rewrite acc_add_R, Nat.sub_0_r. f_equal. apply Rsum_ext. intros j _.
        rewrite !half_R. cbn. fold a. lra. }
    rewrite (fold_plus_R _ (fun i => Rsum (seq 0 n2) (fun j =>
        x (a i) (e j) * ((INR (v1 i) + / 2) * (INR (fst (v2 j)) + 1))))).
    2:{ intros y i _. rewrite acc_add_R. f_equal. apply Rsum_ext. intros j _.
        rewrite !half_R, nnat_R, nz_R. cbn. fold a. reflexivity. }
    rewrite (fold_plus_R _ (fun i => Rsum (seq 0 (i + 1)) (fun j =>
        x (e i) (e j) * ((INR (fst (v2 i)) + 1) * (INR (fst (v2 j)) + 1))))).
    2:{ intros y i _. rewrite acc_add_R, Nat.sub_0_r. f_equal. apply Rsum_ext. intros j _.
        rewrite !nnat_R, nz_R. cbn. reflexivity. }
    assert (E : forall l y, (l = [] \/ gc <> None) ->
       ofold (fun acc ii => let* g := gc in
          Some (acc_add (seq 0 (ii + 1 - 0)) (fun jj =>
             nmul (nmul (g (fst (m2 modes ii)) (fst (m2 modes jj))) (nnat (snd (v2 ii))))
               (nnat (snd (v2 jj)))) acc)) l y
       = Some (y + Rsum l (fun i => Rsum (seq 0 (i + 1)) (fun j =>
          gval (e i) (e j) * (INR (snd (v2 i)) * INR (snd (v2 j))))))).
    { induction l as [|i l IH]; intros y Hl; [cbn; f_equal; lra|].
      cbn [ofold]. destruct Hl as [Hl|Hl]; [discriminate|]. rewrite Rsum_cons.
      unfold gval in *. destruct gc as [g|]; [|congruence]. cbn [obind].
      rewrite IH by now right. rewrite acc_add_R, Nat.sub_0_r. f_equal.
      rewrite <- Rplus_assoc. f_equal. f_equal. apply Rsum_ext. intros j _.
      rewrite !nnat_R. cbn. fold (e i) (e j). lra. }
    rewrite E; [|destruct Hg as [Hg|Hg]; [now right|left; now rewrite Hg]].
    cbn [obind]. f_equal. unfold spec_level.
    rewrite (Rsum_ext (fun ii => nmul (freq (m1 modes ii)) (half (v1 ii)))
      (fun i => freq (a i) * (INR (v1 i) + / 2))) by (intros; rewrite half_R; reflexivity).
    rewrite (Rsum_ext (fun ii => nmul (freq (fst (m2 modes ii))) (nadd (nnat (fst (v2 ii))) (nz 1)))
      (fun i => freq (e i) * (INR (fst (v2 i)) + 1))) by (intros; rewrite nnat_R, nz_R; reflexivity).
    rewrite !nz_R. cbn [nadd Rnum]. lra.
  Qed.

  Lemma spec_level_ext v1 v2 v1' v2' :
    (forall i, (i < n1)%nat -> v1 i = v1' i) -> (forall i, (i < n2)%nat -> v2 i = v2' i) ->
    spec_level v1 v2 = spec_level v1' v2'.
  Proof.
    intros E1 E2. unfold spec_level.
    repeat match goal with |- Rplus _ _ = Rplus _ _ => apply f_equal2 end; try reflexivity;
      apply Rsum_ext; intros i Hi;
      apply in_seq in Hi; rewrite ?E1, ?E2 by lia; try reflexivity;
      apply Rsum_ext; intros j Hj; apply in_seq in Hj; rewrite ?E1, ?E2 by lia; reflexivity.
  Qed.
End Levels.

(** ** the triangular double sum *)
Section Tri.
  Local Open Scope R_scope.
  Definition delta (p i : nat) : nat := if (i =? p)%nat then 1%nat else 0%nat.

  Lemma Rsum_one {A} (f : A -> R) b : Rsum [b] f = f b.
  Proof. unfold Rsum. cbn. lra. Qed.

  Lemma tri_diff (X : nat -> nat -> R) c p n :
    (p < n)%nat ->
    (forall i j, (i < n)%nat -> (j < n)%nat -> X i j = X j i) ->
    Rsum (seq 0 n) (fun i => Rsum (seq 0 (i + 1)) (fun j =>
       X i j * ((INR (delta p i) + c) * (INR (delta p j) + c)))) -
    Rsum (seq 0 n) (fun i => Rsum (seq 0 (i + 1)) (fun j => X i j * ((INR 0 + c) * (INR 0 + c)))) =
    (2 * c + 1) * X p p + c * Rsum (seq 0 n) (fun j => if (j =? p)%nat then 0 else X p j).
  Proof.
    intros Hp Hs. rewrite <- Rsum_minus.
    rewrite (Rsum_ext _ (fun i => Rsum (seq 0 (i + 1)) (fun j =>
       X i j * ((INR (delta p i) + c) * (INR (delta p j) + c) - c * c)))).
    2:{ intros i _. rewrite <- Rsum_minus. apply Rsum_ext. intros. cbn. lra. }
    assert (Z : forall n, (n <= p)%nat ->
        Rsum (seq 0 n) (fun j => X p j * ((INR 1 + c) * (INR (delta p j) + c) - c * c))
        = c * Rsum (seq 0 n) (fun j => if (j =? p)%nat then 0 else X p j)).
    { intros m Hm. rewrite <- Rsum_scal. apply Rsum_ext. intros j Hj. apply in_seq in Hj.
      unfold delta. destruct (Nat.eqb_spec j p); [lia|]. cbn. lra. }
    induction n as [|n IH]; [lia|].
    rewrite seq_S, !Rsum_app. cbn [plus].
    destruct (Nat.eq_dec p n) as [->|Hn].
    - rewrite (Rsum_0 _ (seq 0 n)).
      2:{ intros i Hi. apply in_seq in Hi. apply Rsum_0. intros j Hj. apply in_seq in Hj.
          unfold delta. destruct (Nat.eqb_spec i n), (Nat.eqb_spec j n); try lia. cbn. lra. }
      rewrite !Rsum_one.
      replace (n + 1)%nat with (S n) by lia. rewrite seq_S, Rsum_app, Rsum_one. cbn [plus].
      replace (delta n n) with 1%nat by (unfold delta; now rewrite Nat.eqb_refl).
      rewrite Z by lia. rewrite Nat.eqb_refl. cbn [INR]. lra.
    - rewrite IH; [|lia|intros; apply Hs; lia]. rewrite !Rsum_one.
      destruct (Nat.eqb_spec n p); [lia|].
      rewrite (Rsum_ext (fun j => X n j * ((INR (delta p n) + c) * (INR (delta p j) + c) - c * c))
                (fun j => if (j =? p)%nat then c * X n j else 0)).
      2:{ intros j Hj. unfold delta. destruct (Nat.eqb_spec n p); [lia|].
          destruct (j =? p)%nat; cbn; lra. }
      rewrite (Rsum_single (fun j => c * X n j)); [|apply seq_NoDup|apply in_seq; lia].
      rewrite (Hs n p) by lia. lra.
  Qed.
  Lemma Rsum_delta (f : nat -> R) c p n :
    (p < n)%nat ->
    Rsum (seq 0 n) (fun i => f i * (INR (delta p i) + c)) -
    Rsum (seq 0 n) (fun i => f i * (INR 0 + c)) = f p.
  Proof.
    intros Hp. rewrite <- Rsum_minus.
    rewrite (Rsum_ext _ (fun i => if (i =? p)%nat then f i else 0)).
    - apply (Rsum_single f); [apply seq_NoDup|apply in_seq; lia].
    - intros i _. unfold delta. destruct (i =? p)%nat; cbn; lra.
  Qed.
End Tri.

(** ** one-quantum levels *)
Section OneQuantum.
  Local Open Scope R_scope.
  Variables (freq : nat -> R) (modes : list mode) (x : nat -> nat -> R)
    (gc : option (nat -> nat -> R)) (e0 : R).
  Let n1 := n1dm modes.
  Let n2 := n2dm modes.
  Let a := m1 modes.
  Let e ii := fst (m2 modes ii).
  Hypothesis Sym : forall i j, x i j = x j i.

  Let SL := spec_level freq modes x gc e0.
  Let z1 : nat -> nat := fun _ => 0%nat.
  Let z2 : nat -> nat * nat := fun _ => (0%nat, 0%nat).

  Lemma one_nondeg p :
    (p < n1)%nat ->
    SL (delta p) z2 - SL z1 z2 =
    freq (a p) + 2 * x (a p) (a p)
    + / 2 * Rsum (seq 0 n1) (fun j => if (j =? p)%nat then 0 else x (a p) (a j))
    + Rsum (seq 0 n2) (fun j => x (a p) (e j)).
  Proof.
    intros Hp. unfold SL, spec_level. fold n1 n2 a e.
    pose proof (Rsum_delta (fun i => freq (a i)) (/ 2) p n1 Hp) as Q1.
    pose proof (tri_diff (fun i j => x (a i) (a j)) (/ 2) p n1 Hp ltac:(intros; apply Sym)) as Q2.
    pose proof (Rsum_delta (fun i => Rsum (seq 0 n2) (fun j => x (a i) (e j))) (/ 2) p n1 Hp) as Q3.
    unfold z1, z2. cbn [fst snd]. cbv beta in Q1, Q2, Q3.
    rewrite (Rsum_ext (fun i => Rsum (seq 0 n2) (fun j =>
         x (a i) (e j) * ((INR (delta p i) + / 2) * (INR 0 + 1))))
      (fun i => Rsum (seq 0 n2) (fun j => x (a i) (e j)) * (INR (delta p i) + / 2))).
    2:{ intros i _. rewrite <- Rsum_scal_r. apply Rsum_ext. intros. cbn [INR]. lra. }
    rewrite (Rsum_ext (fun i => Rsum (seq 0 n2) (fun j =>
         x (a i) (e j) * ((INR 0 + / 2) * (INR 0 + 1))))
      (fun i => Rsum (seq 0 n2) (fun j => x (a i) (e j)) * (INR 0 + / 2))).
    2:{ intros i _. rewrite <- Rsum_scal_r. apply Rsum_ext. intros. cbn [INR]. lra. }
    lra.
  Qed.

  Definition pdelta (p i : nat) : nat * nat := (delta p i, delta p i).

  Lemma one_deg p :
    (p < n2)%nat ->
    SL z1 (pdelta p) - SL z1 z2 =
    freq (e p) + 3 * x (e p) (e p) + gval gc (e p) (e p)
    + / 2 * Rsum (seq 0 n1) (fun j => x (e p) (a j))
    + Rsum (seq 0 n2) (fun j => if (j =? p)%nat then 0 else x (e p) (e j)).
  Proof.
    intros Hp. unfold SL, spec_level. fold n1 n2 a e.
    pose proof (Rsum_delta (fun i => freq (e i)) 1 p n2 Hp) as Q1.
    pose proof (tri_diff (fun i j => x (e i) (e j)) 1 p n2 Hp ltac:(intros; apply Sym)) as Q2.
    unfold z1, z2, pdelta. cbn [fst snd]. cbv beta in Q1, Q2.
    rewrite (Rsum_swap (fun i j => x (a i) (e j) * ((INR 0 + / 2) * (INR (delta p j) + 1)))).
    rewrite (Rsum_swap (fun i j => x (a i) (e j) * ((INR 0 + / 2) * (INR 0 + 1)))).
    pose proof (Rsum_delta (fun j => Rsum (seq 0 n1) (fun i => / 2 * x (e j) (a i))) 1 p n2 Hp) as Q3.
    cbv beta in Q3. rewrite Rsum_scal in Q3.
    rewrite (Rsum_ext (fun b => Rsum (seq 0 n1) (fun i =>
         x (a i) (e b) * ((INR 0 + / 2) * (INR (delta p b) + 1))))
      (fun j => Rsum (seq 0 n1) (fun i => / 2 * x (e j) (a i)) * (INR (delta p j) + 1))).
    2:{ intros i _. rewrite <- Rsum_scal_r. apply Rsum_ext. intros. rewrite (Sym (e i)). cbn [INR]. lra. }
    rewrite (Rsum_ext (fun b => Rsum (seq 0 n1) (fun i =>
         x (a i) (e b) * ((INR 0 + / 2) * (INR 0 + 1))))
      (fun j => Rsum (seq 0 n1) (fun i => / 2 * x (e j) (a i)) * (INR 0 + 1))).
    2:{ intros i _. rewrite <- Rsum_scal_r. apply Rsum_ext. intros. rewrite (Sym (e i)). cbn [INR]. lra. }
    assert (Q4 : Rsum (seq 0 n2) (fun i => Rsum (seq 0 (i + 1)) (fun j =>
        gval gc (e i) (e j) * (INR (delta p i) * INR (delta p j)))) = gval gc (e p) (e p)).
    { rewrite (Rsum_ext _ (fun i => if (i =? p)%nat then gval gc (e i) (e i) else 0)).
      - apply (Rsum_single (fun i => gval gc (e i) (e i))); [apply seq_NoDup|apply in_seq; lia].
      - intros i Hi. apply in_seq in Hi. unfold delta. destruct (Nat.eqb_spec i p) as [->|Hn].
        + rewrite (Rsum_ext _ (fun j => if (j =? p)%nat then gval gc (e p) (e j) else 0)).
          * apply (Rsum_single (fun j => gval gc (e p) (e j))); [apply seq_NoDup|apply in_seq; lia].
          * intros j _. destruct (j =? p)%nat; cbn; lra.
        + apply Rsum_0. intros. cbn. lra. }
    assert (Q5 : Rsum (seq 0 n2) (fun i => Rsum (seq 0 (i + 1)) (fun j =>
        gval gc (e i) (e j) * (INR 0 * INR 0))) = 0).
    { apply Rsum_0. intros i _. apply Rsum_0. intros. cbn. lra. }
    unfold e in *. lra.
  Qed.
End OneQuantum.

(** ** fundamentals are level differences *)

Lemma nth_map_seq {A} (f : nat -> A) d n i : i < n -> nth i (map f (seq 0 n)) d = f i.
Proof.
  intros Hi. rewrite (nth_indep _ d (f 0)) by now rewrite map_length, seq_length.
  rewrite map_nth, seq_nth by exact Hi. reflexivity.
Qed.

Section Fundamentals.
  Variables (nvib : nat) (modes : list mode).
  Hypothesis Hpart : Permutation (flat_map members modes) (seq 0 nvib).
  Variables (freq : nat -> R) (x : nat -> nat -> R) (gc : option (nat -> nat -> R)) (e0 : R).
  Hypothesis Hg : gc <> None \/ n2dm modes = 0.

  (** the energy the model assigns to one state *)
  Definition state_energy (s : state) : R :=
    spec_level freq modes x gc e0 (fun ii => nth ii (state_i1 s) 0)
      (fun ii => nth ii (state_i2 s) (0, 0)).

  Lemma part1_R states :
    part1 freq modes x gc e0 states = Some (map state_energy states).
  Proof.
    unfold part1.
    rewrite (ofold_push (fun s => level freq modes x gc e0 (fun ii => nth ii (state_i1 s) 0)
      (fun ii => nth ii (state_i2 s) (0, 0))) state_energy) by (intros; now apply level_R).
    reflexivity.
  Qed.

  Lemma nth_repeat_0 {A} (d : A) k n : nth k (repeat d n) d = d.
  Proof.
    revert k. induction n as [|n IH]; destruct k; cbn; auto.
  Qed.

  Lemma energy_ground :
    state_energy (I1st (repeat 0 nvib)) = spec_level freq modes x gc e0 (fun _ => 0) (fun _ => (0, 0)).
  Proof.
    unfold state_energy. apply spec_level_ext; intros; cbn [state_i1 state_i2]; apply nth_repeat_0.
  Qed.
  Lemma energy_unit1 p :
    state_energy (I1st (unit1 nvib p 1)) = spec_level freq modes x gc e0 (delta p) (fun _ => (0, 0)).
  Proof.
    pose proof (part_counts nvib modes Hpart) as Hc.
    unfold state_energy. apply spec_level_ext; intros i Hi; cbn [state_i1 state_i2].
    - unfold unit1. rewrite nth_map_seq by lia. reflexivity.
    - apply nth_repeat_0.
  Qed.
  Lemma energy_punit1 p :
    state_energy (I2st (punit1 nvib p (1, 1)))
    = spec_level freq modes x gc e0 (fun _ => 0) (pdelta p).
  Proof.
    pose proof (part_counts nvib modes Hpart) as Hc.
    unfold state_energy. apply spec_level_ext; intros i Hi; cbn [state_i1 state_i2].
    - apply nth_repeat_0.
    - unfold punit1. rewrite nth_map_seq by lia. unfold pdelta, delta. now destruct (i =? p).
  Qed.
End Fundamentals.

Lemma funds_asym_lemma n (freq : nat -> R) x gc e0 :
  (forall i j, x i j = x j i) ->
  exists t eng,
    restst_tables n (ioff (n + 1)) (singles n) = Some t /\
    part1 freq (singles n) x gc e0 (t_states t) = Some eng /\
    length (make_funds n freq x) = n /\
    forall i, i < n -> exists p Ei E0,
      nth_error (t_funda t) i = Some p /\
      nth_error (t_states t) p = Some (I1st (unit1 n i 1)) /\
      nth_error eng p = Some Ei /\ nth_error eng 0 = Some E0 /\
      nth_error (make_funds n freq x) i = Some (Ei - E0)%R.
Proof.
  intros Sym.
  assert (Hg : gc <> None \/ n2dm (singles n) = 0) by (right; apply n2dm_singles).
  destruct (tables_lemma n (singles n) (singles_part n)) as (t & E & _ & _ & _ & _ & Ha & _).
  destruct (tables_main n (singles n) (singles_part n)) as (t' & E' & S & _).
  assert (t' = t) as -> by congruence.
  exists t, (map (state_energy (singles n) freq x gc e0) (t_states t)).
  split; [exact E|]. split; [now apply part1_R|].
  split; [unfold make_funds; rewrite map_length; unfold range; rewrite seq_length; lia|].
  intros i Hi.
  destruct (Ha i i) as [(p & P1 & P2) _].
  { rewrite <- i1mode_eq, i1mode_singles. now apply nth_error_seq. }
  exists p. do 2 eexists. split; [exact P1|]. split; [exact P2|].
  split; [apply map_nth_error, P2|]. split; [rewrite S; reflexivity|].
  rewrite energy_ground, energy_unit1 by (try assumption; apply singles_part).
  rewrite (one_nondeg freq (singles n) x gc e0 Sym) by now rewrite n1dm_singles.
  unfold make_funds. rewrite range_0, nth_error_map_seq by exact Hi. f_equal.
  rewrite (fold_plus_R _ (fun j => / 2 * (if j =? i then 0 else x i j))%R).
  2:{ intros y j _. rewrite nlit_half. destruct (j =? i); cbn; lra. }
  rewrite Rsum_scal, n1dm_singles, n2dm_singles, m1_singles by exact Hi.
  rewrite (Rsum_ext (fun j => if j =? i then 0 else x i (m1 (singles n) j))%R
    (fun j => if j =? i then 0 else x i j)%R).
  - rewrite nz_R. cbn. lra.
  - intros j Hj. apply in_seq in Hj. now rewrite m1_singles by lia.
Qed.

Lemma funds_sym_lemma nvib modes (freq : nat -> R) x gc e0 :
  Permutation (flat_map members modes) (seq 0 nvib) ->
  (forall i j, x i j = x j i) ->
  gc <> None \/ flat_map get2 modes = [] ->
  exists t eng harms funds,
    restst_tables nvib (ioff (nvib + 1)) modes = Some t /\
    part1 freq modes x gc e0 (t_states t) = Some eng /\
    make_sym_funds freq modes x gc = Some (harms, funds) /\
    length harms = length (flat_map get1 modes) + length (flat_map get2 modes) /\
    length funds = length harms /\
    (forall p i, nth_error (flat_map get1 modes) p = Some i ->
       exists st Ei E0, nth_error (t_funda t) i = Some st /\
         nth_error (t_states t) st = Some (I1st (unit1 nvib p 1)) /\
         nth_error eng st = Some Ei /\ nth_error eng 0 = Some E0 /\
         nth_error harms p = Some (freq i) /\ nth_error funds p = Some (Ei - E0)%R) /\
    (forall p i i', nth_error (flat_map get2 modes) p = Some (i, i') ->
       exists st Ei E0, nth_error (t_funda t) i = Some st /\ nth_error (t_funda t) i' = Some st /\
         nth_error (t_states t) st = Some (I2st (punit1 nvib p (1, 1))) /\
         nth_error eng st = Some Ei /\ nth_error eng 0 = Some E0 /\
         nth_error harms (length (flat_map get1 modes) + p) = Some (freq i) /\
         nth_error funds (length (flat_map get1 modes) + p) = Some (Ei - E0)%R).
Proof.
  intros Hpart Sym Hg'.
  assert (Hg : gc <> None \/ n2dm modes = 0).
  { destruct Hg' as [|Q]; [now left|right]. now rewrite n2dm_eq, i2mode_eq, Q. }
  destruct (tables_lemma nvib modes Hpart) as (t & E & ND & _ & _ & _ & Ha & He & _).
  destruct (tables_main nvib modes Hpart) as (t' & E' & S & _).
  assert (t' = t) as -> by congruence.
  set (n1 := n1dm modes). set (n2 := n2dm modes).
  assert (L1 : length (flat_map get1 modes) = n1) by (unfold n1; now rewrite n1dm_eq, i1mode_eq).
  assert (L2 : length (flat_map get2 modes) = n2) by (unfold n2; now rewrite n2dm_eq, i2mode_eq).
  rewrite L1, L2.
  (* injectivity of the mode numbers *)
  pose proof (part_nodup nvib modes Hpart) as Nd. apply NoDup_app_inv in Nd as (Nd1 & Nd2 & _).
  apply NoDup_app_inv in Nd2 as (Nd2 & _ & _).
  assert (I1 : forall p q, p < n1 -> q < n1 -> m1 modes p = m1 modes q -> p = q).
  { intros p q Hp Hq Q. apply (NoDup_nth_eq (i1mode modes) p q (m1 modes p) Nd1);
      [|rewrite Q]; apply (m1_nth modes); fold n1; assumption. }
  assert (I2 : forall p q, p < n2 -> q < n2 -> fst (m2 modes p) = fst (m2 modes q) -> p = q).
  { intros p q Hp Hq Q.
    eapply (NoDup_flat_map_nth (fun '(a, b) => [a; b]) (i2mode modes) p q
       (m2 modes p) (m2 modes q) (fst (m2 modes p)) Nd2).
    - now apply (m2_nth modes).
    - now apply (m2_nth modes).
    - destruct (m2 modes p). cbn. auto.
    - rewrite Q. destruct (m2 modes q). cbn. auto. }
  set (f1 := fun ii => let i := m1 modes ii in
     (freq i + 2 * x i i + / 2 * Rsum (seq 0 n1) (fun j => if (j =? ii)%nat then 0 else x i (m1 modes j))
      + Rsum (seq 0 n2) (fun j => x i (fst (m2 modes j))))%R).
  set (f2 := fun ii => let i := fst (m2 modes ii) in
     (freq i + 3 * x i i + gval gc i i + / 2 * Rsum (seq 0 n1) (fun j => x i (m1 modes j))
      + Rsum (seq 0 n2) (fun j => if (j =? ii)%nat then 0 else x i (fst (m2 modes j))))%R).
  exists t, (map (state_energy modes freq x gc e0) (t_states t)),
    (map (fun ii => freq (m1 modes ii)) (seq 0 n1) ++ map (fun ii => freq (fst (m2 modes ii))) (seq 0 n2)),
    (map f1 (seq 0 n1) ++ map f2 (seq 0 n2)).
  split; [exact E|]. split; [now apply part1_R|].
  split; [|split; [|split; [|split]]].
  - unfold make_sym_funds. fold n1 n2. rewrite !range_0.
    assert (Q : forall l acc, (forall ii, In ii l -> ii < n2) ->
      ofold (fun funds ii =>
        let* g := gc in
        Some (funds ++ [fold_left (fun val jj =>
            if fst (m2 modes jj) =? fst (m2 modes ii) then val
            else nadd val (x (fst (m2 modes ii)) (fst (m2 modes jj)))) (seq 0 n2)
          (acc_add (seq 0 n1) (fun jj => nmul (nlit 1 2) (x (fst (m2 modes ii)) (m1 modes jj)))
             (nadd (nadd (freq (fst (m2 modes ii))) (nmul (nz 3) (x (fst (m2 modes ii)) (fst (m2 modes ii)))))
                (g (fst (m2 modes ii)) (fst (m2 modes ii)))))])) l acc = Some (acc ++ map f2 l)).
    { induction l as [|ii l IH]; intros acc Hl; cbn [ofold map]; [now rewrite app_nil_r|].
      destruct gc as [g|] eqn:Eg.
      2:{ destruct Hg as [|Hg]; [congruence|]. specialize (Hl ii (or_introl eq_refl)). fold n2 in Hg. lia. }
      cbn [obind]. rewrite IH by (intros; apply Hl; cbn; auto). rewrite <- app_assoc. cbn [app].
      do 2 f_equal. f_equal.
      assert (ii < n2) as Hii by (apply Hl; cbn; auto).
      rewrite (fold_plus_R _ (fun j => if j =? ii then 0 else x (fst (m2 modes ii)) (fst (m2 modes j)))%R).
      2:{ intros y j Hj. apply in_seq in Hj.
          destruct (Nat.eqb_spec j ii), (Nat.eqb_spec (fst (m2 modes j)) (fst (m2 modes ii))); subst;
            try congruence; try (cbn; lra).
          apply I2 in e; [congruence|lia|lia]. }
      rewrite acc_add_R, nlit_half. cbn [nmul nadd Rnum].
      rewrite Rsum_scal, nz_R. unfold f2, gval. lra. }
    rewrite Q by (intros ii Hii; apply in_seq in Hii; lia). cbn [obind app].
    match goal with |- Some (_, ?u ++ _) = Some (_, ?v ++ _) => cut (u = v); [intros ->; reflexivity|] end.
    apply map_ext_in.
    intros ii Hii. apply in_seq in Hii. rewrite acc_add_R.
    rewrite (fold_plus_R _ (fun j => / 2 * (if j =? ii then 0 else x (m1 modes ii) (m1 modes j)))%R).
        2:{ intros y j Hj. apply in_seq in Hj. rewrite nlit_half.
            destruct (Nat.eqb_spec j ii), (Nat.eqb_spec (m1 modes j) (m1 modes ii)); subst;
              try congruence; try (cbn; lra).
            apply I1 in e; [congruence|lia|lia]. }
        rewrite Rsum_scal, nz_R. unfold f1. cbn. lra.
  - rewrite app_length, !map_length, !seq_length. lia.
  - rewrite !app_length, !map_length. reflexivity.
  - intros p i Hp.
    assert (Hpn : p < n1) by (rewrite <- L1; apply nth_error_Some; congruence).
    assert (Em : m1 modes p = i) by (unfold m1; rewrite i1mode_eq; now apply nth_error_nth).
    destruct (Ha p i Hp) as [(st & P1 & P2) _].
    exists st. do 2 eexists. split; [exact P1|]. split; [exact P2|].
    split; [apply map_nth_error, P2|]. split; [rewrite S; reflexivity|].
    split; rewrite nth_error_app1 by now rewrite map_length, seq_length.
    + rewrite nth_error_map_seq by exact Hpn. now rewrite Em.
    + rewrite nth_error_map_seq by exact Hpn. f_equal.
      rewrite energy_ground, energy_unit1 by assumption.
      rewrite (one_nondeg freq modes x gc e0 Sym) by exact Hpn. reflexivity.
  - intros p i i' Hp.
    assert (Hpn : p < n2) by (rewrite <- L2; apply nth_error_Some; congruence).
    assert (Em : m2 modes p = (i, i')) by (unfold m2; rewrite i2mode_eq; now apply nth_error_nth).
    destruct (He p i i' i Hp (or_introl eq_refl)) as [(st & P1 & P2) _].
    destruct (He p i i' i' Hp (or_intror eq_refl)) as [(st' & P1' & P2') _].
    assert (st' = st) as -> by exact (NoDup_nth_eq _ _ _ _ ND P2' P2).
    exists st. do 2 eexists. split; [exact P1|]. split; [exact P1'|]. split; [exact P2|].
    split; [apply map_nth_error, P2|]. split; [rewrite S; reflexivity|].
    split; rewrite nth_error_app2 by (rewrite map_length, seq_length; lia);
      rewrite map_length, seq_length, Nat.add_comm, Nat.add_sub.
    + rewrite nth_error_map_seq by exact Hpn. now rewrite Em.
    + rewrite nth_error_map_seq by exact Hpn. f_equal.
      rewrite energy_ground, energy_punit1 by assumption.
      rewrite (one_deg freq modes x gc e0 Sym) by exact Hpn. reflexivity.
Qed.
