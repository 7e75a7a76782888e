(** Molecules with a threefold axis and a mirror plane: the normal modes the program uses. *)
From Coq Require Import Reals Lra List ZArith Arith Lia Bool Permutation Sorted.
From Verif Require Import Num Loops ListFacts AnharmFacts Transform TransformFacts RotFacts HarmFacts ModeFacts DistortFacts GeomFacts ZeroFacts
  Modes ModesFacts ResFacts VibRot VibRotFacts SymFacts SymE0 SymPerturb Geom AlignFacts AlignExact AlignSign Threefold ThreeForm.
Import ListNotations.
Open Scope nat_scope.
Local Open Scope R_scope.

(** ** specification *)

(** The modes [V] with the frequencies [w] the eigenvalue solver has found; [c] is the atom the
    program aligns pairs of modes with.  The vibrations are either of the same frequency or well
    apart, at most two have the same one, single ones are even under the mirror, and the two modes
    of a pair are not both left alone by the turn.  The last two conditions say that atom [c] and
    the one it is carried to show how the two modes lie. *)
Record threefold_modes (N n c : nat) (s : R) (sg mu : nat -> nat) (w : nat -> R) (V : nat -> nat -> R) : Prop := {
  tm_w : forall i, (i < n)%nat -> 1 / 10 < w i;
  tm_apart : forall i j, (i < j)%nat -> (j < n)%nat -> w i = w j \/ 1 / 10 <= Rabs (w i - w j);
  tm_two : forall i j k, (i < j)%nat -> (j < k)%nat -> (k < n)%nat -> w i = w j -> w j = w k -> False;
  tm_rest : forall i k, (i < n)%nat -> (n <= k)%nat -> (k < 3 * N)%nat -> w k <> w i;
  tm_single : forall i, (i < n)%nat -> (forall j, (j < n)%nat -> j <> i -> w j <> w i) ->
    forall b, (b < 3 * N)%nat -> act (3 * N) (op mu flip) (fun a => V a i) b = V b i;
  tm_turn : forall i j, (i < j)%nat -> (j < n)%nat -> w i = w j ->
    exists b, (b < 3 * N)%nat /\ act (3 * N) (op sg (third s)) (fun a => V a i) b <> V b i;
  tm_big : forall i j, (i < j)%nat -> (j < n)%nat -> w i = w j -> big (V (3 * c)%nat i);
  tm_seen : forall i j, (i < j)%nat -> (j < n)%nat -> w i = w j ->
    V (3 * c)%nat i * V (3 * sg c)%nat j <> V (3 * c)%nat j * V (3 * sg c)%nat i
}.

(** ** the list of modes *)
Lemma collect_sorted a b (f : nat -> list nat) : (forall i, f i = [] \/ f i = [i]) -> StronglySorted lt (collect (range a b) f).
Proof.
  intros H. unfold collect, range. generalize (b - a)%nat. intros k. clear b. revert a.
  induction k as [|k IH]; intros a; cbn [seq flat_map]; [constructor|].
  destruct (H a) as [-> | ->]; cbn [app]; [apply IH|]. constructor; [apply IH|]. apply Forall_forall.
  intros x (i & Hi%in_seq & Hx)%in_flat_map. destruct (H i) as [E|E]; rewrite E in Hx; [destruct Hx|]. destruct Hx as [<-|[]]. lia.
Qed.
Lemma collect_none {A} l (f : nat -> list A) : (forall i, In i l -> f i = []) -> collect l f = [].
Proof.
  intros H. unfold collect. induction l as [|i l IH]; [reflexivity|]. cbn [flat_map].
  rewrite (H i) by now left. apply IH. intros j Hj. apply H. now right.
Qed.
Lemma collect_one {A} l (f : nat -> list A) i x : NoDup l -> In i l -> f i = [x] -> (forall j, In j l -> j <> i -> f j = []) -> collect l f = [x].
Proof.
  intros HN Hi E H. unfold collect. induction l as [|j l IH]; [destruct Hi|]. cbn [flat_map]. inversion HN; subst.
  destruct (Nat.eq_dec j i) as [->|Ne].
  - rewrite E. fold (collect l f). rewrite collect_none; [reflexivity|]. intros j Hj. apply H; [now right|]. intros ->. contradiction.
  - rewrite H by (try (now left); exact Ne). cbn [app]. apply IH; [assumption| |].
    + destruct Hi; [congruence|assumption].
    + intros. apply H; [now right|assumption].
Qed.

Section List.
  Variables (n : nat) (w : nat -> R).
  Hypothesis Pw : forall i, (i < n)%nat -> 1 / 10 < w i.
  Hypothesis Ap : forall i j, (i < j)%nat -> (j < n)%nat -> w i = w j \/ 1 / 10 <= Rabs (w i - w j).
  Hypothesis Tw : forall i j k, (i < j)%nat -> (j < k)%nat -> (k < n)%nat -> w i = w j -> w j = w k -> False.

  Lemma level_eq i j : (i < j)%nat -> (j < n)%nat -> same_level w i j <-> w i = w j.
  Proof.
    intros Hi Hj. unfold same_level. cbn [nltb nabs nsub nlit Rnum]. rewrite !Rltb_true.
    pose proof (Pw i ltac:(lia)). pose proof (Pw j Hj). split.
    - intros (H1 & _). destruct (Ap i j Hi Hj); [assumption|]. lra.
    - intros E. rewrite E, Rminus_diag_eq, Rabs_R0 by reflexivity. rewrite Rabs_pos_eq by lra. lra.
  Qed.

  Lemma three_modes r : is_sym_top r = Some true ->
    exists modes, deg_modes r n w = Some modes /\ Permutation (flat_map members modes) (seq 0 n) /\
      (forall i j k, ~ In (I3 i j k) modes) /\ StronglySorted lt (firsts modes) /\
      (forall i j, In (i, j) (degs modes) <-> (i < j < n)%nat /\ w i = w j) /\
      (forall i, In i (nondeg modes) <-> (i < n)%nat /\ forall j, (j < n)%nat -> j <> i -> w j <> w i).
  Proof.
    intros Hr.
    destruct (deg_modes_partition_lemma' r n w Hr) as (modes & Ed & Hp).
    { intros i j k Hi Hj Hk. assert (L1 := level_eq i j ltac:(lia) ltac:(lia)). assert (L2 := level_eq i k ltac:(lia) ltac:(lia)).
      assert (L3 := level_eq j k ltac:(lia) ltac:(lia)). rewrite L1, L2, L3. repeat split; congruence. }
    { intros i j k l Hi Hj Hk Hl. rewrite !level_eq by lia. intros E1 E2 _. apply (Tw i j k); congruence || lia. }
    exists modes. split; [exact Ed|]. split; [exact Hp|].
    destruct (deg_modes_content_lemma r n w Hr) as (modes' & Ed' & C3 & C2 & C1).
    rewrite Ed in Ed'. injection Ed' as <-.
    assert (N3 : forall i j k, ~ In (I3 i j k) modes).
    { intros i j k H. apply C3 in H as (H1 & H2 & H3 & H4 & H5). rewrite level_eq in H4, H5 by lia.
      apply (Tw i j k); congruence || lia. }
    assert (D : forall i j, In (i, j) (degs modes) <-> (i < j < n)%nat /\ w i = w j).
    { intros i j. unfold degs. rewrite in_flat_map. split.
      - intros (m & Hm & Hin). destruct m as [a|a b|a b c]; cbn in Hin; try contradiction.
        destruct Hin as [[= -> ->]|[]]. apply C2 in Hm as (H1 & H2 & H3 & _). rewrite level_eq in H3 by lia. auto.
      - intros [[H1 H2] H3]. exists (I2 i j). split; [|now left]. apply C2. rewrite level_eq by lia.
        repeat (split; [assumption|]). intros x y z Hx. elim (N3 _ _ _ Hx). }
    split; [exact N3|]. split; [|split; [exact D|]].
    - destruct (deg_modes_sym_eq r n w Hr) as (T & P & S & E & HT & (ts & HP & Hts) & HS).
      rewrite Ed in E. apply (f_equal (fun o => match o with Some l => l | None => [] end)) in E. subst modes.
      assert (T0 : T = []).
      { destruct T as [|m T]; [reflexivity|]. assert (Hm : In m (triples_of n w)) by (rewrite <- HT; now left).
        apply in_triples_of in Hm as (i & j & k & -> & _). elim (N3 i j k). now left. }
      subst T. rewrite T0 in *. cbn [app flat_map] in *.
      unfold firsts, degs. rewrite flat_map_app, map_app.
      assert (S0 : forall k, flat_map get2 (map I1 k) = []) by (clear; induction k as [|a k IH]; [reflexivity|exact IH]).
      rewrite HS at 1. rewrite S0. cbn [map]. rewrite app_nil_r.
      set (G := fun i => collect (range (i + 1) n) (fun j =>
          if pair_test w i j && negb (contains ts i) && negb (contains ts j) then [I2 i j] else [])).
      change P with P in HP. assert (EP : map fst (flat_map get2 P) = collect (range 0 n) (fun i => map fst (flat_map get2 (G i)))).
      { rewrite HP. unfold pairs_of. fold G. unfold collect. generalize (range 0 n). intros l. induction l as [|i l IH]; [reflexivity|].
        cbn [flat_map]. now rewrite flat_map_app, map_app, IH. }
      rewrite EP. apply collect_sorted. intros i.
      destruct (flat_map get2 (G i)) as [|p l] eqn:EG; [now left|]. right.
      assert (Hin : In p (flat_map get2 (G i))) by (rewrite EG; now left).
      assert (GG : forall a b, In (a, b) (flat_map get2 (G i)) -> a = i /\ (i < b < n)%nat /\ w i = w b /\ pair_test w i b && negb (contains ts i) && negb (contains ts b) = true).
      { intros a b (m & Hm & Hb)%in_flat_map. unfold G, collect in Hm. apply in_flat_map in Hm as (j & Hj%in_range & Hm).
        destruct (_ && _ && _) eqn:Et; [|destruct Hm]. destruct Hm as [<-|[]]. destruct Hb as [[= <- <-]|[]].
        pose proof Et as Et0. apply andb_prop in Et as [Et _]. apply andb_prop in Et as [Et _]. apply same_level_test in Et. rewrite level_eq in Et by lia.
        repeat split; try assumption; lia. }
      destruct p as [a b]. destruct (GG a b Hin) as (-> & Hb & Ew & Et).
      assert (E1 : G i = [I2 i b]).
      { unfold G. apply (collect_one _ _ b); [apply seq_NoDup|apply in_range; lia|now rewrite Et|].
        intros j Hj%in_range Ne. cbv beta. match goal with |- (if ?t then _ else _) = _ => destruct t eqn:Et' end; [|reflexivity]. exfalso.
        apply andb_prop in Et' as [Et' _]. apply andb_prop in Et' as [Et' _]. apply same_level_test in Et'. rewrite level_eq in Et' by lia.
        destruct (Nat.lt_total j b) as [Hl|[He|Hl]]; [apply (Tw i j b)| |apply (Tw i b j)]; congruence || lia. }
      rewrite E1 in EG. cbn in EG. injection EG as <-. reflexivity.
    - intros i. unfold nondeg. rewrite in_flat_map.
      assert (Q : forall x y, In (I2 x y) modes <-> (x < y < n)%nat /\ w x = w y).
      { intros x y. rewrite <- D. unfold degs. rewrite in_flat_map. split.
        - intros Hx. exists (I2 x y). split; [exact Hx|now left].
        - intros (m & Hm & Hin). destruct m as [a|a b|a b c]; cbn in Hin; try contradiction. destruct Hin as [[= -> ->]|[]]. exact Hm. }
      split.
      + intros (m & Hm & Hin). destruct m as [a|a b|a b c]; cbn in Hin; try contradiction.
        destruct Hin as [->|[]]. apply C1 in Hm as (H1 & _ & H2). split; [exact H1|].
        intros j Hj Ne E. destruct (Nat.lt_total i j) as [Hl|[He|Hl]]; [|congruence|].
        * apply (H2 i j); [apply Q; split; [lia|congruence]|now left].
        * apply (H2 j i); [apply Q; split; [lia|congruence]|right; now left].
      + intros [H1 H2]. exists (I1 i). split; [|now left]. apply C1. split; [exact H1|]. split.
        * intros x y z Hx. elim (N3 _ _ _ Hx).
        * intros x y ([Hx Hy] & E)%Q [->|[->|[]]]; [apply (H2 y)|apply (H2 x)]; congruence || lia.
  Qed.
End List.

(** ** the second derivatives in mass weighted coordinates *)
Lemma weighted_same N (m : nat -> R) sg Q f : (forall i, (i < N)%nat -> m (sg i) = m i) ->
  same2 (3 * N) (op sg Q) f -> same2 (3 * N) (op sg Q) (weighted m f).
Proof.
  intros Hm S a b Ha Hb. unfold weighted at 2. rewrite <- (S a b) by assumption.
  assert (X : forall r a, (a < 3 * N)%nat -> op sg Q r a * / sqrt (m (r / 3)%nat) = op sg Q r a * / sqrt (m (a / 3)%nat)).
  { intros r a' Ha'. unfold op. destruct (Nat.eqb_spec (r / 3) (sg (a' / 3)%nat)) as [E|_]; [|ring].
    rewrite E, Hm; [reflexivity|]. apply Nat.div_lt_upper_bound; lia. }
  unfold con2, con1. unfold Rdiv. rewrite Rinv_mult. rewrite (Rmult_comm FACT2), (Rmult_assoc _ FACT2), Rmult_comm.
  rewrite <- Rsum_scal. apply sum_g. intros r Hr.
  transitivity (op sg Q r a * / sqrt (m (a / 3)%nat) * (FACT2 * / sqrt (m (b / 3)%nat) * Sum (3 * N) (fun s => op sg Q s b * f r s))); [|ring].
  rewrite <- X by assumption. rewrite Rmult_assoc. f_equal. rewrite <- !Rsum_scal. apply sum_g. intros t Ht. unfold weighted, Rdiv.
  rewrite Rinv_mult.
  transitivity (FACT2 * f r t * / sqrt (m (r / 3)%nat) * (op sg Q t b * / sqrt (m (t / 3)%nat))); [ring|]. rewrite X by assumption. ring.
Qed.

(** ** the alignment *)
Lemma partners_eq n w i j : (forall i j, (i < j)%nat -> (j < n)%nat -> w i = w j \/ 1 / 10 <= Rabs (w i - w j)) ->
  (i < n)%nat -> (j < n)%nat -> i <> j -> partners false w i j <-> w i = w j.
Proof.
  intros Ap Hi Hj Ne. unfold partners, align_tol. cbn [nltb nabs nsub nlit Rnum]. rewrite Rltb_true.
  destruct (Nat.lt_total i j) as [L|[E|L]]; [|congruence|].
  - rewrite Nat.min_l, Nat.max_r by lia. split.
    + intros H. destruct (Ap i j L Hj); [assumption|lra].
    + intros ->. rewrite Rminus_diag_eq, Rabs_R0 by reflexivity. lra.
  - rewrite Nat.min_r, Nat.max_l by lia. split.
    + intros H. destruct (Ap j i L Hi); [congruence|lra].
    + intros ->. rewrite Rminus_diag_eq, Rabs_R0 by reflexivity. lra.
Qed.

Lemma ofold_total {S X} (P : S -> Prop) (step : S -> X -> option S) l : forall s,
  (forall s x, In x l -> P s -> exists s', step s x = Some s' /\ P s') -> P s -> exists s', ofold step l s = Some s' /\ P s'.
Proof.
  induction l as [|x l IH]; intros s H Hs; cbn [ofold]; [eauto|].
  destruct (H s x) as (s1 & E1 & P1); [now left|exact Hs|]. rewrite E1. apply IH; [|exact P1]. intros. apply H; [now right|assumption].
Qed.

Lemma align_total natom nvib c c2 (w : nat -> R) mw (lxm lx : nat -> nat -> R) : (0 < nvib)%nat -> (c < natom)%nat ->
  (forall i j, (i < j)%nat -> (j < nvib)%nat -> w i = w j \/ 1 / 10 <= Rabs (w i - w j)) ->
  (forall i j k, (i < j)%nat -> (j < k)%nat -> (k < nvib)%nat -> w i = w j -> w j = w k -> False) ->
  (forall i j, (i < j)%nat -> (j < nvib)%nat -> w i = w j -> big (lxm (3 * c)%nat i)) ->
  exists lxm' lx', bdegnl false natom nvib c 3 (Some c2) w mw lxm lx = Some (lxm', lx').
Proof.
  intros Hn Hc Ap Tw Hb. unfold bdegnl. destruct (Nat.eqb_spec nvib 0) as [|_]; [lia|].
  assert (Q : exists st, ofold (fun st ii => ofold (fun st jj =>
        if nltb (nabs (nsub (w ii) (w jj))) (align_tol false) then align_pair false natom c 3 (Some c2) mw ii jj st else Some st)
      (range (ii + 1) nvib) st) (range 0 (nvib - 1)) (lxm, lx) = Some st /\
      forall i j, (i < j)%nat -> (j < nvib)%nat -> w i = w j -> big (fst st (3 * c)%nat i)).
  { apply (ofold_total (fun st => forall i j, (i < j)%nat -> (j < nvib)%nat -> w i = w j -> big (fst st (3 * c)%nat i))); [|exact Hb].
    intros st a Ha%in_range Hst. apply (ofold_total (fun st => forall i j, (i < j)%nat -> (j < nvib)%nat -> w i = w j -> big (fst st (3 * c)%nat i))); [|exact Hst].
    clear st Hst. intros [l k] b Hb'%in_range Hst. cbn [fst] in Hst.
    destruct (nltb _ _) eqn:Et; [|eexists; split; [reflexivity|exact Hst]].
    assert (Pab : partners false w a b).
    { unfold partners. rewrite Nat.min_l, Nat.max_r by lia. exact Et. }
    apply (partners_eq nvib) in Pab; [|exact Ap|lia|lia|lia].
    assert (Ba := Hst a b ltac:(lia) ltac:(lia) Pab).
    destruct (align_pair false natom c 3 (Some c2) mw a b (l, k)) as [[l' k']|] eqn:Ep.
    2:{ apply pair_panics in Ep as [(H1 & _)|(_ & H2)]; [contradiction|discriminate]. }
    exists (l', k'). split; [reflexivity|]. cbn [fst]. intros i j Hi Hj Ew.
    assert (Nab : a <> b) by lia.
    destruct (Nat.eq_dec i a) as [->|Na].
    - destruct (pair_R _ _ _ _ _ _ _ _ _ _ _ _ Nab Ep) as (th & g & Ea & (H1 & Hg & HT)).
      destruct (HT (3 * c)%nat ltac:(lia)) as [EA _]. unfold big in *. rewrite EA. set (x3 := (3 * c)%nat) in *.
      unfold align_angle, izero4 in Ea. cbn [natan npi Rtrig ndiv nmul nz nlit Rnum nabs] in Ea. cbv zeta in Ea. fold x3 in Ea.
      rewrite (proj2 (small_R _) Ba) in Ea. cbn [andb negb] in Ea. injection Ea as <-. unR.
      destruct (atan_cos_sin (l x3 b / l x3 a)) as (r & Hr & Hrr & Ec & Es). rewrite Ec, Es.
      assert (A0 : l x3 a <> 0).
      { intros E0. rewrite E0, Rabs_R0 in Ba. unfold toler in Ba. lra. }
      replace (1 / r * l x3 a + l x3 b / l x3 a / r * l x3 b) with (l x3 a * r).
      2:{ assert (l x3 a * (r * r) = l x3 a + l x3 b * (l x3 b / l x3 a)) by (rewrite Hrr; field; exact A0).
          apply Rmult_eq_reg_r with r; [|lra]. rewrite Rmult_assoc, H. field. lra. }
      rewrite Rabs_mult, (Rabs_pos_eq r) by lra.
      assert (1 <= r). { assert (0 <= (l x3 b / l x3 a) * (l x3 b / l x3 a)) by apply Rle_0_sqr. nra. }
      assert (0 <= Rabs (l x3 a)) by apply Rabs_pos. nra.
    - assert (Nb : i <> b). { intros ->. apply (Tw a b j); congruence || lia. }
      destruct (pair_other _ _ _ _ _ _ _ _ _ _ _ _ Nab Ep (3 * c)%nat i Na Nb) as [-> _]. now apply (Hst i j). }
  destruct Q as ([l k] & E & _). exists l, k. exact E.
Qed.

(** ** the modes after the alignment *)
Section After.
  Variables (N n c : nat) (m : nat -> R) (s : R) (sg mu : nat -> nat) (w : nat -> R) (h : list R) (A V lx V' lx' : nat -> nat -> R)
    (ns : list nat) (ts : list (nat * nat)).
  Hypothesis C : c3v N m s sg mu.
  Hypothesis Hn : (n <= 3 * N)%nat.
  Hypothesis Hc : (c < N)%nat.
  Hypothesis Mc : mu c = c.
  Hypothesis SA : sym2 (3 * N) A.
  Hypothesis PA : same2 (3 * N) (op sg (third s)) A.
  Hypothesis MA : same2 (3 * N) (op mu flip) A.
  Hypothesis ES : eigen_system (3 * N) A h V.
  Hypothesis Wh : forall i j, (i < 3 * N)%nat -> (j < 3 * N)%nat -> w i = w j <-> nth i h 0 = nth j h 0.
  Hypothesis TM : threefold_modes N n c s sg mu w V.
  Hypothesis E : bdegnl false N n c 3 (Some (sg c)) w m V lx = Some (V', lx').
  Hypothesis Hns : forall i, In i ns <-> (i < n)%nat /\ forall j, (j < n)%nat -> j <> i -> w j <> w i.
  Hypothesis Hts : forall i j, In (i, j) ts <-> (i < j < n)%nat /\ w i = w j.

  Lemma other_val i j : (i < n)%nat -> (j < 3 * N)%nat -> (forall k, (k < n)%nat -> k <> i -> k = j -> w k <> w i) -> j <> i -> nth j h 0 <> nth i h 0.
  Proof.
    intros Hi Hj H Ne E0. apply Wh in E0; [|assumption|lia].
    destruct (le_lt_dec n j) as [L|L]; [now apply (tm_rest _ _ _ _ _ _ _ _ TM i j)|now apply (H j)].
  Qed.

  Lemma after_eigen : eigen_system (3 * N) A h V'.
  Proof.
    refine (normal_kept _ _ _ _ _ _ _ _ _ _ _ _ A h Hn _ ES E).
    intros a b Ha Hb Hp. destruct (Nat.eq_dec a b) as [->|Ne]; [reflexivity|].
    apply (partners_eq n) in Hp; [|apply (tm_apart _ _ _ _ _ _ _ _ TM)|assumption|assumption|assumption].
    assert (L : length h = (3 * N)%nat) by apply ES.
    rewrite !(nth_error_nth' h 0) by lia. f_equal. apply Wh; lia || assumption.
  Qed.

  Lemma after_behaves : behaves (3 * N) (op sg (third s)) (op mu flip) (sqrt 3 / 2) ns ts V'.
  Proof.
    pose proof after_eigen as ES'.
    assert (Pe : forall i j, (i < n)%nat -> (j < n)%nat -> i <> j -> partners false w i j <-> w i = w j).
    { intros i j Hi Hj Ne. apply (partners_eq n); try assumption. apply (tm_apart _ _ _ _ _ _ _ _ TM). }
    constructor.
    - intros k (Hk & Hs)%Hns b Hb.
      assert (U : forall i, V' i k = V i k).
      { intros i. apply (untouched_lemma _ _ _ _ _ _ _ _ _ _ _ _ k E). right. intros m' Hm' Ne Hp. apply Pe in Hp; [|assumption|assumption|congruence].
        now apply (Hs m'). }
      split.
      + apply (single_turn N m s sg mu C A h V' SA PA ES' k); [lia| |exact Hb].
        intros j Hj Ne. apply (other_val k j); try assumption. intros q Hq Nq _. now apply Hs.
      + rewrite U. rewrite <- (tm_single _ _ _ _ _ _ _ _ TM k Hk Hs b Hb). apply act_ext. intros a _. apply U.
    - intros i j ((Hi & Hj) & Ew)%Hts b Hb.
      assert (Vij : nth i h 0 = nth j h 0) by (apply Wh; lia || assumption).
      assert (Iso : forall m', (m' < n)%nat -> m' <> i -> m' <> j -> w m' <> w i /\ w m' <> w j).
      { intros k Hk Ni Nj. rewrite Ew.
        assert (X : w k <> w j); [|now split]. intros E0.
        destruct (Nat.lt_total k i) as [L|[L|L]]; [|congruence|].
        - apply (tm_two _ _ _ _ _ _ _ _ TM k i j); congruence || lia.
        - destruct (Nat.lt_total k j) as [L2|[L2|L2]]; [|congruence|].
          + apply (tm_two _ _ _ _ _ _ _ _ TM i k j); congruence || lia.
          + apply (tm_two _ _ _ _ _ _ _ _ TM i j k); congruence || lia. }
      assert (Oth : forall k, (k < 3 * N)%nat -> k <> i -> k <> j -> nth k h 0 <> nth i h 0).
      { intros k Hk Ni Nj. apply other_val; [lia|exact Hk| |exact Ni]. intros q Hq Nq ->. now apply Iso. }
      (* the old pair under the turn *)
      destruct (pair_turn N m s sg mu C A h V SA PA ES i j ltac:(lia) ltac:(lia) ltac:(lia) Vij Oth) as (q & Hq & HT).
      { intros HV. destruct (tm_turn _ _ _ _ _ _ _ _ TM i j ltac:(lia) ltac:(lia) Ew) as (b' & Hb' & Ne). apply Ne. now apply HV. }
      destruct (pair_3_all N n c (sg c) w m V lx V' lx' i j Hc (c3_sg _ _ _ _ _ C c Hc) ltac:(lia) ltac:(lia)) as (cs & sn & g & HU & Xj & Xi & Sg).
      { apply Pe; lia || assumption. }
      { intros k Hk Ni Nj. rewrite !Pe by (lia || congruence). destruct (Iso k Hk Ni Nj). split; congruence. }
      { exact E. }
      { now apply (tm_big _ _ _ _ _ _ _ _ TM i j). }
      destruct HU as (Hcs & Hg & HU). cbv beta in HU.
      assert (gg : g * g = 1) by (destruct Hg as [-> | ->]; lra).
      assert (HT' : turned3 N s sg V' (g * q) i j).
      { intros b' Hb'. destruct (HT b' Hb') as [T1 T2]. destruct (HU b' Hb') as [U1 U2]. split.
        - rewrite (act_ext _ _ (fun a => V' a i) (fun a => cs * V a i + sn * V a j)) by (intros a Ha; apply (HU a Ha)).
          rewrite act_lin, T1, T2, U1, U2.
          transitivity (- (1 / 2) * (cs * V b' i + sn * V b' j) + g * g * q * (cs * V b' j - sn * V b' i)); [rewrite gg; ring|ring].
        - rewrite (act_ext _ _ (fun a => V' a j) (fun a => g * cs * V a j + - g * sn * V a i)).
          2:{ intros a Ha. destruct (HU a Ha) as [_ ->]. ring. }
          rewrite act_lin, T1, T2, U1, U2. ring. }
      assert (Hq' : (g * q) * (g * q) = 3 / 4) by (replace (g * q * (g * q)) with (g * g * (q * q)) by ring; rewrite gg; lra).
      assert (X2 : V' (3 * sg c)%nat j <> 0).
      { pose proof (c3_sg _ _ _ _ _ C c Hc) as Hsc.
        pose proof (tm_seen _ _ _ _ _ _ _ _ TM i j ltac:(lia) ltac:(lia) Ew) as D0. intros E0. apply D0.
        destruct (HU (3 * c)%nat ltac:(lia)) as [A1 A2]. destruct (HU (3 * sg c)%nat ltac:(lia)) as [A3 A4].
        rewrite Xj in A2. rewrite E0 in A4.
        assert (B2 : cs * V (3 * c)%nat j - sn * V (3 * c)%nat i = 0) by (destruct Hg as [-> | ->]; lra).
        assert (B4 : cs * V (3 * sg c)%nat j - sn * V (3 * sg c)%nat i = 0) by (destruct Hg as [-> | ->]; lra).
        set (x := V (3 * c)%nat i) in *. set (y := V (3 * c)%nat j) in *. set (z := V (3 * sg c)%nat i) in *. set (t := V (3 * sg c)%nat j) in *.
        assert (G1 : cs * (x * t - y * z) = 0).
        { replace (cs * (x * t - y * z)) with (x * (cs * t - sn * z) - z * (cs * y - sn * x)) by ring. rewrite B2, B4. ring. }
        assert (G2 : sn * (x * t - y * z) = 0).
        { replace (sn * (x * t - y * z)) with (y * (cs * t - sn * z) - t * (cs * y - sn * x)) by ring. rewrite B2, B4. ring. }
        assert (G3 : (cs * cs + sn * sn) * (x * t - y * z) = 0).
        { replace ((cs * cs + sn * sn) * (x * t - y * z)) with (cs * (cs * (x * t - y * z)) + sn * (sn * (x * t - y * z))) by ring. rewrite G1, G2. ring. }
        rewrite Hcs in G3. lra. }
      assert (HM := pair_mirror N m s sg mu C A h V' SA MA ES' (g * q) i j c ltac:(lia) ltac:(lia) ltac:(lia) Vij Oth Hq' HT' Hc Mc Xi Xj).
      assert (Sn := sense N m s sg mu C h V' (g * q) i j c ltac:(lia) ltac:(lia) HT' (fun b Hb => proj1 (HM b Hb)) Hc Mc).
      cbv zeta in Sg. rewrite <- Sn in Sg.
      assert (S3 : sqrt 3 / 2 * (sqrt 3 / 2) = 3 / 4) by (pose proof (sqrt_sqrt 3 ltac:(lra)); lra).
      assert (S0 : 0 < sqrt 3 / 2) by (pose proof (sqrt_lt_R0 3 ltac:(lra)); lra).
      set (h3 := sqrt 3 / 2) in *. set (p := g * q) in *. set (X := V' (3 * sg c)%nat j) in *.
      assert (Ab : Rabs p = h3).
      { apply Rsqr_inj; [apply Rabs_pos|lra|]. rewrite <- Rsqr_abs. unfold Rsqr. lra. }
      assert (P0 : 0 <= p * X * (h3 * X)).
      { apply Sg. rewrite !Rabs_mult, Ab, (Rabs_pos_eq h3) by lra. rewrite Rminus_diag_eq by reflexivity.
        unfold Rdiv. rewrite Rmult_0_l, Rabs_R0. lra. }
      assert (P1 : p = h3).
      { assert (0 < X * X) by (destruct (Rtotal_order X 0) as [?|[?|?]]; [nra|contradiction|nra]).
        assert (0 <= p). { destruct (Rle_or_lt 0 p); [assumption|]. exfalso.
          assert (p * h3 < 0) by nra. assert (p * h3 * (X * X) < 0) by nra. lra. }
        rewrite <- Ab. symmetry. now apply Rabs_pos_eq. }
      rewrite <- P1. destruct (HT' b Hb) as [T1 T2]. destruct (HM b Hb) as [M1 M2].
      repeat split; assumption.
  Qed.
End After.
