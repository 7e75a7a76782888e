(** Lemmas about the change to normal coordinates. *)
From Coq Require Import Reals Lra List ZArith Arith Lia Bool Permutation.
From Verif Require Import Num Loops Index ListFacts IndexFacts LoadFacts ResFacts Anharm AnharmFacts
  Transform TransformFacts RotFacts.
Import ListNotations.
Open Scope nat_scope.
Local Open Scope R_scope.

(** ** totally symmetric functions *)
Lemma sym3_perm {A} (V : nat -> nat -> nat -> A) a b c i j k :
  (forall a b c, V a b c = V b a c) -> (forall a b c, V a b c = V a c b) ->
  Permutation [a; b; c] [i; j; k] -> V a b c = V i j k.
Proof.
  intros S12 S23 Hp. apply perm3_inv in Hp.
  assert (S3 : forall a b c, V a b c = V c a b) by (intros; now rewrite S23, S12).
  repeat (destruct Hp as [E|Hp]; [injection E as <- <- <-|]); [..|destruct Hp].
  all: first [reflexivity | now rewrite S23 | now rewrite S12 | now rewrite S3 | now rewrite S3, S23
             | now rewrite S12, S23 | now rewrite S23, S12].
Qed.
Lemma sym4_perm {A} (V : nat -> nat -> nat -> nat -> A) a b c d i j k l :
  (forall a b c d, V a b c d = V b a c d) -> (forall a b c d, V a b c d = V a c b d) ->
  (forall a b c d, V a b c d = V a b d c) ->
  Permutation [a; b; c; d] [i; j; k; l] -> V a b c d = V i j k l.
Proof.
  intros S12 S23 S34 Hp. apply perm4_inv in Hp. unfold perms4 in Hp. cbn [map app] in Hp.
  assert (F3 : forall a b c d, V a b c d = V c a b d) by (intros; now rewrite S23, S12).
  assert (F4 : forall a b c d, V a b c d = V d a b c) by (intros; now rewrite S34, F3).
  assert (G3 : forall a b c d, V a b c d = V a d b c) by (intros; now rewrite S34, S23).
  symmetry.
  repeat (destruct Hp as [E|Hp]; [injection E as <- <- <- <-|]); [..|destruct Hp].
  all: first [reflexivity | now rewrite S34 | now rewrite S23 | now rewrite S23, S34 | now rewrite G3
    | now rewrite G3, S34
    | now rewrite S12 | now rewrite S12, S34 | now rewrite S12, S23 | now rewrite S12, S23, S34
    | now rewrite S12, G3 | now rewrite S12, G3, S34
    | now rewrite F3 | now rewrite F3, S34 | now rewrite F3, S23 | now rewrite F3, S23, S34
    | now rewrite F3, G3 | now rewrite F3, G3, S34
    | now rewrite F4 | now rewrite F4, S34 | now rewrite F4, S23 | now rewrite F4, S23, S34
    | now rewrite F4, G3 | now rewrite F4, G3, S34].
Qed.

(** ** cubic force constants *)
Lemma slab3_R n lx f i j :
  slab3 n lx f i j = FUNIT3 * con2 n lx (fun a b => f b a) i j.
Proof.
  unfold slab3. rewrite mm_R.
  transitivity (Sum n (fun k => Sum n (fun a => lx a i * (f k a * FUNIT3) * lx k j))).
  { apply Rsum_ext. intros k _. rewrite mm_R. rewrite <- Rsum_scal_r. reflexivity. }
  rewrite Rsum_swap. unfold con2, con1. rewrite <- Rsum_scal. apply Rsum_ext. intros a _.
  rewrite <- Rsum_scal, <- Rsum_scal. apply Rsum_ext. intros k _. ring.
Qed.

Lemma slabs3_R n lx f i j c : (c < n)%nat ->
  fold_left (fun f kabc =>
     let ee := slab3 n lx (fun a b => f a b kabc) in
     fun a b c => if Nat.eqb c kabc then ee a b else f a b c) (range 0 n) f i j c
  = FUNIT3 * con2 n lx (fun a b => f b a c) i j.
Proof.
  intros Hc.
  set (P := fun s : nat -> nat -> nat -> R => forall a b, s a b c = f a b c).
  set (Q := fun s : nat -> nat -> nat -> R => s i j c = FUNIT3 * con2 n lx (fun a b => f b a c) i j).
  match goal with |- ?l i j c = _ => change (Q l) end.
  apply (fold_once P Q _ _ c).
  - apply range_nodup.
  - apply in_range. lia.
  - intros s Hs. unfold Q. cbv beta zeta. rewrite Nat.eqb_refl, slab3_R. f_equal.
    apply con2_g. intros. apply Hs.
  - intros s x _ Nx Hs a b. cbv beta zeta. destruct (Nat.eqb_spec c x); [congruence|]. apply Hs.
  - intros s x _ Nx Hs. unfold Q. cbv beta zeta. destruct (Nat.eqb_spec c x); [congruence|]. exact Hs.
  - intros a b. reflexivity.
Qed.

Definition cubic_spec (n : nat) (f : nat -> nat -> nat -> R) (lx : nat -> nat -> R) (w : nat -> R)
  (i j k : nat) : R :=
  FACT3 * FUNIT3 / sqrt (w i * w j * w k) * con3 n lx f i j k.

Lemma cubic_spec_sym n f lx w : tsym3 n f ->
  (forall a b c, cubic_spec n f lx w a b c = cubic_spec n f lx w b a c) /\
  (forall a b c, cubic_spec n f lx w a b c = cubic_spec n f lx w a c b).
Proof.
  intros E. split; intros a b c; unfold cubic_spec.
  - rewrite (con3_12 n lx f a b c) by (intros; now apply E). f_equal. f_equal. f_equal. ring.
  - rewrite (con3_23 n lx f a b c) by (intros; now apply E). f_equal. f_equal. f_equal. ring.
Qed.

Lemma force3_lemma n f lx nvib w : (0 < nvib)%nat -> tsym3 n f ->
  exists v, force3 n f lx nvib w = Some v /\
    length v = (nvib * (nvib + 1) * (nvib + 2) / 6)%nat /\
    forall i j k, (i < nvib)%nat -> (j < nvib)%nat -> (k < nvib)%nat ->
      f3qcm_get v i j k = Some (cubic_spec n f lx w i j k).
Proof.
  intros Hn E. unfold force3.
  destruct (Nat.eqb_spec nvib 0) as [|_]; [lia|].
  set (f' := fold_left _ (range 0 n) f).
  set (val := fun i j k => nsum (range 0 n) (fun l => f' i j l * lx l k)%num * (FACT3 / nsqrt (w i * w j * w k))%num).
  assert (L : collect (range 0 nvib) (fun i => collect (range 0 (i + 1)) (fun j =>
      collect (range 0 (j + 1)) (fun k => [val i j k])))
     = map (fun '(i, j, k) => val i j k) (tri_indices nvib)).
  { unfold collect, tri_indices. rewrite !range_0.
    assert (G : forall l (g : nat -> list R) (h : nat -> list (nat * nat * nat)) q,
       (forall x, In x l -> g x = map q (h x)) -> flat_map g l = map q (flat_map h l)).
    { induction l as [|x l IH]; intros g h q Hg; [reflexivity|]. cbn. rewrite map_app, Hg by (now left).
      f_equal. apply IH. intros; apply Hg. now right. }
    apply G. intros i _. rewrite !range_0. apply G. intros j _.
    rewrite !range_0, map_map. induction (seq 0 (j + 1)) as [|x l IH]; [reflexivity|]. cbn.
    now rewrite IH. }
  exists (map (fun '(i, j, k) => val i j k) (tri_indices nvib)).
  split; [f_equal; exact L|]. split; [rewrite map_length, tri_indices_length, t3_div; reflexivity|].
  intros i j k Hi Hj Hk.
  destruct (cubic_spec_sym n f lx w E) as [S12 S23].
  destruct (sorted_of3 i j k) as (a & b & c & Hp & Hab & Hbc).
  rewrite (sym3_perm (cubic_spec n f lx w) i j k c b a S12 S23).
  2:{ rewrite Hp. change [a; b; c] with (rev [c; b; a]). symmetry. apply Permutation_rev. }
  assert (Hc : (c < nvib)%nat).
  { apply (perm_forall_lt nvib _ _ Hp); [|cbn; auto]. intros x [<-|[<-|[<-|[]]]]; assumption. }
  unfold f3qcm_get. rewrite (find3_perm _ _ _ _ _ _ Hp).
  rewrite (map_nth_error _ _ _ (tri_indices_nth nvib c b a Hab Hbc Hc)). f_equal.
  unfold val, cubic_spec. rewrite nsum_R, range_0. cbn [nmul ndiv nsqrt Rnum].
  assert (X : Sum n (fun l => f' c b l * lx l a) = FUNIT3 * con3 n lx f c b a).
  { transitivity (Sum n (fun l => FUNIT3 * (lx l a * con2 n lx (fun p q => f p q l) c b))).
    - apply Rsum_ext. intros l Hl. apply in_seq in Hl. unfold f'. rewrite slabs3_R by lia.
      rewrite (con2_g n lx (fun p q => f q p l) (fun p q => f p q l)); [ring|].
      intros r s Hr Hs. symmetry. apply E; lia.
    - rewrite Rsum_scal. f_equal. unfold con3. symmetry. apply con12_swap_r. }
  rewrite X. unfold Rdiv. ring.
Qed.

Lemma force3_none n f lx w : @force3 R Rnum n f lx 0 w = None.
Proof. reflexivity. Qed.

(** ** quartic force constants *)
Lemma mm3_R n (lx d : nat -> nat -> R) i j :
  mm n (mm n (tr lx) d) lx i j = con2 n lx d i j.
Proof.
  rewrite mm_R.
  transitivity (Sum n (fun k => Sum n (fun a => lx a i * d a k * lx k j))).
  { apply Rsum_ext. intros k _. rewrite mm_R. rewrite <- Rsum_scal_r. reflexivity. }
  rewrite Rsum_swap. unfold con2, con1. apply Rsum_ext. intros a _.
  rewrite <- Rsum_scal. apply Rsum_ext. intros k _. ring.
Qed.
Lemma f4q_R n f lx i j c d : (c < n)%nat -> (d < n)%nat ->
  f4q_of n f lx i j c d = FUNIT4 * con2 n lx (fun a b => f b a c d) i j.
Proof.
  intros Hc Hd. set (v := FUNIT4 * con2 n lx (fun a b => f b a c d) i j).
  set (Q := fun s : nat -> nat -> nat -> nat -> R => s i j c d = v).
  change (Q (f4q_of n f lx)). unfold f4q_of.
  apply (fold_once (fun _ => True) Q _ _ c); auto; try apply range_nodup.
  - apply in_range. lia.
  - intros s _. apply (fold_once (fun _ => True) Q _ _ d); auto; try apply range_nodup.
    + apply in_range. lia.
    + intros s1 _. unfold Q. cbv beta zeta. rewrite !Nat.eqb_refl. cbn [andb]. unfold slab4.
      rewrite mm3_R. unfold v. unfold con2. rewrite <- con1_scal. apply con1_g. intros r _.
      rewrite <- con1_scal. apply con1_g. intros q _. cbn [nmul Rnum]. ring.
    + intros s1 x _ Nx H1. unfold Q. cbv beta zeta. destruct (Nat.eqb_spec d x); [congruence|].
      rewrite andb_false_r. exact H1.
  - intros s x _ Nx Hs. apply (fold_inv Q); [|exact Hs]. intros s1 y _ H1. unfold Q. cbv beta zeta.
    destruct (Nat.eqb_spec c x); [congruence|]. exact H1.
Qed.

Definition quartic_spec (n : nat) (f : nat -> nat -> nat -> nat -> R) (lx : nat -> nat -> R) (w : nat -> R)
  (i j k l : nat) : R :=
  FACT4 * FUNIT4 / sqrt (w i * w j * w k * w l) * con4 n lx f i j k l.

Lemma quartic_spec_sym n f lx w : tsym4 n f ->
  (forall a b c d, quartic_spec n f lx w a b c d = quartic_spec n f lx w b a c d) /\
  (forall a b c d, quartic_spec n f lx w a b c d = quartic_spec n f lx w a c b d) /\
  (forall a b c d, quartic_spec n f lx w a b c d = quartic_spec n f lx w a b d c).
Proof.
  intros E. split; [|split]; intros a b c d; unfold quartic_spec.
  - rewrite (con4_12 n lx f a b c d) by (intros; now apply E). f_equal. f_equal. f_equal. ring.
  - rewrite (con4_23 n lx f a b c d) by (intros; now apply E). f_equal. f_equal. f_equal. ring.
  - rewrite (con4_34 n lx f a b c d) by (intros; now apply E). f_equal. f_equal. f_equal. ring.
Qed.

(** loops of writes that may panic *)
Lemma ofold_keep {S X} (P Q : S -> Prop) (step : S -> X -> option S) l : forall s,
  (forall s x, In x l -> P s -> exists s', step s x = Some s' /\ P s' /\ (Q s -> Q s')) -> P s ->
  exists s', ofold step l s = Some s' /\ P s' /\ (Q s -> Q s').
Proof.
  induction l as [|x l IH]; intros s H Hs; [exists s; auto|].
  destruct (H s x) as (s1 & E1 & P1 & Q1); [now left|exact Hs|]. cbn. rewrite E1.
  destruct (IH s1) as (s2 & E2 & P2 & Q2); [|exact P1|].
  - intros. apply H; [now right|assumption].
  - exists s2. auto.
Qed.
Lemma ofold_hit {S X} (P Q : S -> Prop) (step : S -> X -> option S) l x0 : forall s,
  In x0 l ->
  (forall s x, In x l -> P s -> exists s', step s x = Some s' /\ P s' /\ (Q s -> Q s')) ->
  (forall s, P s -> exists s', step s x0 = Some s' /\ P s' /\ Q s') -> P s ->
  exists s', ofold step l s = Some s' /\ P s' /\ Q s'.
Proof.
  induction l as [|x l IH]; intros s Hin H H0 Hs; [destruct Hin|]. destruct Hin as [->|Hin].
  - destruct (H0 s Hs) as (s1 & E1 & P1 & Q1). cbn. rewrite E1.
    destruct (ofold_keep P Q step l s1) as (s2 & E2 & P2 & Q2); [|exact P1|].
    + intros. apply H; [now right|assumption].
    + exists s2. auto.
  - destruct (H s x) as (s1 & E1 & P1 & _); [now left|exact Hs|]. cbn. rewrite E1.
    apply IH; auto. intros. apply H; [now right|assumption].
Qed.

Lemma force4_lemma n f lx nvib w : (0 < nvib)%nat -> tsym4 n f ->
  exists v, force4 n f lx nvib w = Some v /\
    length v = (nvib * (nvib + 1) * (nvib + 2) * (nvib + 3) / 24)%nat /\
    forall i j k l, (i < nvib)%nat -> (j < nvib)%nat -> (k < nvib)%nat -> (l < nvib)%nat ->
      f4qcm_get v i j k l = Some (quartic_spec n f lx w i j k l).
Proof.
  intros Hn E. rewrite t4_div.
  destruct (quartic_spec_sym n f lx w E) as (S12 & S23 & S34).
  set (V := quartic_spec n f lx w) in *.
  set (P := fun v : list R => length v = t4 nvib).
  assert (Val : forall i j k l,
     (mm n (mm n (tr lx) (f4q_of n f lx i j)) lx k l * (FACT4 / nsqrt (w i * w j * w k * w l)))%num = V i j k l).
  { intros i j k l. cbn [nmul ndiv nsqrt Rnum]. rewrite mm3_R.
    transitivity (FUNIT4 * con4 n lx f k l i j * (FACT4 / sqrt (w i * w j * w k * w l))).
    - f_equal.
      change (con1 n lx (fun c => con1 n lx (fun d => f4q_of n f lx i j c d) l) k
        = FUNIT4 * con1 n lx (fun c => con1 n lx (fun d => con2 n lx (f c d) i j) l) k).
      rewrite <- con1_scal. apply con1_g. intros c Hc. rewrite <- con1_scal. apply con1_g. intros d Hd.
      rewrite f4q_R by assumption. f_equal. apply con2_g. intros a b Ha Hb.
      assert (T12 : forall r s t u, (r < n)%nat -> (s < n)%nat -> (t < n)%nat -> (u < n)%nat -> f r s t u = f s r t u)
        by (intros; now apply E).
      assert (T23 : forall r s t u, (r < n)%nat -> (s < n)%nat -> (t < n)%nat -> (u < n)%nat -> f r s t u = f r t s u)
        by (intros; now apply E).
      assert (T34 : forall r s t u, (r < n)%nat -> (s < n)%nat -> (t < n)%nat -> (u < n)%nat -> f r s t u = f r s u t)
        by (intros; now apply E).
      rewrite (T12 b a), (T23 a b), (T12 a c), (T34 c a b d), (T23 c a d b), (T34 c d a b) by assumption.
      rewrite (T34 c d b a) by assumption. reflexivity.
    - rewrite (sym4_perm (con4 n lx f) k l i j i j k l).
      + unfold V, quartic_spec, Rdiv. ring.
      + intros. apply con4_12. intros; now apply E.
      + intros. apply con4_23. intros; now apply E.
      + intros. apply con4_34. intros; now apply E.
      + change [k; l; i; j] with ([k; l] ++ [i; j]). change [i; j; k; l] with ([i; j] ++ [k; l]).
        apply Permutation_app_comm. }
  assert (Step : forall v i j k l p q r s, P v ->
     (i < nvib)%nat -> (j < nvib)%nat -> (k < nvib)%nat -> (l < nvib)%nat ->
     exists v', f4qcm_set v k l i j (V i j k l) = Some v' /\ P v' /\
       (f4qcm_get v p q r s = Some (V p q r s) -> f4qcm_get v' p q r s = Some (V p q r s)) /\
       (Permutation [p; q; r; s] [k; l; i; j] -> f4qcm_get v' p q r s = Some (V p q r s))).
  { intros v i j k l p q r s Hv Hi Hj Hk Hl. unfold f4qcm_set, f4qcm_get.
    assert (B : (find4 k l i j < length v)%nat) by (rewrite Hv; now apply find4_bound).
    destruct (set_nth_some v (find4 k l i j) (V i j k l) B) as (v' & E1 & E2 & E3 & E4).
    exists v'. split; [exact E1|]. split; [unfold P; congruence|].
    assert (HH : Permutation [p; q; r; s] [k; l; i; j] -> nth_error v' (find4 p q r s) = Some (V p q r s)).
    { intros Hp. rewrite (find4_perm _ _ _ _ _ _ _ _ Hp), E3. f_equal.
      apply (sym4_perm V _ _ _ _ _ _ _ _ S12 S23 S34). symmetry. rewrite Hp.
      change [k; l; i; j] with ([k; l] ++ [i; j]). change [i; j; k; l] with ([i; j] ++ [k; l]).
      apply Permutation_app_comm. }
    split; [|exact HH]. intros Hg.
    destruct (Nat.eq_dec (find4 p q r s) (find4 k l i j)) as [Eq|Ne].
    - apply HH. now apply find4_inj.
    - rewrite E4 by exact Ne. exact Hg. }
  assert (Main : forall p q r s, (p < nvib)%nat -> (q < nvib)%nat -> (r < nvib)%nat -> (s < nvib)%nat ->
     exists v, force4 n f lx nvib w = Some v /\ P v /\ f4qcm_get v p q r s = Some (V p q r s)).
  { intros p q r s Hp0 Hq0 Hr0 Hs0.
    destruct (sorted_of4 p q r s) as (a & b & c & d & Hp & Hab & Hbc & Hcd).
    assert (Hd : (d < nvib)%nat).
    { apply (perm_forall_lt nvib _ _ Hp); [|cbn; auto].
      intros x [<-|[<-|[<-|[<-|[]]]]]; assumption. }
    unfold force4. destruct (Nat.eqb_spec nvib 0) as [|_]; [lia|].
    set (Q := fun v : list R => f4qcm_get v p q r s = Some (V p q r s)).
    apply (ofold_hit P Q _ _ d).
    - apply in_range. lia.
    - intros v i Hi Hv. apply in_range in Hi. apply ofold_keep; [|exact Hv].
      intros v1 j Hj Hv1. apply in_range in Hj. cbv beta zeta. apply ofold_keep; [|exact Hv1].
      intros v2 k Hk Hv2. apply in_range in Hk. apply ofold_keep; [|exact Hv2].
      intros v3 l Hl Hv3. apply in_range in Hl. rewrite Val.
      destruct (Step v3 i j k l p q r s Hv3) as (v' & E1 & E2 & E3 & _); try lia.
      exists v'. auto.
    - intros v Hv. apply (ofold_hit P Q _ _ c); [apply in_range; lia| | |exact Hv].
      { intros v1 j Hj Hv1. apply in_range in Hj. cbv beta zeta. apply ofold_keep; [|exact Hv1].
        intros v2 k Hk Hv2. apply in_range in Hk. apply ofold_keep; [|exact Hv2].
        intros v3 l Hl Hv3. apply in_range in Hl. rewrite Val.
        destruct (Step v3 d j k l p q r s Hv3) as (v' & E1 & E2 & E3 & _); try lia.
        exists v'. auto. }
      intros v1 Hv1. cbv beta zeta. apply (ofold_hit P Q _ _ b); [apply in_range; lia| | |exact Hv1].
      { intros v2 k Hk Hv2. apply in_range in Hk. apply ofold_keep; [|exact Hv2].
        intros v3 l Hl Hv3. apply in_range in Hl. rewrite Val.
        destruct (Step v3 d c k l p q r s Hv3) as (v' & E1 & E2 & E3 & _); try lia.
        exists v'. auto. }
      intros v2 Hv2. apply (ofold_hit P Q _ _ a); [apply in_range; lia| | |exact Hv2].
      { intros v3 l Hl Hv3. apply in_range in Hl. rewrite Val.
        destruct (Step v3 d c b l p q r s Hv3) as (v' & E1 & E2 & E3 & _); try lia.
        exists v'. auto. }
      intros v3 Hv3. rewrite Val.
      destruct (Step v3 d c b a p q r s Hv3) as (v' & E1 & E2 & _ & E4); try lia.
      exists v'. split; [exact E1|]. split; [exact E2|]. apply E4. rewrite Hp.
      change [b; a; d; c] with ([b; a] ++ [d; c]). change [a; b; c; d] with ([a; b] ++ [c; d]).
      apply Permutation_app; apply perm_swap.
    - unfold P. rewrite repeat_length, find4_sorted by lia.
      replace nvib with (S (nvib - 1)) at 5 by lia. cbn [t4].
      replace (nvib - 1 + t2 (nvib - 1) + t3 (nvib - 1) + t4 (nvib - 1) + 1)%nat
        with (S (nvib - 1) + t2 (nvib - 1) + t3 (nvib - 1) + t4 (nvib - 1))%nat by lia.
      cbn [t3 t2]. lia. }
  destruct (Main 0%nat 0%nat 0%nat 0%nat Hn Hn Hn Hn) as (v & Ev & Pv & _).
  exists v. split; [exact Ev|]. split; [exact Pv|]. intros i j k l Hi Hj Hk Hl.
  destruct (Main i j k l Hi Hj Hk Hl) as (v' & Ev' & _ & G).
  rewrite Ev in Ev'. injection Ev' as <-. exact G.
Qed.
