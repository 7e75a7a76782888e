(** Molecules with a threefold axis and a mirror plane through it: what the symmetry of the force
    constants says about the normal modes. *)
From Coq Require Import Reals Lra List Arith Lia Bool Permutation.
From Verif Require Import Num Loops ListFacts AnharmFacts Transform TransformFacts RotFacts HarmFacts ModeFacts DistortFacts GeomFacts ZeroFacts.
Import ListNotations.
Open Scope nat_scope.
Local Open Scope R_scope.

(** ** specification *)

(** the turn by 120 degrees about z, in either sense: [s] is the sine; and the mirror y to -y *)
Definition third (s : R) (x y : nat) : R :=
  match x, y with
  | 0%nat, 0%nat => - (1 / 2) | 0%nat, 1%nat => - s
  | 1%nat, 0%nat => s | 1%nat, 1%nat => - (1 / 2)
  | 2%nat, 2%nat => 1
  | _, _ => 0
  end.
Definition flip (x y : nat) : R :=
  match x, y with 0%nat, 0%nat => 1 | 1%nat, 1%nat => -1 | 2%nat, 2%nat => 1 | _, _ => 0 end.

(** the displacements of the atoms are turned by [Q] and carried from atom [i] to atom [sg i] *)
Definition op (sg : nat -> nat) (Q : nat -> nat -> R) (b a : nat) : R :=
  if (b / 3 =? sg (a / 3))%nat then Q (b mod 3)%nat (a mod 3)%nat else 0.
Definition act (n : nat) (P : nat -> nat -> R) (u : nat -> R) (b : nat) : R := Sum n (fun a => P b a * u a).

(** the turn carries atom [i] to [sg i], the mirror to [mu i] *)
Record c3v (N : nat) (m : nat -> R) (s : R) (sg mu : nat -> nat) : Prop := {
  c3_s : s * s = 3 / 4;
  c3_sg : forall i, (i < N)%nat -> (sg i < N)%nat;
  c3_mu : forall i, (i < N)%nat -> (mu i < N)%nat;
  c3_sg3 : forall i, (i < N)%nat -> sg (sg (sg i)) = i;
  c3_mu2 : forall i, (i < N)%nat -> mu (mu i) = i;
  c3_both : forall i, (i < N)%nat -> mu (sg (mu (sg i))) = i;
  c3_msg : forall i, (i < N)%nat -> m (sg i) = m i;
  c3_mmu : forall i, (i < N)%nat -> m (mu i) = m i
}.
(** force constants that do not change under an operation *)
Definition same2 n P (f : nat -> nat -> R) := forall a b, (a < n)%nat -> (b < n)%nat -> con2 n P f a b = f a b.
Definition same3 n P (f : nat -> nat -> nat -> R) := forall a b c, (a < n)%nat -> (b < n)%nat -> (c < n)%nat ->
  con3 n P f a b c = f a b c.
Definition same4 n P (f : nat -> nat -> nat -> nat -> R) := forall a b c d, (a < n)%nat -> (b < n)%nat -> (c < n)%nat -> (d < n)%nat ->
  con4 n P f a b c d = f a b c d.

(** ** operations on displacements *)
Lemma s_pow s u : s * s = 3 / 4 -> s * s * u = 3 / 4 * u /\ s * s * s * u = 3 / 4 * s * u.
Proof. intros ->. lra. Qed.
Ltac s_red Hs i := match goal with |- context [?u (3 * i + 0)%nat] =>
  pose proof (s_pow _ (u (3 * i + 0)%nat) Hs); pose proof (s_pow _ (u (3 * i + 1)%nat) Hs) end.
Lemma act_ext n P u v b : (forall a, (a < n)%nat -> u a = v a) -> act n P u b = act n P v b.
Proof. intros E. apply sum_g. intros a Ha. now rewrite E. Qed.
Lemma act_lin n P c d u v b : act n P (fun a => c * u a + d * v a) b = c * act n P u b + d * act n P v b.
Proof. unfold act. rewrite <- !Rsum_scal, <- Rsum_plus. apply sum_g. intros. ring. Qed.

Section Op.
  Variables (N : nat) (sg sv : nat -> nat) (Q : nat -> nat -> R).
  Hypothesis Bs : forall i, (i < N)%nat -> (sg i < N)%nat.
  Hypothesis Bv : forall i, (i < N)%nat -> (sv i < N)%nat.
  Hypothesis SV : forall i, (i < N)%nat -> sg (sv i) = i.
  Hypothesis VS : forall i, (i < N)%nat -> sv (sg i) = i.

  Lemma sum_carried (h : nat -> R) : Sum N (fun i => h (sv i)) = Sum N h.
  Proof.
    rewrite <- (Rsum_map sv h). apply Rsum_perm. apply NoDup_Permutation_bis.
    - apply NoDup_map_inj; [apply seq_NoDup|].
      intros i j Hi%in_seq Hj%in_seq E. rewrite <- (SV i), <- (SV j) by lia. now rewrite E.
    - now rewrite map_length.
    - intros i (j & <- & Hj%in_seq)%in_map_iff. apply in_seq. specialize (Bv j). lia.
  Qed.
  Lemma act_at u i x : (i < N)%nat -> (x < 3)%nat ->
    act (3 * N) (op sg Q) u (3 * i + x) = Sum 3 (fun y => Q x y * u (3 * sv i + y)%nat).
  Proof.
    intros Hi Hx. unfold act. rewrite sum_blocks.
    transitivity (Sum N (fun j => delta (sv i) j * Sum 3 (fun y => Q x y * u (3 * j + y)%nat))).
    - apply sum_g. intros j Hj. unfold delta. rewrite <- Rsum_scal. apply sum_g. intros y Hy. unfold op.
      rewrite !div_block, !mod_block by lia.
      destruct (Nat.eqb_spec i (sg j)) as [E0|Ne], (Nat.eqb_spec (sv i) j) as [E|Nv]; try ring.
      + elim Nv. rewrite E0. now apply VS.
      + elim Ne. rewrite <- E. symmetry. now apply SV.
    - rewrite (sum_delta N (fun j => Sum 3 (fun y => Q x y * u (3 * j + y)%nat))); [reflexivity|now apply Bv].
  Qed.
  Lemma act_iso u v : orth 3 Q ->
    Sum (3 * N) (fun b => act (3 * N) (op sg Q) u b * act (3 * N) (op sg Q) v b) = Sum (3 * N) (fun b => u b * v b).
  Proof.
    intros [_ HQ]. rewrite !sum_blocks.
    rewrite <- (sum_carried (fun j => Sum 3 (fun x => u (3 * j + x)%nat * v (3 * j + x)%nat))).
    apply sum_g. intros i Hi.
    transitivity (Sum 3 (fun y => Sum 3 (fun z => Sum 3 (fun x => Q x y * Q x z) * (u (3 * sv i + y)%nat * v (3 * sv i + z)%nat)))).
    - rewrite (sum_g 3 _ (fun x => Sum 3 (fun y => Q x y * u (3 * sv i + y)%nat) * Sum 3 (fun z => Q x z * v (3 * sv i + z)%nat)))
        by (intros x Hx; now rewrite !act_at).
      rewrite !sum_3. ring.
    - apply sum_g. intros y Hy.
      rewrite (sum_g 3 _ (fun z => delta y z * (u (3 * sv i + y)%nat * v (3 * sv i + z)%nat))) by (intros; now rewrite HQ).
      now rewrite (sum_delta 3 (fun z => u (3 * sv i + y)%nat * v (3 * sv i + z)%nat)).
  Qed.
  (** masses *)
  Lemma act_mass (m : nat -> R) u b : (forall i, (i < N)%nat -> m (sv i) = m i) -> (b < 3 * N)%nat ->
    act (3 * N) (op sg Q) (fun a => u a / sqrt (m (a / 3)%nat)) b = act (3 * N) (op sg Q) u b / sqrt (m (b / 3)%nat).
  Proof.
    intros Hm Hb. assert (H3 : (b / 3 < N)%nat) by (apply Nat.div_lt_upper_bound; lia).
    assert (Hx : (b mod 3 < 3)%nat) by (apply Nat.mod_upper_bound; lia).
    assert (Eb : b = (3 * (b / 3) + b mod 3)%nat) by (apply Nat.div_mod; lia).
    set (i := (b / 3)%nat) in *. set (x := (b mod 3)%nat) in *. rewrite Eb, !act_at by assumption.
    unfold Rdiv at 2. rewrite Rmult_comm, <- Rsum_scal. apply sum_g. intros y Hy. rewrite div_block, Hm by assumption.
    unfold Rdiv. ring.
  Qed.
End Op.

Lemma third_orth s : s * s = 3 / 4 -> orth 3 (third s).
Proof.
  intros Hs. split; intros a b Ha Hb; rewrite !sum_3; unfold delta;
    destruct a as [|[|[|a]]]; try lia; destruct b as [|[|[|b]]]; try lia; cbn; lra.
Qed.
Lemma flip_orth : orth 3 flip.
Proof.
  split; intros a b Ha Hb; rewrite !sum_3; unfold delta;
    destruct a as [|[|[|a]]]; try lia; destruct b as [|[|[|b]]]; try lia; cbn; lra.
Qed.

(** ** eigenvectors of a matrix that an operation leaves alone *)
Section Eigen.
  Variables (n : nat) (P A : nat -> nat -> R) (vals : list R) (V : nat -> nat -> R).
  Hypothesis Iso : forall u v, Sum n (fun b => act n P u b * act n P v b) = Sum n (fun b => u b * v b).
  Hypothesis Onto : forall v, exists u, forall b, (b < n)%nat -> act n P u b = v b.
  Hypothesis SA : sym2 n A.
  Hypothesis PA : same2 n P A.
  Hypothesis ES : eigen_system n A vals V.
  Let val i := nth i vals 0.

  Lemma eig_val i a : (i < n)%nat -> (a < n)%nat -> Sum n (fun b => A a b * V b i) = val i * V a i.
  Proof.
    intros Hi Ha. destruct ES as (L & _ & E). apply E; [exact Ha|]. unfold val. apply nth_error_nth'. lia.
  Qed.
  Definition bil (u v : nat -> R) : R := Sum n (fun a => Sum n (fun b => u a * v b * A a b)).
  Lemma bil_act u v : bil (act n P u) (act n P v) = bil u v.
  Proof.
    transitivity (Sum n (fun c => Sum n (fun d => u c * v d * con2 n P A c d))).
    - unfold bil, act, con2, con1.
      transitivity (Sum n (fun a => Sum n (fun b => Sum n (fun c => Sum n (fun d => P a c * u c * (P b d * v d) * A a b))))).
      { apply sum_g. intros a _. apply sum_g. intros b _.
        rewrite Rmult_assoc, Rmult_comm, <- Rsum_scal. apply sum_g. intros c _.
        rewrite Rmult_comm, <- Rmult_assoc, (Rmult_comm _ (A a b)), <- Rmult_assoc. rewrite <- Rsum_scal. apply sum_g. intros d _. ring. }
      transitivity (Sum n (fun a => Sum n (fun c => Sum n (fun b => Sum n (fun d => P a c * u c * (P b d * v d) * A a b))))).
      { apply sum_g. intros a _. apply Rsum_swap. }
      rewrite Rsum_swap. apply sum_g. intros c _.
      transitivity (Sum n (fun a => Sum n (fun d => Sum n (fun b => P a c * u c * (P b d * v d) * A a b)))).
      { apply sum_g. intros a _. apply Rsum_swap. }
      rewrite Rsum_swap. apply sum_g. intros d _. rewrite <- Rsum_scal. apply sum_g. intros a _.
      rewrite <- !Rmult_assoc. rewrite <- Rsum_scal. apply sum_g. intros b _. ring.
    - unfold bil. apply sum_g. intros c Hc. apply sum_g. intros d Hd. now rewrite PA.
  Qed.
  Lemma bil_ext u v u' v' : (forall a, (a < n)%nat -> u a = u' a) -> (forall a, (a < n)%nat -> v a = v' a) -> bil u v = bil u' v'.
  Proof. intros E E'. apply sum_g. intros a Ha. apply sum_g. intros b Hb. now rewrite E, E'. Qed.
  Lemma bil_r u i : (i < n)%nat -> bil u (fun b => V b i) = val i * Sum n (fun a => u a * V a i).
  Proof.
    intros Hi. unfold bil. rewrite <- Rsum_scal. apply sum_g. intros a Ha.
    transitivity (u a * Sum n (fun b => A a b * V b i)); [|rewrite eig_val by assumption; ring].
    rewrite <- Rsum_scal. apply sum_g. intros. ring.
  Qed.
  Lemma bil_sym u v : bil u v = bil v u.
  Proof.
    unfold bil. rewrite Rsum_swap. apply sum_g. intros a Ha. apply sum_g. intros b Hb. rewrite (SA b a) by assumption. ring.
  Qed.
  (** the part of the image of eigenvector [i] along eigenvector [j] *)
  Definition part (i j : nat) : R := Sum n (fun a => V a j * act n P (fun b => V b i) a).
  Lemma part_0 i j : (i < n)%nat -> (j < n)%nat -> val i <> val j -> part i j = 0.
  Proof.
    intros Hi Hj Ne. destruct (Onto (fun b => V b j)) as (u & Hu).
    assert (E1 : bil (act n P (fun b => V b i)) (fun b => V b j) = val j * part i j).
    { rewrite bil_r by exact Hj. f_equal. apply sum_g. intros. ring. }
    assert (E2 : bil (act n P (fun b => V b i)) (fun b => V b j) = val i * part i j).
    { rewrite (bil_ext _ _ (act n P (fun b => V b i)) (act n P u)) by (intros; auto; symmetry; auto).
      rewrite bil_act, bil_sym, bil_r by exact Hi. f_equal. rewrite <- Iso. unfold part.
      apply sum_g. intros a Ha. now rewrite Hu. }
    assert ((val i - val j) * part i j = 0) by lra.
    destruct (Rmult_integral _ _ H); [lra|assumption].
  Qed.
  Lemma part_sum i b : (i < n)%nat -> (b < n)%nat -> act n P (fun a => V a i) b = Sum n (fun j => part i j * V b j).
  Proof.
    intros Hi Hb. destruct ES as (_ & [O _] & _). unfold part.
    transitivity (Sum n (fun j => Sum n (fun a => V a j * V b j * act n P (fun a => V a i) a))).
    - rewrite Rsum_swap.
      rewrite (sum_g n _ (fun a => delta b a * act n P (fun a => V a i) a)).
      + now rewrite (sum_delta n (fun a => act n P (fun a => V a i) a)).
      + intros a Ha. rewrite <- (O b a Hb Ha), Rmult_comm, <- Rsum_scal. apply sum_g. intros. ring.
    - apply sum_g. intros j _. rewrite Rmult_comm, <- Rsum_scal. apply sum_g. intros. ring.
  Qed.
  Lemma single_act i b : (i < n)%nat -> (b < n)%nat ->
    (forall j, (j < n)%nat -> j <> i -> val j <> val i) -> act n P (fun a => V a i) b = part i i * V b i.
  Proof.
    intros Hi Hb Hn. rewrite part_sum by assumption.
    rewrite (sum_g n _ (fun j => delta i j * (part i j * V b j))).
    - now rewrite (sum_delta n (fun j => part i j * V b j)).
    - intros j Hj. unfold delta. destruct (Nat.eqb_spec i j) as [->|Ne]; [ring|].
      rewrite part_0; [ring|assumption|assumption|]. intros E. apply (Hn j); auto.
  Qed.
  Lemma pair_act i i' b : (i < n)%nat -> (i' < n)%nat -> i <> i' -> (b < n)%nat ->
    (forall j, (j < n)%nat -> j <> i -> j <> i' -> val j <> val i) ->
    act n P (fun a => V a i) b = part i i * V b i + part i i' * V b i'.
  Proof.
    intros Hi Hi' Nii Hb Hn. rewrite part_sum by assumption.
    rewrite (sum_g n _ (fun j => delta i j * (part i j * V b j) + delta i' j * (part i j * V b j))).
    - now rewrite Rsum_plus, !(sum_delta n (fun j => part i j * V b j)) by assumption.
    - intros j Hj. unfold delta. destruct (Nat.eqb_spec i j) as [->|Ne], (Nat.eqb_spec i' j) as [->|Ne']; try congruence; try ring.
      rewrite part_0; [ring|assumption|assumption|]. intros E. apply (Hn j); auto.
  Qed.
  Lemma part_iso i j : (i < n)%nat -> (j < n)%nat ->
    Sum n (fun b => act n P (fun a => V a i) b * act n P (fun a => V a j) b) = delta i j.
  Proof. intros Hi Hj. rewrite Iso. destruct ES as (_ & [_ O] & _). now apply O. Qed.
End Eigen.

(** ** the group *)
Section Group.
  Variables (N : nat) (m : nat -> R) (s : R) (sg mu : nat -> nat).
  Hypothesis C : c3v N m s sg mu.
  Let n := (3 * N)%nat.
  Let P := op sg (third s).
  Let M := op mu flip.
  Let sv i := sg (sg i).

  Lemma sv_lt i : (i < N)%nat -> (sv i < N)%nat.
  Proof. intros Hi. unfold sv. now do 2 apply (c3_sg _ _ _ _ _ C). Qed.
  Lemma sg_sv i : (i < N)%nat -> sg (sv i) = i.
  Proof. apply (c3_sg3 _ _ _ _ _ C). Qed.
  Lemma sv_sg i : (i < N)%nat -> sv (sg i) = i.
  Proof. apply (c3_sg3 _ _ _ _ _ C). Qed.
  Lemma turn_at u i x : (i < N)%nat -> (x < 3)%nat -> act n P u (3 * i + x) = Sum 3 (fun y => third s x y * u (3 * sv i + y)%nat).
  Proof. apply act_at; [apply (c3_sg _ _ _ _ _ C)|exact sv_lt|exact sg_sv|exact sv_sg]. Qed.
  Lemma turn_to u i x : (i < N)%nat -> (x < 3)%nat -> act n P u (3 * sg i + x) = Sum 3 (fun y => third s x y * u (3 * i + y)%nat).
  Proof. intros Hi Hx. rewrite turn_at; [now rewrite sv_sg|now apply (c3_sg _ _ _ _ _ C)|exact Hx]. Qed.
  Lemma mirror_at u i x : (i < N)%nat -> (x < 3)%nat -> act n M u (3 * i + x) = flip x x * u (3 * mu i + x)%nat.
  Proof.
    intros Hi Hx. unfold n, M. rewrite (act_at N mu mu); try assumption; try apply (c3_mu _ _ _ _ _ C); try apply (c3_mu2 _ _ _ _ _ C).
    rewrite sum_3. destruct x as [|[|[|x]]]; try lia; cbn [flip]; ring.
  Qed.
  Lemma split_index (Q : nat -> Prop) : (forall i x, (i < N)%nat -> (x < 3)%nat -> Q (3 * i + x)%nat) -> forall b, (b < n)%nat -> Q b.
  Proof.
    intros H b Hb. rewrite (Nat.div_mod b 3) by lia. apply H; [apply Nat.div_lt_upper_bound; unfold n in Hb; lia|].
    apply Nat.mod_upper_bound; lia.
  Qed.
  Lemma turn3 u b : (b < n)%nat -> act n P (act n P (act n P u)) b = u b.
  Proof.
    pose proof (c3_s _ _ _ _ _ C) as Hs. revert b. apply split_index. intros i x Hi Hx.
    assert (E : sv (sv (sv i)) = i). { unfold sv. rewrite !(c3_sg3 _ _ _ _ _ C); auto; now repeat apply (c3_sg _ _ _ _ _ C). }
    pose proof (sv_lt i Hi) as H1. pose proof (sv_lt _ H1) as H2.
    rewrite turn_at, sum_3, !turn_at, !sum_3, !turn_at, !sum_3, E by (assumption || lia).
    destruct x as [|[|[|x]]]; try lia; cbn [third]; [s_red Hs i; lra..|lra].
  Qed.
  Lemma mirror2 u b : (b < n)%nat -> act n M (act n M u) b = u b.
  Proof.
    revert b. apply split_index. intros i x Hi Hx. rewrite !mirror_at, (c3_mu2 _ _ _ _ _ C); try assumption; [|now apply (c3_mu _ _ _ _ _ C)].
    destruct x as [|[|[|x]]]; try lia; cbn [flip]; ring.
  Qed.
  (** the mirror undoes the turn *)
  Lemma mirror_turn u b : (b < n)%nat -> act n P (act n M (act n P u)) b = act n M u b.
  Proof.
    pose proof (c3_s _ _ _ _ _ C) as Hs. revert b. apply split_index. intros i x Hi Hx.
    pose proof (sv_lt i Hi) as H1. pose proof (c3_mu _ _ _ _ _ C _ H1) as H2. pose proof (sv_lt _ H2) as H3.
    assert (E : sv (mu (sv i)) = mu i).
    { assert (Q : mu (sg (mu (sg (sv i)))) = sv i) by (apply (c3_both _ _ _ _ _ C); exact H1).
      rewrite sg_sv in Q by exact Hi. rewrite <- Q, (c3_mu2 _ _ _ _ _ C).
      - rewrite sv_sg; [reflexivity|now apply (c3_mu _ _ _ _ _ C)].
      - apply (c3_sg _ _ _ _ _ C). now apply (c3_mu _ _ _ _ _ C). }
    rewrite turn_at, sum_3, !mirror_at, !turn_at, !sum_3, E by (assumption || lia).
    destruct x as [|[|[|x]]]; try lia; cbn [third flip]; [s_red Hs (mu i); lra..|lra].
  Qed.
  Lemma turn_iso u v : Sum n (fun b => act n P u b * act n P v b) = Sum n (fun b => u b * v b).
  Proof.
    apply (act_iso N sg sv); [apply (c3_sg _ _ _ _ _ C)|exact sv_lt|exact sg_sv|exact sv_sg|]. apply third_orth, (c3_s _ _ _ _ _ C).
  Qed.
  Lemma mirror_iso u v : Sum n (fun b => act n M u b * act n M v b) = Sum n (fun b => u b * v b).
  Proof.
    apply (act_iso N mu mu); [apply (c3_mu _ _ _ _ _ C)|apply (c3_mu _ _ _ _ _ C)|apply (c3_mu2 _ _ _ _ _ C)|apply (c3_mu2 _ _ _ _ _ C)|exact flip_orth].
  Qed.
  Lemma turn_onto v : exists u, forall b, (b < n)%nat -> act n P u b = v b.
  Proof. exists (act n P (act n P v)). apply turn3. Qed.
  Lemma mirror_onto v : exists u, forall b, (b < n)%nat -> act n M u b = v b.
  Proof. exists (act n M v). apply mirror2. Qed.

  (** ** normal modes *)
  Variables (A : nat -> nat -> R) (vals : list R) (V : nat -> nat -> R).
  Hypothesis SA : sym2 n A.
  Hypothesis PA : same2 n P A.
  Hypothesis MA : same2 n M A.
  Hypothesis ES : eigen_system n A vals V.
  Let val i := nth i vals 0.

  Lemma indep1 i c : (i < n)%nat -> (forall b, (b < n)%nat -> c * V b i = V b i) -> c = 1.
  Proof.
    intros Hi E. destruct ES as (_ & [_ O] & _). specialize (O i i Hi Hi). unfold delta in O. rewrite Nat.eqb_refl in O.
    rewrite (sum_g n _ (fun k => c * (V k i * V k i))) in O by (intros k Hk; rewrite <- (E k Hk) at 1; ring).
    assert (O' : Sum n (fun k => V k i * V k i) = 1).
    { destruct ES as (_ & [_ O'] & _). rewrite (O' i i Hi Hi). unfold delta. now rewrite Nat.eqb_refl. }
    rewrite Rsum_scal, O' in O. lra.
  Qed.
  Lemma indep2 i j c d c' d' : (i < n)%nat -> (j < n)%nat -> i <> j ->
    (forall b, (b < n)%nat -> c * V b i + d * V b j = c' * V b i + d' * V b j) -> c = c' /\ d = d'.
  Proof.
    intros Hi Hj Nij E. destruct ES as (_ & [_ O] & _).
    assert (Q : forall k, (k < n)%nat -> c * delta i k + d * delta j k = c' * delta i k + d' * delta j k).
    { intros k Hk. rewrite <- (O i k Hi Hk), <- (O j k Hj Hk), <- !Rsum_scal, <- !Rsum_plus. apply sum_g. intros b Hb.
      transitivity ((c * V b i + d * V b j) * V b k); [ring|]. rewrite E by exact Hb. ring. }
    pose proof (Q i Hi) as Qi. pose proof (Q j Hj) as Qj. unfold delta in *. rewrite !Nat.eqb_refl in *.
    destruct (Nat.eqb_spec i j); [contradiction|]. destruct (Nat.eqb_spec j i); [congruence|]. lra.
  Qed.

  Lemma single_turn i : (i < n)%nat -> (forall j, (j < n)%nat -> j <> i -> val j <> val i) ->
    forall b, (b < n)%nat -> act n P (fun a => V a i) b = V b i.
  Proof.
    intros Hi Hn. pose proof (fun b Hb => single_act n P A vals V turn_iso turn_onto SA PA ES i b Hi Hb Hn) as E.
    set (c := part n P V i i) in *.
    assert (C3 : c * (c * c) = 1).
    { apply (indep1 i _ Hi). intros b Hb. eapply eq_trans; [|exact (turn3 (fun a => V a i) b Hb)].
      rewrite (act_ext n P _ (fun a => c * c * V a i + 0 * V a i)).
      - rewrite (act_lin n P (c * c) 0). rewrite E by exact Hb. ring.
      - intros a Ha. rewrite (act_ext n P _ (fun a => c * V a i + 0 * V a i)) by (intros a' Ha'; rewrite (E a' Ha'); ring).
        rewrite (act_lin n P c 0), E by exact Ha. ring. }
    assert (c = 1). { assert ((c - 1) * (c * c + c + 1) = 0) by lra. destruct (Rmult_integral _ _ H); [lra|nra]. }
    intros b Hb. rewrite E by exact Hb. rewrite H. ring.
  Qed.

  Definition turned3 (q : R) (i j : nat) : Prop := forall b, (b < n)%nat ->
    act n P (fun a => V a i) b = - (1 / 2) * V b i + q * V b j /\
    act n P (fun a => V a j) b = - q * V b i + - (1 / 2) * V b j.

  Lemma block3 p q r t : p * p + q * q = 1 -> r * r + t * t = 1 -> p * r + q * t = 0 ->
    p * (p * p + q * r) + r * (p * q + q * t) = 1 -> q * (p * p + q * r) + t * (p * q + q * t) = 0 ->
    p * (r * p + t * r) + r * (r * q + t * t) = 0 -> q * (r * p + t * r) + t * (r * q + t * t) = 1 ->
    ~ (p = 1 /\ q = 0) -> p = - (1 / 2) /\ t = - (1 / 2) /\ r = - q /\ q * q = 3 / 4.
  Proof.
    intros H1 H2 H3 E1 E2 E3 E4 Ne.
    set (D := p * t - q * r).
    assert (D2 : D * D = 1). { unfold D. transitivity ((p * p + q * q) * (r * r + t * t) - (p * r + q * t) * (p * r + q * t)); [ring|]. rewrite H1, H2, H3. ring. }
    assert (D3 : D * D * D = 1).
    { transitivity ((p * (p * p + q * r) + r * (p * q + q * t)) * (q * (r * p + t * r) + t * (r * q + t * t))
        - (q * (p * p + q * r) + t * (p * q + q * t)) * (p * (r * p + t * r) + r * (r * q + t * t))); [unfold D; ring|].
      rewrite E1, E2, E3, E4. ring. }
    assert (D1 : D = 1) by (rewrite D2 in D3; lra).
    assert (Et : t = p). { transitivity (p * D + q * (p * r + q * t) + t * (1 - p * p - q * q)); [unfold D; ring|]. rewrite D1, H3. replace (1 - p * p - q * q) with 0 by lra. ring. }
    assert (Er : r = - q). { transitivity (- q * D + p * (p * r + q * t) + r * (1 - p * p - q * q)); [unfold D; ring|]. rewrite D1, H3. replace (1 - p * p - q * q) with 0 by lra. ring. }
    subst t r.
    assert (Q0 : q * (4 * (p * p) - 1) = 0). { transitivity (q * (p * p + q * - q) + p * (p * q + q * p) + q * (p * p + q * q - 1)); [ring|]. rewrite E2. replace (p * p + q * q - 1) with 0 by lra. ring. }
    destruct (Rmult_integral _ _ Q0) as [Z|Z].
    - exfalso. subst q. assert (p * p = 1) by lra. assert (p * (p * p) = 1) by lra. apply Ne. split; [nra|reflexivity].
    - assert (Pp : p * p = 1 / 4) by lra. assert (Qq : q * q = 3 / 4) by lra.
      assert (p * (p * p) - 3 * p * (q * q) = 1) by lra. rewrite Pp, Qq in H. repeat split; lra.
  Qed.

  Lemma pair_turn i j : (i < n)%nat -> (j < n)%nat -> i <> j -> val i = val j ->
    (forall k, (k < n)%nat -> k <> i -> k <> j -> val k <> val i) ->
    ~ (forall b, (b < n)%nat -> act n P (fun a => V a i) b = V b i) ->
    exists q, q * q = 3 / 4 /\ turned3 q i j.
  Proof.
    intros Hi Hj Nij Ev Hn Ne.
    pose proof (fun b Hb => pair_act n P A vals V turn_iso turn_onto SA PA ES i j b Hi Hj Nij Hb Hn) as Ei.
    assert (Ej : forall b, (b < n)%nat -> act n P (fun a => V a j) b = part n P V j i * V b i + part n P V j j * V b j).
    { intros b Hb. rewrite (pair_act n P A vals V turn_iso turn_onto SA PA ES j i b); auto; [lra|]. intros k Hk Nk Nk'. fold (val j). rewrite <- Ev. now apply Hn. }
    set (p := part n P V i i) in *. set (q := part n P V i j) in *. set (r := part n P V j i) in *. set (t := part n P V j j) in *.
    assert (T1 : p * (p * p + q * r) + r * (p * q + q * t) = 1 /\ q * (p * p + q * r) + t * (p * q + q * t) = 0).
    { apply (indep2 i j _ _ _ _ Hi Hj Nij). intros b Hb. rewrite Rmult_0_l, Rplus_0_r, Rmult_1_l.
      eapply eq_trans; [|exact (turn3 (fun a => V a i) b Hb)].
      rewrite (act_ext n P _ (fun a => (p * p + q * r) * V a i + (p * q + q * t) * V a j)).
      - rewrite act_lin, Ei, Ej by exact Hb. ring.
      - intros a Ha. rewrite (act_ext n P _ (fun a => p * V a i + q * V a j) a) by exact Ei. rewrite act_lin, Ei, Ej by exact Ha. ring. }
    assert (T2 : p * (r * p + t * r) + r * (r * q + t * t) = 0 /\ q * (r * p + t * r) + t * (r * q + t * t) = 1).
    { apply (indep2 i j _ _ _ _ Hi Hj Nij). intros b Hb. rewrite Rmult_0_l, Rplus_0_l, Rmult_1_l.
      eapply eq_trans; [|exact (turn3 (fun a => V a j) b Hb)].
      rewrite (act_ext n P _ (fun a => (r * p + t * r) * V a i + (r * q + t * t) * V a j)).
      - rewrite act_lin, Ei, Ej by exact Hb. ring.
      - intros a Ha. rewrite (act_ext n P _ (fun a => r * V a i + t * V a j) a) by exact Ej. rewrite act_lin, Ei, Ej by exact Ha. ring. }
    destruct (block3 p q r t) as (Pp & Pt & Pr & Pq).
    - pose proof (part_iso n P A vals V turn_iso ES i i Hi Hi) as O. unfold delta in O. rewrite Nat.eqb_refl in O.
      rewrite <- O. destruct ES as (_ & [_ OO] & _).
      rewrite (sum_g n _ (fun b => p * p * (V b i * V b i) + 2 * p * q * (V b i * V b j) + q * q * (V b j * V b j))) by (intros b Hb; rewrite Ei by exact Hb; ring).
      rewrite !Rsum_plus, !Rsum_scal, !OO by assumption. unfold delta. rewrite !Nat.eqb_refl. destruct (Nat.eqb_spec i j); [contradiction|ring].
    - pose proof (part_iso n P A vals V turn_iso ES j j Hj Hj) as O. unfold delta in O. rewrite Nat.eqb_refl in O.
      rewrite <- O. destruct ES as (_ & [_ OO] & _).
      rewrite (sum_g n _ (fun b => r * r * (V b i * V b i) + 2 * r * t * (V b i * V b j) + t * t * (V b j * V b j))) by (intros b Hb; rewrite Ej by exact Hb; ring).
      rewrite !Rsum_plus, !Rsum_scal, !OO by assumption. unfold delta. rewrite !Nat.eqb_refl. destruct (Nat.eqb_spec i j); [contradiction|ring].
    - pose proof (part_iso n P A vals V turn_iso ES i j Hi Hj) as O. unfold delta in O. destruct (Nat.eqb_spec i j); [contradiction|].
      rewrite <- O. destruct ES as (_ & [_ OO] & _).
      rewrite (sum_g n _ (fun b => p * r * (V b i * V b i) + (p * t + q * r) * (V b i * V b j) + q * t * (V b j * V b j))) by (intros b Hb; rewrite Ei, Ej by exact Hb; ring).
      rewrite !Rsum_plus, !Rsum_scal, !OO by assumption. unfold delta. rewrite !Nat.eqb_refl. destruct (Nat.eqb_spec i j); [contradiction|ring].
    - exact (proj1 T1).
    - exact (proj2 T1).
    - exact (proj1 T2).
    - exact (proj2 T2).
    - intros [Z1 Z2]. apply Ne. intros b Hb. rewrite Ei, Z1, Z2 by exact Hb. ring.
    - exists q. split; [exact Pq|]. intros b Hb. split; [rewrite Ei by exact Hb; now rewrite Pp|]. rewrite Ej, Pr, Pt by exact Hb. reflexivity.
  Qed.

  (** a pair whose first partner alone moves atom [c] of the mirror plane along x *)
  Lemma pair_mirror q i j c : (i < n)%nat -> (j < n)%nat -> i <> j -> val i = val j ->
    (forall k, (k < n)%nat -> k <> i -> k <> j -> val k <> val i) ->
    q * q = 3 / 4 -> turned3 q i j ->
    (c < N)%nat -> mu c = c -> V (3 * c)%nat i <> 0 -> V (3 * c)%nat j = 0 ->
    forall b, (b < n)%nat -> act n M (fun a => V a i) b = V b i /\ act n M (fun a => V a j) b = - V b j.
  Proof.
    intros Hi Hj Nij Ev Hn Q T Hc Mc Xi Xj.
    pose proof (fun b Hb => pair_act n M A vals V mirror_iso mirror_onto SA MA ES i j b Hi Hj Nij Hb Hn) as Ei.
    assert (Ej : forall b, (b < n)%nat -> act n M (fun a => V a j) b = part n M V j i * V b i + part n M V j j * V b j).
    { intros b Hb. rewrite (pair_act n M A vals V mirror_iso mirror_onto SA MA ES j i b); auto; [lra|]. intros k Hk Nk Nk'. fold (val j). rewrite <- Ev. now apply Hn. }
    set (p := part n M V i i) in *. set (p' := part n M V i j) in *. set (r := part n M V j i) in *. set (t := part n M V j j) in *.
    assert (Bc : (3 * c < n)%nat) by (unfold n; lia).
    assert (At : forall u, act n M u (3 * c) = u (3 * c)%nat).
    { intros u. replace (3 * c)%nat with (3 * c + 0)%nat at 1 by lia. rewrite mirror_at, Mc by (assumption || lia).
      rewrite Nat.add_0_r. cbn [flip]. ring. }
    assert (P1 : p = 1).
    { pose proof (Ei _ Bc) as E. rewrite At, Xj in E. assert ((p - 1) * V (3 * c)%nat i = 0) by lra.
      destruct (Rmult_integral _ _ H); [lra|contradiction]. }
    assert (R0 : r = 0).
    { pose proof (Ej _ Bc) as E. rewrite At, Xj in E. assert (r * V (3 * c)%nat i = 0) by lra.
      destruct (Rmult_integral _ _ H); [assumption|contradiction]. }
    assert (I2 : p * p + p' * r = 1 /\ p * p' + p' * t = 0).
    { apply (indep2 i j _ _ _ _ Hi Hj Nij). intros b Hb. rewrite Rmult_0_l, Rplus_0_r, Rmult_1_l.
      eapply eq_trans; [|exact (mirror2 (fun a => V a i) b Hb)].
      rewrite (act_ext n M _ (fun a => p * V a i + p' * V a j)) by exact Ei. rewrite act_lin, Ei, Ej by exact Hb. ring. }
    assert (J2 : r * p + t * r = 0 /\ r * p' + t * t = 1).
    { apply (indep2 i j _ _ _ _ Hi Hj Nij). intros b Hb. rewrite Rmult_0_l, Rplus_0_l, Rmult_1_l.
      eapply eq_trans; [|exact (mirror2 (fun a => V a j) b Hb)].
      rewrite (act_ext n M _ (fun a => r * V a i + t * V a j)) by exact Ej. rewrite act_lin, Ei, Ej by exact Hb. ring. }
    assert (O : p' = 0).
    { pose proof (part_iso n M A vals V mirror_iso ES i i Hi Hi) as O. unfold delta in O. rewrite Nat.eqb_refl in O.
      destruct ES as (_ & [_ OO] & _).
      rewrite (sum_g n _ (fun b => p * p * (V b i * V b i) + 2 * p * p' * (V b i * V b j) + p' * p' * (V b j * V b j))) in O by (intros b Hb; rewrite Ei by exact Hb; ring).
      rewrite !Rsum_plus, !Rsum_scal, !OO in O by assumption. unfold delta in O. rewrite !Nat.eqb_refl in O. destruct (Nat.eqb_spec i j); [contradiction|].
      rewrite P1 in O. assert (p' * p' = 0) by lra. destruct (Rmult_integral _ _ H); assumption. }
    assert (K : forall b, (b < n)%nat -> act n P (act n M (act n P (fun a => V a i))) b = (1 / 4 - t * (q * q)) * V b i + (- (1 / 2) * q - 1 / 2 * (t * q)) * V b j).
    { intros b Hb. rewrite (act_ext n P _ (fun a => - (1 / 2) * V a i + t * q * V a j)).
      - rewrite act_lin. destruct (T b Hb) as [-> ->]. lra.
      - intros a Ha. rewrite (act_ext n M _ (fun a => - (1 / 2) * V a i + q * V a j) a) by (intros a' Ha'; apply (T a' Ha')).
        rewrite act_lin, Ei, Ej, P1, R0, O by exact Ha. ring. }
    assert (F : 1 / 4 - t * (q * q) = 1 /\ - (1 / 2) * q - 1 / 2 * (t * q) = 0).
    { apply (indep2 i j _ _ _ _ Hi Hj Nij). intros b Hb. rewrite <- K by exact Hb. rewrite mirror_turn, Ei, P1, O by exact Hb. reflexivity. }
    assert (T1 : t = - 1) by (rewrite Q in F; lra).
    intros b Hb. rewrite Ei, Ej, P1, O, R0, T1 by exact Hb. lra.
  Qed.

  (** the sense of the pair shows in the displacement of the next atom *)
  Lemma sense q i j c : (i < n)%nat -> (j < n)%nat -> turned3 q i j ->
    (forall b, (b < n)%nat -> act n M (fun a => V a i) b = V b i) -> (c < N)%nat -> mu c = c ->
    q * V (3 * sg c)%nat j = 1 / 2 * (V (3 * sg c)%nat i - V (3 * c)%nat i).
  Proof.
    intros Hi Hj T Mi Hc Mc.
    assert (Y : V (3 * c + 1)%nat i = 0).
    { pose proof (Mi (3 * c + 1)%nat ltac:(unfold n; lia)) as E. rewrite mirror_at, Mc in E by (assumption || lia).
      cbn [flip] in E. lra. }
    pose proof (c3_sg _ _ _ _ _ C c Hc) as Hs.
    destruct (T (3 * sg c)%nat ltac:(unfold n; lia)) as [E _].
    replace (3 * sg c)%nat with (3 * sg c + 0)%nat in E at 1 by lia.
    rewrite turn_to, sum_3 in E by (assumption || lia). cbn [third] in E. rewrite Nat.add_0_r, Y in E. lra.
  Qed.
End Group.
