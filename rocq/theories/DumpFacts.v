(** Facts about the listings of force constants. *)
From Coq Require Import List ZArith Arith Lia Bool Permutation.
From Verif Require Import Num Loops Index ListFacts IndexFacts LoadFacts Text.
Import ListNotations.
Open Scope nat_scope.

(** The list of rows has exactly one row whose index columns are [idx] in some
    order, and its value is [v]. *)
Definition appears_once {F} (rows : list (list nat * F)) (idx : list nat) (v : F) : Prop :=
  exists before cols after,
    rows = before ++ (cols, v) :: after /\ Permutation cols idx /\
    forall r, In r (before ++ after) -> ~ Permutation (fst r) idx.

(** no row for these indices *)
Definition absent {F} (rows : list (list nat * F)) (idx : list nat) : Prop :=
  forall r, In r rows -> ~ Permutation (fst r) idx.

Lemma rows_of_eq {F A} (l : list A) (f : A -> option (list (list nat * F))) g acc :
  (forall a, In a l -> f a = Some (g a)) ->
  ofold (fun acc a => let* r := f a in Some (acc ++ r)) l acc = Some (acc ++ flat_map g l).
Proof.
  revert acc. induction l as [|a l IH]; intros acc Hf; cbn.
  - now rewrite app_nil_r.
  - rewrite (Hf a) by now left. cbn. rewrite IH by (intros; apply Hf; now right).
    now rewrite app_assoc.
Qed.

Lemma flat_map_absent {F A} (L : list A) (cols : A -> list nat) (g : A -> list (list nat * F)) idx :
  (forall a, In a L -> forall r, In r (g a) -> fst r = cols a) ->
  (forall a, In a L -> ~ Permutation (cols a) idx) ->
  absent (flat_map g L) idx.
Proof.
  intros Hg Hno r Hr. apply in_flat_map in Hr as (a & Ha & Hr).
  rewrite (Hg a Ha r Hr). now apply Hno.
Qed.

Lemma flat_map_once {F A} (L : list A) (cols : A -> list nat)
  (g : A -> list (list nat * F)) idx p v :
  NoDup L -> In p L -> Permutation (cols p) idx -> g p = [(cols p, v)] ->
  (forall a, In a L -> forall r, In r (g a) -> fst r = cols a) ->
  (forall a, In a L -> Permutation (cols a) (cols p) -> a = p) ->
  appears_once (flat_map g L) idx v.
Proof.
  intros Hnd Hp Hperm Hgp Hg Hinj.
  destruct (in_split _ _ Hp) as (l1 & l2 & ->).
  exists (flat_map g l1), (cols p), (flat_map g l2).
  refine (conj _ (conj Hperm _)).
  - rewrite flat_map_app. cbn. now rewrite Hgp.
  - intros r Hr Hc. rewrite <- flat_map_app in Hr.
    apply in_flat_map in Hr as (a & Ha & Hr).
    assert (Hin : In a (l1 ++ p :: l2)).
    { apply in_app_or in Ha as [Ha|Ha]; apply in_or_app; [now left|right; now right]. }
    rewrite (Hg a Hin r Hr) in Hc.
    assert (a = p) by (apply Hinj; [exact Hin|]; etransitivity; [exact Hc|now symmetry]).
    subst a. now apply NoDup_remove_2 in Hnd.
Qed.

Lemma flat_map_none {F A} (L : list A) (cols : A -> list nat)
  (g : A -> list (list nat * F)) idx p :
  In p L -> Permutation (cols p) idx -> g p = [] ->
  (forall a, In a L -> forall r, In r (g a) -> fst r = cols a) ->
  (forall a, In a L -> Permutation (cols a) (cols p) -> a = p) ->
  absent (flat_map g L) idx.
Proof.
  intros Hp Hperm Hgp Hg Hinj r Hr Hc.
  apply in_flat_map in Hr as (a & Ha & Hr).
  rewrite (Hg a Ha r Hr) in Hc.
  assert (a = p) by (apply Hinj; [exact Ha|]; etransitivity; [exact Hc|now symmetry]).
  subst a. now rewrite Hgp in Hr.
Qed.

Definition cols3 (p : nat * nat * nat) : list nat :=
  let '(i, j, k) := p in [i + 1; j + 1; k + 1].
Definition cols4 (p : nat * nat * nat * nat) : list nat :=
  let '(i, j, k, l) := p in [i + 1; j + 1; k + 1; l + 1].

Lemma perm3_desc i j k i' j' k' :
  k <= j -> j <= i -> k' <= j' -> j' <= i' ->
  Permutation [i + 1; j + 1; k + 1] [i' + 1; j' + 1; k' + 1] ->
  (i, j, k) = (i', j', k').
Proof.
  intros H1 H2 H3 H4 Hp.
  assert (Hs : i = i' /\ j = j' /\ k = k').
  { apply perm3_inv in Hp. cbn [In] in Hp.
    repeat destruct Hp as [Hp|Hp]; try contradiction; injection Hp as; lia. }
  destruct Hs as (-> & -> & ->). reflexivity.
Qed.

Lemma perm4_desc i j k l i' j' k' l' :
  l <= k -> k <= j -> j <= i -> l' <= k' -> k' <= j' -> j' <= i' ->
  Permutation [i + 1; j + 1; k + 1; l + 1] [i' + 1; j' + 1; k' + 1; l' + 1] ->
  (i, j, k, l) = (i', j', k', l').
Proof.
  intros H1 H2 H3 H4 H5 H6 Hp.
  assert (Hs : i = i' /\ j = j' /\ k = k' /\ l = l').
  { apply perm4_inv in Hp. cbn [perms4 In] in Hp.
    repeat destruct Hp as [Hp|Hp]; try contradiction; injection Hp as; lia. }
  destruct Hs as (-> & -> & -> & ->). reflexivity.
Qed.

(** any three modes in descending order *)
Lemma desc3 i j k r : i < r -> j < r -> k < r ->
  exists a b c, In (a, b, c) (tri_indices r) /\
    Permutation [a + 1; b + 1; c + 1] [i + 1; j + 1; k + 1] /\
    Permutation [a; b; c] [i; j; k].
Proof.
  intros Hi Hj Hk.
  destruct (sorted_of3 i j k) as (c & b & a & Hp & H1 & H2).
  exists a, b, c.
  assert (Hp' : Permutation [a; b; c] [i; j; k]).
  { rewrite Hp. apply (Permutation_rev [a; b; c]). }
  assert (a < r).
  { assert (In a [i; j; k]) as Ha by (rewrite Hp; cbn; tauto).
    cbn in Ha. destruct Ha as [<-|[<-|[<-|[]]]]; assumption. }
  refine (conj _ (conj (Permutation_map (fun x => x + 1) Hp') Hp')).
  apply tri_indices_in. lia.
Qed.

Lemma desc4 i j k l r : i < r -> j < r -> k < r -> l < r ->
  exists a b c d, In (a, b, c, d) (tetra_indices r) /\
    Permutation [a + 1; b + 1; c + 1; d + 1] [i + 1; j + 1; k + 1; l + 1] /\
    Permutation [a; b; c; d] [i; j; k; l].
Proof.
  intros Hi Hj Hk Hl.
  destruct (sorted_of4 i j k l) as (d & c & b & a & Hp & H1 & H2 & H3).
  exists a, b, c, d.
  assert (Hp' : Permutation [a; b; c; d] [i; j; k; l]).
  { rewrite Hp. apply (Permutation_rev [a; b; c; d]). }
  assert (a < r).
  { assert (In a [i; j; k; l]) as Ha by (rewrite Hp; cbn; tauto).
    cbn in Ha. destruct Ha as [<-|[<-|[<-|[<-|[]]]]]; assumption. }
  refine (conj _ (conj (Permutation_map (fun x => x + 1) Hp') Hp')).
  apply tetra_indices_in. lia.
Qed.

Section Dumps.
  Context {F : Type} `{Num F}.

  Lemma get3_some (f3 : list F) r i j k :
    length f3 = r * (r + 1) * (r + 2) / 6 -> i < r -> j < r -> k < r ->
    exists v, f3qcm_get f3 i j k = Some v.
  Proof.
    intros Hl Hi Hj Hk. rewrite t3_div in Hl. unfold f3qcm_get.
    destruct (nth_error f3 (find3 i j k)) eqn:E; [eauto|].
    apply nth_error_None in E. pose proof (proj2 (find3_bound i j k r)). lia.
  Qed.

  Lemma get4_some (f4 : list F) r i j k l :
    length f4 = r * (r + 1) * (r + 2) * (r + 3) / 24 ->
    i < r -> j < r -> k < r -> l < r ->
    exists v, f4qcm_get f4 i j k l = Some v.
  Proof.
    intros Hl Hi Hj Hk Hl'. rewrite t4_div in Hl. unfold f4qcm_get.
    destruct (nth_error f4 (find4 i j k l)) eqn:E; [eauto|].
    apply nth_error_None in E. pose proof (proj2 (find4_bound i j k l r)). lia.
  Qed.

  (** the rows of a cubic block: those of [keep], with [tail] extra columns *)
  Definition g3 (f3 : list F) (keep : F -> bool) (tail : list nat) (p : nat * nat * nat) :=
    let '(i, j, k) := p in
    match f3qcm_get f3 i j k with
    | Some v => if keep v then [([i + 1; j + 1; k + 1] ++ tail, v)] else []
    | None => []
    end.
  Definition g4 (f4 : list F) (keep : F -> bool) (p : nat * nat * nat * nat) :=
    let '(i, j, k, l) := p in
    match f4qcm_get f4 i j k l with
    | Some v => if keep v then [([i + 1; j + 1; k + 1; l + 1], v)] else []
    | None => []
    end.

  Lemma g3_fst f3 keep tail a r : In r (g3 f3 keep tail a) -> fst r = cols3 a ++ tail.
  Proof.
    destruct a as [[i j] k]. cbn. destruct (f3qcm_get f3 i j k) as [v|]; [|intros []].
    destruct (keep v); [|intros []]. now intros [<-|[]].
  Qed.
  Lemma g4_fst f4 keep a r : In r (g4 f4 keep a) -> fst r = cols4 a.
  Proof.
    destruct a as [[[i j] k] l]. cbn. destruct (f4qcm_get f4 i j k l) as [v|]; [|intros []].
    destruct (keep v); [|intros []]. now intros [<-|[]].
  Qed.

  Lemma block3 (f3 : list F) keep tail r i j k :
    length f3 = r * (r + 1) * (r + 2) / 6 -> i < r -> j < r -> k < r ->
    exists v, f3qcm_get f3 i j k = Some v /\
      (keep v = true ->
       appears_once (flat_map (g3 f3 keep tail) (tri_indices r)) ([i + 1; j + 1; k + 1] ++ tail) v) /\
      (keep v = false ->
       absent (flat_map (g3 f3 keep tail) (tri_indices r)) ([i + 1; j + 1; k + 1] ++ tail)).
  Proof.
    intros Hl Hi Hj Hk.
    destruct (get3_some f3 r i j k Hl Hi Hj Hk) as (v & Hv). exists v.
    destruct (desc3 i j k r Hi Hj Hk) as (a & b & c & Hin & Hp1 & Hp).
    assert (Hv' : f3qcm_get f3 a b c = Some v).
    { unfold f3qcm_get in *. now rewrite (find3_perm _ _ _ _ _ _ Hp). }
    assert (Hinj : forall q, In q (tri_indices r) ->
              Permutation (cols3 q ++ tail) (cols3 (a, b, c) ++ tail) -> q = (a, b, c)).
    { intros [[x y] z] Hq Hpq. apply Permutation_app_inv_r in Hpq.
      apply tri_indices_in in Hq. apply tri_indices_in in Hin.
      apply perm3_desc; [lia..|exact Hpq]. }
    refine (conj Hv (conj _ _)); intros Hk'.
    - apply (flat_map_once _ (fun q => cols3 q ++ tail) _ _ (a, b, c)).
      + apply tri_indices_nodup.
      + exact Hin.
      + cbn [cols3]. now apply Permutation_app_tail.
      + cbn [g3 cols3]. now rewrite Hv', Hk'.
      + intros q _ row. apply g3_fst.
      + exact Hinj.
    - apply (flat_map_none _ (fun q => cols3 q ++ tail) _ _ (a, b, c)).
      + exact Hin.
      + cbn [cols3]. now apply Permutation_app_tail.
      + cbn [g3 cols3]. now rewrite Hv', Hk'.
      + intros q _ row. apply g3_fst.
      + exact Hinj.
  Qed.

  Lemma block4 (f4 : list F) keep r i j k l :
    length f4 = r * (r + 1) * (r + 2) * (r + 3) / 24 ->
    i < r -> j < r -> k < r -> l < r ->
    exists v, f4qcm_get f4 i j k l = Some v /\
      (keep v = true ->
       appears_once (flat_map (g4 f4 keep) (tetra_indices r)) [i + 1; j + 1; k + 1; l + 1] v) /\
      (keep v = false ->
       absent (flat_map (g4 f4 keep) (tetra_indices r)) [i + 1; j + 1; k + 1; l + 1]).
  Proof.
    intros Hl Hi Hj Hk Hl'.
    destruct (get4_some f4 r i j k l Hl Hi Hj Hk Hl') as (v & Hv). exists v.
    destruct (desc4 i j k l r Hi Hj Hk Hl') as (a & b & c & d & Hin & Hp1 & Hp).
    assert (Hv' : f4qcm_get f4 a b c d = Some v).
    { unfold f4qcm_get in *. now rewrite (find4_perm _ _ _ _ _ _ _ _ Hp). }
    assert (Hinj : forall q, In q (tetra_indices r) ->
              Permutation (cols4 q) (cols4 (a, b, c, d)) -> q = (a, b, c, d)).
    { intros [[[x y] z] w] Hq Hpq.
      apply tetra_indices_in in Hq. apply tetra_indices_in in Hin.
      apply perm4_desc; [lia..|exact Hpq]. }
    refine (conj Hv (conj _ _)); intros Hk'.
    - apply (flat_map_once _ cols4 _ _ (a, b, c, d)).
      + apply tetra_indices_nodup.
      + exact Hin.
      + exact Hp1.
      + cbn [g4 cols4]. now rewrite Hv', Hk'.
      + intros q _ row. apply g4_fst.
      + exact Hinj.
    - apply (flat_map_none _ cols4 _ _ (a, b, c, d)).
      + exact Hin.
      + exact Hp1.
      + cbn [g4 cols4]. now rewrite Hv', Hk'.
      + intros q _ row. apply g4_fst.
      + exact Hinj.
  Qed.

  Lemma rows3 (f3 : list F) r (f : nat * nat * nat -> option (list (list nat * F))) (keep : F -> bool) (tail : list nat) :
    length f3 = r * (r + 1) * (r + 2) / 6 ->
    (forall i j k v, f3qcm_get f3 i j k = Some v ->
       f (i, j, k) = Some (if keep v then [([i + 1; j + 1; k + 1] ++ tail, v)] else [])) ->
    rows_of (tri_indices r) f = Some (flat_map (g3 f3 keep tail) (tri_indices r)).
  Proof.
    intros Hl Hf. unfold rows_of.
    rewrite (rows_of_eq _ f (g3 f3 keep tail) []); [reflexivity|].
    intros [[i j] k] Hin. apply tri_indices_in in Hin.
    destruct (get3_some f3 r i j k Hl) as (v & Hv); [lia..|].
    rewrite (Hf _ _ _ _ Hv). cbn [g3]. now rewrite Hv.
  Qed.

  Lemma rows4 (f4 : list F) r (f : nat * nat * nat * nat -> option (list (list nat * F))) (keep : F -> bool) :
    length f4 = r * (r + 1) * (r + 2) * (r + 3) / 24 ->
    (forall i j k l v, f4qcm_get f4 i j k l = Some v ->
       f (i, j, k, l) = Some (if keep v then [([i + 1; j + 1; k + 1; l + 1], v)] else [])) ->
    rows_of (tetra_indices r) f = Some (flat_map (g4 f4 keep) (tetra_indices r)).
  Proof.
    intros Hl Hf. unfold rows_of.
    rewrite (rows_of_eq _ f (g4 f4 keep) []); [reflexivity|].
    intros [[[i j] k] l] Hin. apply tetra_indices_in in Hin.
    destruct (get4_some f4 r i j k l Hl) as (v & Hv); [lia..|].
    rewrite (Hf _ _ _ _ _ Hv). cbn [g4]. now rewrite Hv.
  Qed.

  Lemma g3_rows f3 keep tail r row : In row (flat_map (g3 f3 keep tail) (tri_indices r)) ->
    exists i j k, i < r /\ j < r /\ k < r /\
      fst row = [i + 1; j + 1; k + 1] ++ tail /\ f3qcm_get f3 i j k = Some (snd row) /\
      keep (snd row) = true.
  Proof.
    intros Hr. apply in_flat_map in Hr as ([[i j] k] & Hin & Hr).
    apply tri_indices_in in Hin. exists i, j, k. cbn [g3] in Hr.
    destruct (f3qcm_get f3 i j k) as [v|] eqn:E; [|destruct Hr].
    destruct (keep v) eqn:K; [|destruct Hr]. destruct Hr as [<-|[]].
    cbn [fst snd]. repeat split; first [lia|reflexivity|exact K].
  Qed.

  Lemma g4_rows f4 keep r row : In row (flat_map (g4 f4 keep) (tetra_indices r)) ->
    exists i j k l, i < r /\ j < r /\ k < r /\ l < r /\
      fst row = [i + 1; j + 1; k + 1; l + 1] /\ f4qcm_get f4 i j k l = Some (snd row) /\
      keep (snd row) = true.
  Proof.
    intros Hr. apply in_flat_map in Hr as ([[[i j] k] l] & Hin & Hr).
    apply tetra_indices_in in Hin. exists i, j, k, l. cbn [g4] in Hr.
    destruct (f4qcm_get f4 i j k l) as [v|] eqn:E; [|destruct Hr].
    destruct (keep v) eqn:K; [|destruct Hr]. destruct Hr as [<-|[]].
    cbn [fst snd]. repeat split; first [lia|reflexivity|exact K].
  Qed.

  (** ** [to_gauss] *)
  Lemma gauss_lemma (r : nat) (f3 f4 : list F) :
    length f3 = r * (r + 1) * (r + 2) / 6 ->
    length f4 = r * (r + 1) * (r + 2) * (r + 3) / 24 ->
    exists cubic quartic : list (list nat * F), to_gauss r f3 f4 = Some (cubic, quartic) /\
    (forall i j k, i < r -> j < r -> k < r ->
       exists v, f3qcm_get f3 i j k = Some v /\
         (ngtb (nabs v) (nlit 1 1000000) = true ->
          appears_once cubic [i + 1; j + 1; k + 1] v) /\
         (ngtb (nabs v) (nlit 1 1000000) = false ->
          absent cubic [i + 1; j + 1; k + 1])) /\
    (forall i j k l, i < r -> j < r -> k < r -> l < r ->
       exists v, f4qcm_get f4 i j k l = Some v /\
         (ngtb (nabs v) (nlit 1 1000000) = true ->
          appears_once quartic [i + 1; j + 1; k + 1; l + 1] v) /\
         (ngtb (nabs v) (nlit 1 1000000) = false ->
          absent quartic [i + 1; j + 1; k + 1; l + 1])) /\
    (forall row : list nat * F, In row cubic -> exists i j k, i < r /\ j < r /\ k < r /\
       fst row = [i + 1; j + 1; k + 1]) /\
    (forall row : list nat * F, In row quartic -> exists i j k l, i < r /\ j < r /\ k < r /\ l < r /\
       fst row = [i + 1; j + 1; k + 1; l + 1]).
  Proof.
    intros H3 H4.
    pose (keep := fun v : F => ngtb (nabs v) (nlit 1 1000000)).
    exists (flat_map (g3 f3 keep []) (tri_indices r)), (flat_map (g4 f4 keep) (tetra_indices r)).
    refine (conj _ (conj _ (conj _ (conj _ _)))).
    - unfold to_gauss, gauss_cubic, gauss_quartic.
      rewrite (rows3 f3 r _ keep [] H3), (rows4 f4 r _ keep H4); [reflexivity|..].
      + intros i j k l v Hv. now rewrite Hv.
      + intros i j k v Hv. now rewrite Hv.
    - intros i j k Hi Hj Hk. exact (block3 f3 keep [] r i j k H3 Hi Hj Hk).
    - intros i j k l Hi Hj Hk Hl. exact (block4 f4 keep r i j k l H4 Hi Hj Hk Hl).
    - intros row Hr. destruct (g3_rows f3 keep [] r row Hr) as (i & j & k & ? & ? & ? & ? & _).
      exists i, j, k. repeat split; assumption.
    - intros row Hr. destruct (g4_rows f4 keep r row Hr) as (i & j & k & l & ? & ? & ? & ? & ? & _).
      exists i, j, k, l. repeat split; assumption.
  Qed.

  (** ** [dump_fcs] *)
  Definition pairs (n : nat) : list (nat * nat) :=
    flat_map (fun i => map (fun j => (i, j)) (range 0 (i + 1))) (range 0 n).

  Lemma pairs_in n i j : In (i, j) (pairs n) <-> j <= i /\ i < n.
  Proof.
    unfold pairs. rewrite in_flat_map. split.
    - intros (a & Ha & Hm). apply in_map_iff in Hm as (b & [= -> ->] & Hb).
      apply in_range in Ha. apply in_range in Hb. lia.
    - intros [H1 H2]. exists i. split; [apply in_range; lia|].
      apply in_map_iff. exists j. split; [reflexivity|apply in_range; lia].
  Qed.

  Lemma pairs_nodup n : NoDup (pairs n).
  Proof.
    apply NoDup_flat_map.
    - apply range_nodup.
    - intros i _. apply NoDup_map_inj; [apply range_nodup|]. intros x y _ _ [= ->]. reflexivity.
    - intros i i' z _ _ H1 H2. apply in_map_iff in H1 as (a & <- & _).
      apply in_map_iff in H2 as (b & Hb & _). congruence.
  Qed.

  Lemma flat_map_single {A B} (f : A -> B) l : flat_map (fun a => [f a]) l = map f l.
  Proof. induction l as [|a l IH]; [reflexivity|]. cbn. now rewrite IH. Qed.

  Lemma flat_map_nest {A B C} (g : B -> list C) (f : A -> list B) l :
    flat_map g (flat_map f l) = flat_map (fun a => flat_map g (f a)) l.
  Proof. induction l as [|a l IH]; [reflexivity|]. cbn. now rewrite flat_map_app, IH. Qed.

  Lemma flat_map_const {A B} (f : A -> list B) l n :
    (forall a, length (f a) = n) -> length (flat_map f l) = length l * n.
  Proof.
    intros Hn. induction l as [|a l IH]; [reflexivity|]. cbn. now rewrite app_length, Hn, IH.
  Qed.

  Lemma hessian_eq r2 (fc2 : nat -> nat -> F) :
    dump_hessian r2 fc2 = flat_map (fun p => [([fst p + 1; snd p + 1; 0; 0], fc2 (fst p) (snd p))]) (pairs r2).
  Proof.
    unfold dump_hessian, pairs, collect. rewrite flat_map_nest. apply flat_map_ext.
    intros i. rewrite flat_map_single, map_map. reflexivity.
  Qed.

  Lemma perm2_desc i j i' j' : j <= i -> j' <= i' ->
    Permutation [i + 1; j + 1] [i' + 1; j' + 1] -> (i, j) = (i', j').
  Proof.
    intros H1 H2 Hp. apply Permutation_length_2_inv in Hp as [Hp|Hp]; injection Hp as; f_equal; lia.
  Qed.

  Lemma dump_lemma (r r2 : nat) (fc2 : nat -> nat -> F) (a b : nat) (lxm : nat -> nat -> F)
    (f3 f4 : list F) :
    r < r2 ->
    length f3 = r * (r + 1) * (r + 2) / 6 ->
    length f4 = r * (r + 1) * (r + 2) * (r + 3) / 24 ->
    exists hess modes cubic quartic,
      dump_fcs r r2 r2 fc2 a b lxm f3 f4 = Some (hess, modes, cubic, quartic) /\
    (forall i j, j <= i -> i < r2 -> appears_once hess [i + 1; j + 1; 0; 0] (fc2 i j)) /\
    (forall i j, i < a -> j < b -> In ([i + 1; j + 1; 0; 0], lxm i j) modes) /\
    (forall i j k, i < r -> j < r -> k < r ->
       exists v, f3qcm_get f3 i j k = Some v /\ appears_once cubic [i + 1; j + 1; k + 1; 0] v) /\
    (forall i j k l, i < r -> j < r -> k < r -> l < r ->
       exists v, f4qcm_get f4 i j k l = Some v /\
         appears_once quartic [i + 1; j + 1; k + 1; l + 1] v) /\
    length hess = r2 * (r2 + 1) / 2 /\ length modes = a * b /\
    length cubic = length f3 /\ length quartic = length f4.
  Proof.
    intros Hr H3 H4.
    pose (keep := fun v : F => true).
    exists (dump_hessian r2 fc2), (dump_modes a b lxm),
      (flat_map (g3 f3 keep [0]) (tri_indices r)), (flat_map (g4 f4 keep) (tetra_indices r)).
    refine (conj _ (conj _ (conj _ (conj _ (conj _ (conj _ (conj _ (conj _ _)))))))).
    - unfold dump_fcs, dump_cubic, dump_quartic. rewrite Nat.eqb_refl.
      destruct (Nat.ltb_spec r r2); [|lia]. cbn [negb].
      rewrite (rows3 f3 r _ keep [0] H3), (rows4 f4 r _ keep H4); [reflexivity|..].
      + intros i j k l v Hv. now rewrite Hv.
      + intros i j k v Hv. now rewrite Hv.
    - intros i j Hji Hi. rewrite hessian_eq.
      apply (flat_map_once _ (fun p => [fst p + 1; snd p + 1; 0; 0]) _ _ (i, j)).
      + apply pairs_nodup.
      + apply pairs_in. lia.
      + reflexivity.
      + reflexivity.
      + intros q _ row [<-|[]]. reflexivity.
      + intros [x y] Hq Hp. apply pairs_in in Hq. cbn [fst snd] in Hp.
        apply perm2_desc; [lia..|].
        exact (Permutation_app_inv_r [0; 0] [x + 1; y + 1] [i + 1; j + 1] Hp).
    - intros i j Hi Hj. unfold dump_modes, collect. apply in_flat_map. exists i.
      split; [apply in_range; lia|]. apply in_map_iff. exists j.
      split; [reflexivity|apply in_range; lia].
    - intros i j k Hi Hj Hk.
      destruct (block3 f3 keep [0] r i j k H3 Hi Hj Hk) as (v & Hv & Ho & _).
      exists v. split; [exact Hv|]. exact (Ho eq_refl).
    - intros i j k l Hi Hj Hk Hl.
      destruct (block4 f4 keep r i j k l H4 Hi Hj Hk Hl) as (v & Hv & Ho & _).
      exists v. split; [exact Hv|]. exact (Ho eq_refl).
    - rewrite hessian_eq, flat_map_single, map_length.
      rewrite (count_pairs r2 (pairs r2)); [|apply pairs_nodup|intros; apply pairs_in].
      rewrite ioff_succ, <- t2_div. f_equal.
    - unfold dump_modes, collect. rewrite (flat_map_const _ _ b).
      + unfold range. rewrite seq_length. lia.
      + intros x. rewrite map_length. unfold range. rewrite seq_length. lia.
    - rewrite H3, t3_div, <- tri_indices_length.
      assert (Hg : forall p, In p (tri_indices r) -> length (g3 f3 keep [0] p) = 1).
      { intros [[i j] k] Hin. apply tri_indices_in in Hin. cbn [g3].
        destruct (get3_some f3 r i j k H3) as (v & ->); [lia..|reflexivity]. }
      induction (tri_indices r) as [|p l IH]; [reflexivity|]. cbn.
      rewrite app_length, Hg by now left. cbn. f_equal. apply IH. intros q Hq. apply Hg. now right.
    - rewrite H4, t4_div, <- tetra_indices_length.
      assert (Hg : forall p, In p (tetra_indices r) -> length (g4 f4 keep p) = 1).
      { intros [[[i j] k] l] Hin. apply tetra_indices_in in Hin. cbn [g4].
        destruct (get4_some f4 r i j k l H4) as (v & ->); [lia..|reflexivity]. }
      induction (tetra_indices r) as [|p l IH]; [reflexivity|]. cbn.
      rewrite app_length, Hg by now left. cbn. f_equal. apply IH. intros q Hq. apply Hg. now right.
  Qed.

  Lemma dump_panic_lemma (r r2 c2 : nat) (fc2 : nat -> nat -> F) (a b : nat)
    (lxm : nat -> nat -> F) (f3 f4 : list F) :
    r2 <> c2 \/ r2 <= r -> dump_fcs r r2 c2 fc2 a b lxm f3 f4 = None.
  Proof.
    unfold dump_fcs. intros Hc. destruct (Nat.eqb_spec r2 c2); cbn [negb]; [|reflexivity].
    destruct (Nat.ltb_spec r r2); cbn [negb]; [|reflexivity]. lia.
  Qed.
End Dumps.
