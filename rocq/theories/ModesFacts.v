(** Lemmas about mode classification. *)
From Coq Require Import List ZArith Arith Lia Bool Permutation.
From Coq Require Import ZifyBool ZifyNat.
From Verif Require Import Num Loops Index Modes ListFacts IndexFacts.
Import ListNotations.

(** spec: the normal modes an entry of the mode list stands for *)
Definition members (m : mode) : list nat :=
  match m with I1 i => [i] | I2 i j => [i; j] | I3 i j k => [i; j; k] end.

Definition get1 (m : mode) := match m with I1 i => [i] | _ => [] end.
Definition get2 (m : mode) := match m with I2 i j => [(i, j)] | _ => [] end.
Definition get3 (m : mode) := match m with I3 i j k => [(i, j, k)] | _ => [] end.

Lemma mode_partition_eq modes :
  mode_partition modes = (flat_map get1 modes, flat_map get2 modes, flat_map get3 modes).
Proof.
  unfold mode_partition.
  assert (forall a b c,
    fold_left (fun '(a, b, c) m =>
    match m with
    | I1 i => (a ++ [i], b, c)
    | I2 i j => (a, b ++ [(i, j)], c)
    | I3 i j k => (a, b, c ++ [(i, j, k)])
    end) modes (a, b, c) =
    (a ++ flat_map get1 modes, b ++ flat_map get2 modes, c ++ flat_map get3 modes)) as H.
  { induction modes as [|m modes IH]; intros a b c; cbn [fold_left flat_map].
    - now rewrite !app_nil_r.
    - destruct m; cbn [get1 get2 get3 app]; rewrite IH; rewrite <- ?app_assoc; reflexivity. }
  exact (H [] [] []).
Qed.

Lemma mode_count_eq modes :
  mode_count modes = (length (flat_map get1 modes), length (flat_map get2 modes),
                      length (flat_map get3 modes)).
Proof.
  unfold mode_count.
  assert (forall a b c,
    fold_left (fun '(a, b, c) m =>
    match m with
    | I1 _ => (a + 1, b, c)
    | I2 _ _ => (a, b + 1, c)
    | I3 _ _ _ => (a, b, c + 1)
    end) modes (a, b, c) =
    (a + length (flat_map get1 modes), b + length (flat_map get2 modes),
     c + length (flat_map get3 modes))) as H.
  { induction modes as [|m modes IH]; intros a b c; cbn [fold_left flat_map].
    - now rewrite !Nat.add_0_r.
    - destruct m; cbn [get1 get2 get3 app]; rewrite IH; cbn [length];
        repeat (f_equal; try lia). }
  exact (H 0 0 0).
Qed.

Lemma i1mode_eq modes : i1mode modes = flat_map get1 modes.
Proof. unfold i1mode. now rewrite mode_partition_eq. Qed.
Lemma i2mode_eq modes : i2mode modes = flat_map get2 modes.
Proof. unfold i2mode. now rewrite mode_partition_eq. Qed.
Lemma i3mode_eq modes : i3mode modes = flat_map get3 modes.
Proof. unfold i3mode. now rewrite mode_partition_eq. Qed.
Lemma n1dm_eq modes : n1dm modes = length (i1mode modes).
Proof. unfold n1dm. now rewrite mode_count_eq, i1mode_eq. Qed.
Lemma n2dm_eq modes : n2dm modes = length (i2mode modes).
Proof. unfold n2dm. now rewrite mode_count_eq, i2mode_eq. Qed.
Lemma n3dm_eq modes : n3dm modes = length (i3mode modes).
Proof. unfold n3dm. now rewrite mode_count_eq, i3mode_eq. Qed.

Lemma in_i1mode modes i : In i (i1mode modes) <-> In (I1 i) modes.
Proof.
  rewrite i1mode_eq, in_flat_map. split.
  - intros ([a|a b|a b c] & Hm & Hin); cbn in Hin; try tauto.
    destruct Hin as [->|[]]. exact Hm.
  - intros Hm. exists (I1 i). cbn. auto.
Qed.
Lemma in_i2mode modes i j : In (i, j) (i2mode modes) <-> In (I2 i j) modes.
Proof.
  rewrite i2mode_eq, in_flat_map. split.
  - intros ([a|a b|a b c] & Hm & Hin); cbn in Hin; try tauto.
    destruct Hin as [He|[]]. injection He as -> ->. exact Hm.
  - intros Hm. exists (I2 i j). cbn. auto.
Qed.

(** the mode list of an asymmetric top *)
Definition singles (n : nat) : list mode := map I1 (seq 0 n).

Lemma i1mode_singles n : i1mode (singles n) = seq 0 n.
Proof.
  rewrite i1mode_eq. unfold singles. rewrite flat_map_concat_map, map_map.
  induction (seq 0 n) as [|a l IH]; [reflexivity|]. cbn in *. now rewrite IH.
Qed.
Lemma i2mode_singles n : i2mode (singles n) = [].
Proof.
  rewrite i2mode_eq. unfold singles.
  induction (seq 0 n) as [|a l IH]; [reflexivity|]. cbn in *. now rewrite IH.
Qed.
Lemma i3mode_singles n : i3mode (singles n) = [].
Proof.
  rewrite i3mode_eq. unfold singles.
  induction (seq 0 n) as [|a l IH]; [reflexivity|]. cbn in *. now rewrite IH.
Qed.
Lemma n1dm_singles n : n1dm (singles n) = n.
Proof. now rewrite n1dm_eq, i1mode_singles, seq_length. Qed.
Lemma n2dm_singles n : n2dm (singles n) = 0.
Proof. now rewrite n2dm_eq, i2mode_singles. Qed.
Lemma n3dm_singles n : n3dm (singles n) = 0.
Proof. now rewrite n3dm_eq, i3mode_singles. Qed.
Lemma m1_singles n i : i < n -> m1 (singles n) i = i.
Proof. intros Hi. unfold m1. rewrite i1mode_singles, seq_nth by exact Hi. reflexivity. Qed.

Section DegModes.
  Context {F : Type} `{Num F}.

  Lemma deg_modes_asym_lemma r nvib (freq : nat -> F) :
    r = AsymmTop \/ r = Diatomic -> deg_modes r nvib freq = Some (map I1 (seq 0 nvib)).
  Proof.
    intros [-> | ->]; cbn [deg_modes is_sym_top obind];
      rewrite fold_push, range_0; reflexivity.
  Qed.

  (** passes append modes and record their members *)
  Definition pushes (h : list mode * list nat -> list mode * list nat) (ml : list mode) :=
    forall modes set, exists set',
      h (modes, set) = (modes ++ ml, set') /\
      forall y, In y set' <-> In y set \/ In y (flat_map members ml).

  Lemma pushes_fold {A} (step : list mode * list nat -> A -> list mode * list nat) g l :
    (forall x, In x l -> pushes (fun s => step s x) (g x)) ->
    pushes (fun s => fold_left step l s) (collect l g).
  Proof.
    induction l as [|a l IH]; intros Hs modes set; cbn.
    - exists set. rewrite app_nil_r. split; [reflexivity|]. cbn. tauto.
    - destruct (Hs a (or_introl eq_refl) modes set) as (s1 & E1 & I1').
      rewrite E1. destruct (IH (fun x Hx => Hs x (or_intror Hx)) (modes ++ g a) s1)
        as (s2 & E2 & I2').
      exists s2. rewrite E2, <- app_assoc. split; [reflexivity|].
      intros y. rewrite I2', I1', flat_map_app, in_app_iff. unfold collect. tauto.
  Qed.

  Definition triples_of (nvib : nat) (freq : nat -> F) : list mode :=
    collect (range 0 nvib) (fun i =>
      collect (range (i + 1) nvib) (fun j =>
        collect (range (j + 1) nvib) (fun k =>
          if triple_test freq i j k then [I3 i j k] else []))).

  Lemma triple_pass_eq nvib (freq : nat -> F) :
    exists set, triple_pass nvib freq = (triples_of nvib freq, set) /\
      forall y, In y set <-> In y (flat_map members (triples_of nvib freq)).
  Proof.
    assert (pushes (fun s =>
      fold_left (fun s i =>
      fold_left (fun s j =>
        fold_left (fun '(modes, triples) k =>
          if triple_test freq i j k
          then (modes ++ [I3 i j k], k :: j :: i :: triples)
          else (modes, triples))
        (range (j + 1) nvib) s)
      (range (i + 1) nvib) s)
      (range 0 nvib) s) (triples_of nvib freq)) as Hp.
    { apply pushes_fold. intros i _. apply pushes_fold. intros j _.
      apply pushes_fold. intros k _ modes set.
      destruct (triple_test freq i j k).
      - exists (k :: j :: i :: set). split; [reflexivity|]. cbn. intros y. tauto.
      - exists set. rewrite app_nil_r. split; [reflexivity|]. cbn. tauto. }
    destruct (Hp [] []) as (set & E & I). exists set. split; [exact E|].
    intros y. rewrite I. cbn. tauto.
  Qed.

  Definition pairs_of (nvib : nat) (freq : nat -> F) (triples : list nat) : list mode :=
    collect (range 0 nvib) (fun i =>
      collect (range (i + 1) nvib) (fun j =>
        if pair_test freq i j && negb (contains triples i) && negb (contains triples j)
        then [I2 i j] else [])).

  Lemma pair_pass_eq nvib (freq : nat -> F) triples modes :
    exists set, pair_pass nvib freq triples modes
                = (modes ++ pairs_of nvib freq triples, set) /\
      forall y, In y set <-> In y (flat_map members (pairs_of nvib freq triples)).
  Proof.
    assert (pushes (fun s =>
      fold_left (fun s i =>
      fold_left (fun '(modes, doubles) j =>
          if pair_test freq i j && negb (contains triples i) && negb (contains triples j)
          then (modes ++ [I2 i j], j :: i :: doubles)
          else (modes, doubles))
      (range (i + 1) nvib) s)
      (range 0 nvib) s) (pairs_of nvib freq triples)) as Hp.
    { apply pushes_fold. intros i _. apply pushes_fold. intros j _ ms set.
      destruct (pair_test freq i j && negb (contains triples i) && negb (contains triples j)).
      - exists (j :: i :: set). split; [reflexivity|]. cbn. intros y. tauto.
      - exists set. rewrite app_nil_r. split; [reflexivity|]. cbn. tauto. }
    destruct (Hp modes []) as (set & E & I). exists set. split; [exact E|].
    intros y. rewrite I. cbn. tauto.
  Qed.

  Lemma contains_in s i : contains s i = true <-> In i s.
  Proof.
    unfold contains. rewrite existsb_exists. split.
    - intros (x & Hx & He). apply Nat.eqb_eq in He. now subst.
    - intros Hi. exists i. now rewrite Nat.eqb_refl.
  Qed.
  Lemma contains_notin s i : contains s i = false <-> ~ In i s.
  Proof. rewrite <- contains_in. destruct (contains s i); split; congruence. Qed.

  (** full description of the mode list of a symmetric top *)
  Lemma deg_modes_sym_eq r nvib (freq : nat -> F) :
    is_sym_top r = Some true ->
    exists T P S,
      deg_modes r nvib freq = Some (T ++ P ++ S) /\
      T = triples_of nvib freq /\
      (exists ts, P = pairs_of nvib freq ts /\
                  forall y, In y ts <-> In y (flat_map members T)) /\
      S = map I1 (filter (fun i => negb (contains (flat_map members T) i)
                                   && negb (contains (flat_map members P) i)) (seq 0 nvib)).
  Proof.
    intros Hr. unfold deg_modes. rewrite Hr. cbn [obind].
    destruct (triple_pass_eq nvib freq) as (ts & E1 & H1). rewrite E1.
    destruct (pair_pass_eq nvib freq ts (triples_of nvib freq)) as (ds & E2 & H2).
    rewrite E2. rewrite fold_push_if, range_0.
    do 3 eexists. split; [rewrite <- app_assoc; reflexivity|].
    split; [reflexivity|]. split; [exists ts; split; [reflexivity|exact H1]|].
    f_equal. apply filter_ext. intros i.
    assert (forall s s', (forall y, In y s <-> In y s') -> contains s i = contains s' i) as Hc.
    { intros s s' He. destruct (contains s i) eqn:A; symmetry.
      - apply contains_in in A. apply contains_in, He, A.
      - apply contains_notin in A. apply contains_notin. now rewrite <- He. }
    now rewrite (Hc _ _ H1), (Hc _ _ H2).
  Qed.

  Lemma in_triples_of nvib (freq : nat -> F) m :
    In m (triples_of nvib freq) <->
    exists i j k, m = I3 i j k /\ i < j /\ j < k /\ k < nvib /\ triple_test freq i j k = true.
  Proof.
    unfold triples_of. rewrite in_collect_range. split.
    - intros (i & Hi & Hin). apply in_collect_range in Hin as (j & Hj & Hin).
      apply in_collect_range in Hin as (k & Hk & Hin).
      destruct (triple_test freq i j k) eqn:E; [|destruct Hin].
      destruct Hin as [<-|[]]. exists i, j, k. repeat split; auto; lia.
    - intros (i & j & k & -> & H1 & H2 & H3 & E). exists i. split; [lia|].
      apply in_collect_range. exists j. split; [lia|].
      apply in_collect_range. exists k. split; [lia|]. rewrite E. now left.
  Qed.

  Lemma in_pairs_of nvib (freq : nat -> F) ts m :
    In m (pairs_of nvib freq ts) <->
    exists i j, m = I2 i j /\ i < j /\ j < nvib /\ pair_test freq i j = true /\
                ~ In i ts /\ ~ In j ts.
  Proof.
    unfold pairs_of. rewrite in_collect_range. split.
    - intros (i & Hi & Hin). apply in_collect_range in Hin as (j & Hj & Hin).
      destruct (pair_test freq i j && negb (contains ts i) && negb (contains ts j)) eqn:E;
        [|destruct Hin].
      destruct Hin as [<-|[]]. rewrite !andb_true_iff, !negb_true_iff in E.
      destruct E as [[E1 E2] E3]. apply contains_notin in E2, E3.
      exists i, j. repeat split; auto; lia.
    - intros (i & j & -> & H1 & H2 & E1 & E2 & E3). exists i. split; [lia|].
      apply in_collect_range. exists j. split; [lia|].
      apply contains_notin in E2, E3. rewrite E1, E2, E3. now left.
  Qed.

  Lemma triples_of_nodup nvib (freq : nat -> F) : NoDup (triples_of nvib freq).
  Proof.
    unfold triples_of, collect.
    apply NoDup_flat_map; [apply range_nodup| |].
    - intros i _. apply NoDup_flat_map; [apply range_nodup| |].
      + intros j _. apply NoDup_flat_map; [apply range_nodup| |].
        * intros k _. destruct (triple_test freq i j k); repeat constructor; intros [].
        * intros x y z _ _ Hx Hy.
          destruct (triple_test freq i j x); [|destruct Hx].
          destruct (triple_test freq i j y); [|destruct Hy].
          destruct Hx as [<-|[]], Hy as [He|[]]. congruence.
      + intros x y z _ _ Hx Hy.
        apply in_flat_map in Hx as (k & _ & Hx). apply in_flat_map in Hy as (k' & _ & Hy).
        destruct (triple_test freq i x k); [|destruct Hx].
        destruct (triple_test freq i y k'); [|destruct Hy].
        destruct Hx as [<-|[]], Hy as [He|[]]. congruence.
    - intros x y z _ _ Hx Hy.
      apply in_flat_map in Hx as (j & _ & Hx). apply in_flat_map in Hy as (j' & _ & Hy).
      apply in_flat_map in Hx as (k & _ & Hx). apply in_flat_map in Hy as (k' & _ & Hy).
      destruct (triple_test freq x j k); [|destruct Hx].
      destruct (triple_test freq y j' k'); [|destruct Hy].
      destruct Hx as [<-|[]], Hy as [He|[]]. congruence.
  Qed.

  Lemma pairs_of_nodup nvib (freq : nat -> F) ts : NoDup (pairs_of nvib freq ts).
  Proof.
    unfold pairs_of, collect.
    apply NoDup_flat_map; [apply range_nodup| |].
    - intros i _. apply NoDup_flat_map; [apply range_nodup| |].
      + intros j _. destruct (_ && _); repeat constructor; intros [].
      + intros x y z _ _ Hx Hy.
        destruct (_ && _) in Hx; [|destruct Hx]. destruct (_ && _) in Hy; [|destruct Hy].
        destruct Hx as [<-|[]], Hy as [He|[]]. congruence.
    - intros x y z _ _ Hx Hy.
      apply in_flat_map in Hx as (j & _ & Hx). apply in_flat_map in Hy as (j' & _ & Hy).
      destruct (_ && _) in Hx; [|destruct Hx]. destruct (_ && _) in Hy; [|destruct Hy].
      destruct Hx as [<-|[]], Hy as [He|[]]. congruence.
  Qed.

  Lemma triple_test_pairs (freq : nat -> F) i j k :
    triple_test freq i j k = true ->
    pair_test freq i j = true /\ pair_test freq i k = true.
  Proof.
    unfold triple_test, pair_test. rewrite !andb_true_iff. tauto.
  Qed.
  Lemma pairs_triple_test (freq : nat -> F) i j k :
    pair_test freq i j = true -> pair_test freq i k = true ->
    triple_test freq i j k = true.
  Proof.
    unfold triple_test, pair_test. rewrite !andb_true_iff. tauto.
  Qed.

  (** what holds for every frequency vector: nothing is missing, indices are in
      range, entries of different kinds never share a mode, single entries occur
      once *)
  Lemma deg_modes_cover_lemma r nvib (freq : nat -> F) :
    is_sym_top r = Some true ->
    exists modes, deg_modes r nvib freq = Some modes /\ NoDup modes /\
      (forall i, i < nvib <-> exists m, In m modes /\ In i (members m)) /\
      (forall i m m', In m modes -> In m' modes -> In i (members m) -> In i (members m') ->
         length (members m) = length (members m')).
  Proof.
    intros Hr. destruct (deg_modes_sym_eq r nvib freq Hr)
      as (T & P & S & E & HT & (ts & HP & Hts) & HS).
    exists (T ++ P ++ S). split; [exact E|].
    assert (forall m, In m S <-> exists i, m = I1 i /\ i < nvib /\
              ~ In i (flat_map members T) /\ ~ In i (flat_map members P)) as InS.
    { intros m. rewrite HS, in_map_iff. split.
      - intros (i & <- & Hi). apply filter_In in Hi as [Hi Hc].
        rewrite andb_true_iff, !negb_true_iff, !contains_notin in Hc.
        apply in_seq in Hi. exists i. repeat split; try tauto; lia.
      - intros (i & -> & Hi & H1 & H2). exists i. split; [reflexivity|].
        apply filter_In. rewrite in_seq, andb_true_iff, !negb_true_iff, !contains_notin.
        repeat split; auto; lia. }
    assert (forall m, In m T -> exists i j k, m = I3 i j k /\ i < j /\ j < k /\ k < nvib) as InT.
    { intros m Hm. rewrite HT in Hm. apply in_triples_of in Hm as (i & j & k & H1 & H2 & H3 & H4 & _).
      exists i, j, k. auto. }
    assert (forall m, In m P -> exists i j, m = I2 i j /\ i < j /\ j < nvib /\
              ~ In i (flat_map members T) /\ ~ In j (flat_map members T)) as InP.
    { intros m Hm. rewrite HP in Hm.
      apply in_pairs_of in Hm as (i & j & H1 & H2 & H3 & _ & H4 & H5).
      exists i, j. rewrite <- !Hts. auto 6. }
    split; [|split].
    - apply NoDup_app_intro; [rewrite HT; apply triples_of_nodup| |].
      + apply NoDup_app_intro; [rewrite HP; apply pairs_of_nodup| |].
        * rewrite HS. apply NoDup_map_inj; [apply NoDup_filter, seq_NoDup|congruence].
        * intros x H1 H2. apply InP in H1 as (? & ? & -> & _).
          apply InS in H2 as (? & ? & _). discriminate.
      + intros x H1 H2. apply InT in H1 as (? & ? & ? & -> & _).
        apply in_app_iff in H2 as [H2|H2].
        * apply InP in H2 as (? & ? & ? & _). discriminate.
        * apply InS in H2 as (? & ? & _). discriminate.
    - intros i. split.
      + intros Hi.
        destruct (in_dec Nat.eq_dec i (flat_map members T)) as [H1|H1].
        { apply in_flat_map in H1 as (m & Hm & Him). exists m. rewrite in_app_iff. auto. }
        destruct (in_dec Nat.eq_dec i (flat_map members P)) as [H2|H2].
        { apply in_flat_map in H2 as (m & Hm & Him). exists m. rewrite !in_app_iff. auto. }
        exists (I1 i). rewrite !in_app_iff. cbn. split; [|auto].
        right; right. apply InS. exists i. auto.
      + intros (m & Hm & Him). rewrite !in_app_iff in Hm. destruct Hm as [Hm|[Hm|Hm]].
        * apply InT in Hm as (a & b & c & -> & ? & ? & ?). cbn in Him. lia.
        * apply InP in Hm as (a & b & -> & ? & ? & _). cbn in Him. lia.
        * apply InS in Hm as (a & -> & ? & _). cbn in Him. lia.
    - assert (forall i m m', In m (T ++ P ++ S) -> In m' (T ++ P ++ S) ->
         In i (members m) -> In i (members m') ->
         (In m T -> In m' T) /\ (In m P -> In m' T \/ In m' P)) as Hx.
      { intros i m m' Hm Hm' Hi Hi'. rewrite !in_app_iff in Hm'.
        split; intros Hk; destruct Hm' as [Hm'|[Hm'|Hm']]; auto; exfalso.
        - apply InP in Hm' as (a & b & -> & _ & _ & Ha & Hb).
          assert (In i (flat_map members T)) by (apply in_flat_map; eauto).
          cbn in Hi'. destruct Hi' as [<-|[<-|[]]]; contradiction.
        - apply InS in Hm' as (a & -> & _ & Ha & Hb).
          assert (In i (flat_map members T)) by (apply in_flat_map; eauto).
          cbn in Hi'. destruct Hi' as [<-|[]]; contradiction.
        - apply InS in Hm' as (a & -> & _ & Ha & Hb).
          assert (In i (flat_map members P)) by (apply in_flat_map; eauto).
          cbn in Hi'. destruct Hi' as [<-|[]]; contradiction. }
      assert (forall m, In m T -> length (members m) = 3) as L3
        by (intros m Hm; apply InT in Hm as (? & ? & ? & -> & _); reflexivity).
      assert (forall m, In m P -> length (members m) = 2) as L2
        by (intros m Hm; apply InP in Hm as (? & ? & -> & _); reflexivity).
      assert (forall m, In m S -> length (members m) = 1) as L1
        by (intros m Hm; apply InS in Hm as (? & -> & _); reflexivity).
      intros i m m' Hm Hm' Hi Hi'.
      destruct (Hx i m m' Hm Hm' Hi Hi') as [A1 A2].
      destruct (Hx i m' m Hm' Hm Hi' Hi) as [B1 B2].
      pose proof Hm as Hm0. pose proof Hm' as Hm0'.
      rewrite !in_app_iff in Hm0, Hm0'.
      destruct Hm0 as [K|[K|K]], Hm0' as [K'|[K'|K']];
        try (rewrite (L3 _ K), (L3 _ K'); reflexivity);
        try (rewrite (L2 _ K), (L2 _ K'); reflexivity);
        try (rewrite (L1 _ K), (L1 _ K'); reflexivity).
      + specialize (A1 K). rewrite (L3 _ K), (L3 _ A1). reflexivity.
      + specialize (A1 K). rewrite (L3 _ K), (L3 _ A1). reflexivity.
      + specialize (B1 K'). rewrite (L3 _ K'), (L3 _ B1). reflexivity.
      + destruct (A2 K) as [A|A].
        * specialize (B1 A). rewrite (L3 _ A), (L3 _ B1). reflexivity.
        * rewrite (L2 _ K), (L2 _ A). reflexivity.
      + specialize (B1 K'). rewrite (L3 _ K'), (L3 _ B1). reflexivity.
      + destruct (B2 K') as [B|B].
        * specialize (A1 B). rewrite (L3 _ B), (L3 _ A1). reflexivity.
        * rewrite (L2 _ K'), (L2 _ B). reflexivity.
  Qed.

  (** the partition property, when near-degeneracy is transitive and no four modes
      are mutually near-degenerate *)
  Lemma deg_modes_partition_lemma r nvib (freq : nat -> F) :
    is_sym_top r = Some true ->
    (forall i j k, i < j -> j < k -> k < nvib ->
       (pair_test freq i j = true -> pair_test freq i k = true -> pair_test freq j k = true) /\
       (pair_test freq i j = true -> pair_test freq j k = true -> pair_test freq i k = true) /\
       (pair_test freq i k = true -> pair_test freq j k = true -> pair_test freq i j = true)) ->
    (forall i j k l, i < j -> j < k -> k < l -> l < nvib ->
       pair_test freq i j = true -> pair_test freq i k = true ->
       pair_test freq i l = true -> False) ->
    exists modes, deg_modes r nvib freq = Some modes /\
      Permutation (flat_map members modes) (seq 0 nvib).
  Proof.
    intros Hr Htr H4.
    destruct (deg_modes_sym_eq r nvib freq Hr)
      as (T & P & S & E & HT & (ts & HP & Hts) & HS).
    destruct (deg_modes_cover_lemma r nvib freq Hr) as (modes & E' & Hnd & Hcov & Hlen).
    rewrite E in E'. injection E' as <-.
    exists (T ++ P ++ S). split; [exact E|].
    (* relation symmetric on unordered pairs *)
    set (rel := fun a b => (a < b /\ pair_test freq a b = true) \/
                           (b < a /\ pair_test freq b a = true)).
    assert (rel_sym : forall a b, rel a b -> rel b a) by (unfold rel; tauto).
    assert (rel_tr : forall a b c, a < nvib -> b < nvib -> c < nvib -> a <> c ->
              rel a b -> rel b c -> rel a c).
    { unfold rel. intros a b c Ha Hb Hc Hac [[L1 R1]|[L1 R1]] [[L2 R2]|[L2 R2]].
      - left. split; [lia|]. now apply (proj1 (proj2 (Htr a b c L1 L2 Hc))).
      - destruct (Nat.lt_ge_cases a c).
        + left. split; [lia|]. now apply (proj2 (proj2 (Htr a c b H0 L2 Hb))).
        + right. split; [lia|]. assert (c < a) as Hca by lia.
          now apply (proj2 (proj2 (Htr c a b Hca L1 Hb))).
      - destruct (Nat.lt_ge_cases a c).
        + left. split; [lia|]. now apply (proj1 (Htr b a c L1 H0 Hc)).
        + right. split; [lia|]. assert (c < a) as Hca by lia.
          now apply (proj1 (Htr b c a L2 Hca Ha)).
      - right. split; [lia|]. now apply (proj1 (proj2 (Htr c b a L2 L1 Ha))). }
    assert (no4 : forall a b c d, a < nvib -> b < nvib -> c < nvib -> d < nvib ->
              NoDup [a; b; c; d] -> rel a b -> rel a c -> rel a d -> False).
    { assert (sorted4 : forall a b c d, a < b -> b < c -> c < d -> d < nvib ->
                rel a b -> rel a c -> rel a d -> False).
      { intros a b c d L1 L2 L3 Hd R1 R2 R3. apply (H4 a b c d); auto;
          [destruct R1|destruct R2|destruct R3]; lia || tauto. }
      (* b, c, d are pairwise related *)
      assert (key : forall a b c d, a < nvib -> b < nvib -> c < nvib -> d < nvib ->
         NoDup [a; b; c; d] -> rel a b -> rel a c -> rel a d ->
         forall w x y z, Permutation [w; x; y; z] [a; b; c; d] ->
         rel w x /\ rel w y /\ rel w z).
      { intros a b c d Ha Hb Hc Hd Hn R1 R2 R3 w x y z Hp.
        assert (forall u, In u [a; b; c; d] -> u < nvib) as Hlt
          by (cbn; intros u [<-|[<-|[<-|[<-|[]]]]]; auto).
        assert (forall u, In u [a; b; c; d] -> u = a \/ rel a u) as Ha'
          by (cbn; intros u [<-|[<-|[<-|[<-|[]]]]]; auto).
        assert (forall u v, In u [a; b; c; d] -> In v [a; b; c; d] -> u <> v -> rel u v) as Huv.
        { intros u v Hu Hv Hne. destruct (Ha' u Hu) as [->|Ru], (Ha' v Hv) as [->|Rv];
            auto; [congruence|]. apply (rel_tr u a v); auto. }
        assert (NoDup [w; x; y; z]) as Hn' by (eapply Permutation_NoDup; [symmetry; exact Hp|exact Hn]).
        assert (forall u, In u [w; x; y; z] -> In u [a; b; c; d]) as Hin
          by (intros u Hu; rewrite <- Hp; exact Hu).
        inversion Hn' as [|? ? N1 _]; subst. cbn in N1.
        repeat split; apply Huv; try (apply Hin; cbn; tauto); intros ->; tauto. }
      intros a b c d Ha Hb Hc Hd Hn R1 R2 R3.
      pose proof (sort_indices_sorted [a; b; c; d]) as Hs.
      pose proof (sort_indices_perm [a; b; c; d]) as Hp.
      pose proof (Permutation_length Hp) as Hl.
      destruct (sort_indices [a; b; c; d]) as [|w [|x [|y [|z [|]]]]]; try discriminate.
      destruct (key a b c d Ha Hb Hc Hd Hn R1 R2 R3 w x y z) as (Q1 & Q2 & Q3);
        [symmetry; exact Hp|].
      assert (NoDup [w; x; y; z]) as Hn' by (eapply Permutation_NoDup; [exact Hp|exact Hn]).
      assert (w < x /\ x < y /\ y < z) as (O1 & O2 & O3).
      { inversion Hs as [|? ? S1 F1]; subst. inversion S1 as [|? ? S2 F2]; subst.
        inversion S2 as [|? ? S3 F3]; subst.
        inversion F1; inversion F2; inversion F3; subst.
        inversion Hn' as [|? ? N1 Hn1]; subst. inversion Hn1 as [|? ? N2 Hn2]; subst.
        inversion Hn2 as [|? ? N3 Hn3]; subst. cbn in N1, N2, N3. lia. }
      apply (sorted4 w x y z); auto.
      assert (In z [a; b; c; d]) as Hz by (rewrite Hp; cbn; auto).
      cbn in Hz. destruct Hz as [<-|[<-|[<-|[<-|[]]]]]; auto. }
    (* members of one entry are pairwise related and in range *)
    assert (ent : forall m, In m (T ++ P ++ S) -> NoDup (members m) /\
              (forall u, In u (members m) -> u < nvib) /\
              (forall u v, In u (members m) -> In v (members m) -> u <> v -> rel u v)).
    { intros m Hm. rewrite !in_app_iff in Hm. destruct Hm as [Hm|[Hm|Hm]].
      - rewrite HT in Hm. apply in_triples_of in Hm as (i & j & k & -> & L1 & L2 & L3 & Ht).
        apply triple_test_pairs in Ht as [R1 R2].
        pose proof (proj1 (Htr i j k L1 L2 L3) R1 R2) as R3.
        cbn [members]. split; [repeat constructor; cbn; lia|]. split; [cbn; lia|].
        unfold rel. cbn. intros u v [<-|[<-|[<-|[]]]] [<-|[<-|[<-|[]]]] Hne;
          try congruence; try (left; split; [lia|assumption]);
          right; split; [lia|assumption|lia|assumption|lia|assumption].
      - rewrite HP in Hm. apply in_pairs_of in Hm as (i & j & -> & L1 & L2 & R1 & _).
        cbn [members]. split; [repeat constructor; cbn; lia|]. split; [cbn; lia|].
        unfold rel. cbn. intros u v [<-|[<-|[]]] [<-|[<-|[]]] Hne; try congruence.
        + left; split; [lia|assumption].
        + right; split; [lia|assumption].
      - rewrite HS in Hm. apply in_map_iff in Hm as (i & <- & Hi).
        apply filter_In in Hi as [Hi _]. apply in_seq in Hi.
        cbn [members]. split; [repeat constructor; cbn; lia|]. split; [cbn; lia|].
        cbn. intros u v [<-|[]] [<-|[]]; congruence. }
    (* two entries sharing a mode are equal *)
    assert (uniq : forall m m' z, In m (T ++ P ++ S) -> In m' (T ++ P ++ S) ->
              In z (members m) -> In z (members m') -> m = m').
    { intros m m' z Hm Hm' Hz Hz'.
      pose proof (Hlen z m m' Hm Hm' Hz Hz') as HL.
      destruct (ent m Hm) as (N1 & B1 & R1). destruct (ent m' Hm') as (N2 & B2 & R2).
      (* the members of m' are members of m *)
      assert (sub : length (members m) <> 1 -> forall u, In u (members m') -> In u (members m)).
      { intros Hl1 u Hu. destruct (in_dec Nat.eq_dec u (members m)) as [Hi|Hni]; [exact Hi|].
        exfalso. destruct (Nat.eq_dec u z) as [->|Huz]; [contradiction|].
        pose proof (B2 u Hu) as Bu. pose proof (B1 z Hz) as Bz.
        assert (rel z u) as Rzu by (apply R2; auto).
        destruct m as [i|i j|i j k]; cbn [members length] in *; [lia| |].
        - (* a pair plus a third related mode would have been a triple *)
          destruct m' as [|i' j'|]; cbn [members length] in HL; try lia.
          assert (exists t, In t [i; j] /\ t <> z) as (t & Ht & Htz).
          { destruct (Nat.eq_dec i z) as [->|]; [|exists i; cbn; auto].
            exists j. cbn. split; [auto|]. inversion N1; subst. cbn in *. intros ->. tauto. }
          assert (rel z t) as Rzt by (apply R1; auto).
          assert (t < nvib) as Bt by (apply B1; auto).
          assert (t <> u) as Htu by (intros ->; contradiction).
          assert (rel t u) as Rtu by (apply (rel_tr t z u); auto).
          assert (In z (flat_map members T)) as HzT.
          { rewrite HT. apply in_flat_map.
            (* sort z t u *)
            assert (forall a b c, a < b -> b < c -> c < nvib -> rel a b -> rel a c ->
                      In (I3 a b c) (triples_of nvib freq)) as mk.
            { intros a b c L1 L2 L3 Q1 Q2. apply in_triples_of. exists a, b, c.
              repeat split; auto. apply pairs_triple_test; [destruct Q1|destruct Q2]; lia || tauto. }
            destruct (Nat.lt_ge_cases z t), (Nat.lt_ge_cases t u), (Nat.lt_ge_cases z u);
              try lia.
            - exists (I3 z t u). cbn. split; [apply mk|]; auto.
            - exists (I3 z u t). cbn. split; [apply mk|]; auto; lia.
            - exists (I3 u z t). cbn. split; [apply mk|]; auto; lia.
            - exists (I3 t z u). cbn. split; [apply mk|]; auto; lia.
            - exists (I3 t u z). cbn. split; [apply mk|]; auto; lia.
            - exists (I3 u t z). cbn. split; [apply mk|]; auto; lia. }
          apply in_flat_map in HzT as (m3 & Hm3 & Hz3).
          assert (length (members m3) = 2) as HL3.
          { rewrite <- (Hlen z (I2 i j) m3); auto. rewrite in_app_iff. auto. }
          rewrite HT in Hm3. apply in_triples_of in Hm3 as (? & ? & ? & -> & _). discriminate.
        - (* a triple plus a fourth related mode is excluded *)
          apply (no4 z u (if Nat.eq_dec i z then j else i) (if Nat.eq_dec k z then j else k)).
          + exact Bz.
          + exact Bu.
          + apply (B1 (if Nat.eq_dec i z then j else i)). destruct Nat.eq_dec; cbn; auto.
          + apply (B1 (if Nat.eq_dec k z then j else k)). destruct Nat.eq_dec; cbn; auto.
          + inversion N1 as [|? ? M1 N1']; subst. inversion N1' as [|? ? M2 N1'']; subst.
            cbn in M1, M2, Hz, Hni.
            destruct (Nat.eq_dec i z), (Nat.eq_dec k z); subst;
              repeat constructor; cbn; intuition (subst; try tauto; try congruence; try lia).
          + exact Rzu.
          + inversion N1 as [|? ? M1 N1']; subst. cbn in M1.
            apply R1; auto; destruct Nat.eq_dec; subst; cbn; auto; intros ->; tauto.
          + inversion N1 as [|? ? M1 N1']; subst. inversion N1' as [|? ? M2 N1'']; subst.
            cbn in M1, M2.
            apply R1; auto; destruct Nat.eq_dec; subst; cbn; auto; intros ->; tauto. }
      rewrite !in_app_iff in Hm, Hm'.
      destruct m as [i|i j|i j k], m' as [i'|i' j'|i' j' k']; cbn [members length] in *; try lia.
      - cbn in Hz, Hz'. f_equal. lia.
      - assert (Hs := sub ltac:(lia)).
        assert (i < j) by (destruct Hm as [Hm|[Hm|Hm]];
          [rewrite HT in Hm; apply in_triples_of in Hm as (? & ? & ? & ? & _); discriminate
          |rewrite HP in Hm; apply in_pairs_of in Hm as (? & ? & He & ? & _); injection He as -> ->; auto
          |rewrite HS in Hm; apply in_map_iff in Hm as (? & ? & _); discriminate]).
        assert (i' < j') by (destruct Hm' as [Hm'|[Hm'|Hm']];
          [rewrite HT in Hm'; apply in_triples_of in Hm' as (? & ? & ? & ? & _); discriminate
          |rewrite HP in Hm'; apply in_pairs_of in Hm' as (? & ? & He & ? & _); injection He as -> ->; auto
          |rewrite HS in Hm'; apply in_map_iff in Hm' as (? & ? & _); discriminate]).
        pose proof (Hs i' ltac:(cbn; auto)). pose proof (Hs j' ltac:(cbn; auto)).
        cbn in *. f_equal; lia.
      - assert (Hs := sub ltac:(lia)).
        assert (i < j /\ j < k) by (destruct Hm as [Hm|[Hm|Hm]];
          [rewrite HT in Hm; apply in_triples_of in Hm as (? & ? & ? & He & ? & ? & _); injection He as -> -> ->; auto
          |rewrite HP in Hm; apply in_pairs_of in Hm as (? & ? & He & ? & _); discriminate
          |rewrite HS in Hm; apply in_map_iff in Hm as (? & ? & _); discriminate]).
        assert (i' < j' /\ j' < k') by (destruct Hm' as [Hm'|[Hm'|Hm']];
          [rewrite HT in Hm'; apply in_triples_of in Hm' as (? & ? & ? & He & ? & ? & _); injection He as -> -> ->; auto
          |rewrite HP in Hm'; apply in_pairs_of in Hm' as (? & ? & He & ? & _); discriminate
          |rewrite HS in Hm'; apply in_map_iff in Hm' as (? & ? & _); discriminate]).
        pose proof (Hs i' ltac:(cbn; auto)). pose proof (Hs j' ltac:(cbn; auto)).
        pose proof (Hs k' ltac:(cbn; auto)).
        cbn in *. f_equal; lia. }
    apply NoDup_Permutation.
    - apply NoDup_flat_map; [exact Hnd|intros x Hx; apply ent, Hx|].
      intros x y z Hx Hy. apply uniq; auto.
    - apply seq_NoDup.
    - intros x. rewrite in_seq, in_flat_map. rewrite <- (Hcov x). lia.
  Qed.

  (** two modes at one level, both away from zero; tolerance 0.1 *)
  Definition same_level (freq : nat -> F) (i j : nat) : Prop :=
    nltb (nabs (nsub (freq i) (freq j))) (nlit 1 10) = true /\
    nltb (nlit 1 10) (nabs (freq i)) = true /\ nltb (nlit 1 10) (nabs (freq j)) = true.

  Lemma same_level_test freq i j : pair_test freq i j = true <-> same_level freq i j.
  Proof.
    unfold pair_test, same_level, close, ngtb, deg_tol.
    rewrite !andb_true_iff. tauto.
  Qed.

  Lemma deg_modes_partition_lemma' r nvib (freq : nat -> F) :
    is_sym_top r = Some true ->
    (forall i j k, i < j -> j < k -> k < nvib ->
       (same_level freq i j -> same_level freq i k -> same_level freq j k) /\
       (same_level freq i j -> same_level freq j k -> same_level freq i k) /\
       (same_level freq i k -> same_level freq j k -> same_level freq i j)) ->
    (forall i j k l, i < j -> j < k -> k < l -> l < nvib ->
       same_level freq i j -> same_level freq i k -> same_level freq i l -> False) ->
    exists modes, deg_modes r nvib freq = Some modes /\
      Permutation (flat_map members modes) (seq 0 nvib).
  Proof.
    intros Hr H1 H2. apply deg_modes_partition_lemma; [exact Hr| |].
    - intros i j k. rewrite !same_level_test. apply H1.
    - intros i j k l. rewrite !same_level_test. apply H2.
  Qed.

  (** the exact content of the list *)
  Lemma deg_modes_content_lemma r nvib (freq : nat -> F) :
    is_sym_top r = Some true ->
    exists modes, deg_modes r nvib freq = Some modes /\
      (forall i j k, In (I3 i j k) modes <->
         i < j /\ j < k /\ k < nvib /\ same_level freq i j /\ same_level freq i k) /\
      (forall i j, In (I2 i j) modes <->
         i < j /\ j < nvib /\ same_level freq i j /\
         forall x y z, In (I3 x y z) modes -> ~ In i [x; y; z] /\ ~ In j [x; y; z]) /\
      (forall i, In (I1 i) modes <->
         i < nvib /\ (forall x y z, In (I3 x y z) modes -> ~ In i [x; y; z]) /\
         (forall x y, In (I2 x y) modes -> ~ In i [x; y])).
  Proof.
    intros Hr. destruct (deg_modes_sym_eq r nvib freq Hr)
      as (T & P & S & E & HT & (ts & HP & Hts) & HS).
    exists (T ++ P ++ S). split; [exact E|].
    assert (InT : forall m, In m T <-> exists i j k, m = I3 i j k /\ i < j /\ j < k /\ k < nvib
              /\ same_level freq i j /\ same_level freq i k).
    { intros m. rewrite HT, in_triples_of. split.
      - intros (i & j & k & -> & H1 & H2 & H3 & Ht). apply triple_test_pairs in Ht.
        rewrite !same_level_test in Ht. exists i, j, k. tauto.
      - intros (i & j & k & -> & H1 & H2 & H3 & Ht1 & Ht2). exists i, j, k.
        rewrite <- same_level_test in Ht1, Ht2.
        repeat split; auto. now apply pairs_triple_test. }
    assert (Tin : forall x y z, In (I3 x y z) (T ++ P ++ S) <-> In (I3 x y z) T).
    { intros x y z. rewrite !in_app_iff. split; [|auto].
      intros [Hx|[Hx|Hx]]; [exact Hx| |].
      - rewrite HP in Hx. apply in_pairs_of in Hx as (? & ? & He & _). discriminate.
      - rewrite HS in Hx. apply in_map_iff in Hx as (? & He & _). discriminate. }
    assert (Pin : forall x y, In (I2 x y) (T ++ P ++ S) <-> In (I2 x y) P).
    { intros x y. rewrite !in_app_iff. split; [|auto].
      intros [Hx|[Hx|Hx]]; [|exact Hx|].
      - apply InT in Hx as (? & ? & ? & He & _). discriminate.
      - rewrite HS in Hx. apply in_map_iff in Hx as (? & He & _). discriminate. }
    assert (notT : forall i, ~ In i (flat_map members T) <->
              forall x y z, In (I3 x y z) (T ++ P ++ S) -> ~ In i [x; y; z]).
    { intros i. rewrite in_flat_map. split.
      - intros Hn x y z Hx Hi. apply Hn. exists (I3 x y z). split; [now apply Tin|exact Hi].
      - intros Hn (m & Hm & Hi). pose proof Hm as Hm'. apply InT in Hm' as (x & y & z & -> & _).
        apply (Hn x y z); [now apply Tin|exact Hi]. }
    split; [|split].
    - intros i j k. rewrite Tin, InT. split.
      + intros (? & ? & ? & He & Hx). injection He as -> -> ->. exact Hx.
      + intros Hx. exists i, j, k. auto.
    - intros i j. rewrite Pin. split.
      + intros Hin. rewrite HP in Hin.
        apply in_pairs_of in Hin as (? & ? & He & H1 & H2 & Ht & Hn1 & Hn2).
        injection He as <- <-. rewrite same_level_test in Ht.
        rewrite Hts, notT in Hn1. rewrite Hts, notT in Hn2.
        split; [exact H1|]. split; [exact H2|]. split; [exact Ht|].
        intros x y z Hx. split; [now apply Hn1|now apply Hn2].
      + intros (H1 & H2 & Ht & Hn). rewrite HP. apply in_pairs_of. exists i, j.
        rewrite same_level_test, !Hts, !notT.
        split; [reflexivity|]. split; [exact H1|]. split; [exact H2|]. split; [exact Ht|].
        split; intros x y z Hx; now apply (Hn x y z).
    - intros i. assert (In (I1 i) (T ++ P ++ S) <-> In (I1 i) S) as ->.
      { rewrite !in_app_iff. split; [|auto]. intros [Hx|[Hx|Hx]]; [| |exact Hx].
        - apply InT in Hx as (? & ? & ? & He & _). discriminate.
        - rewrite HP in Hx. apply in_pairs_of in Hx as (? & ? & He & _). discriminate. }
      assert (notP : ~ In i (flat_map members P) <->
              forall x y, In (I2 x y) (T ++ P ++ S) -> ~ In i [x; y]).
      { rewrite in_flat_map. split.
        - intros Hn x y Hx Hi. apply Hn. exists (I2 x y). split; [now apply Pin|exact Hi].
        - intros Hn (m & Hm & Hi). pose proof Hm as Hm'. rewrite HP in Hm'.
          apply in_pairs_of in Hm' as (x & y & -> & _).
          apply (Hn x y); [now apply Pin|exact Hi]. }
      split.
      + intros Hin. rewrite HS in Hin. apply in_map_iff in Hin as (a & He & Ha).
        injection He as ->. apply filter_In in Ha as [Ha Hc].
        rewrite andb_true_iff, !negb_true_iff, !contains_notin, notT, notP in Hc.
        apply in_seq in Ha. split; [lia|exact Hc].
      + intros (Hi & Hn1 & Hn2). rewrite HS. apply in_map_iff. exists i.
        split; [reflexivity|]. apply filter_In.
        rewrite in_seq, andb_true_iff, !negb_true_iff, !contains_notin, notT, notP.
        split; [lia|auto].
  Qed.
End DegModes.
