(** Lemmas about the vibrational state list and its look-up tables. *)
From Coq Require Import List ZArith Arith Lia Bool Permutation.
From Coq Require Import ZifyBool ZifyNat.
From Verif Require Import Num Loops Index Modes ListFacts IndexFacts LoadFacts ModesFacts.
Import ListNotations.

(** one iteration of any of the loops *)
Definition op : Type := table_id * state * list nat.
Definition op_kind (o : op) := fst (fst o).
Definition op_state (o : op) := snd (fst o).
Definition op_idxs (o : op) := snd o.

Definition tab (k : table_id) (t : tables) : list nat :=
  match k with Funda => t_funda t | Ovrtn => t_ovrtn t | Combn => t_combn t end.

Definition run_op (t : tables) (o : op) : option tables :=
  emit (op_kind o) (Some (op_state o)) (op_idxs o) t.

Lemma table_id_dec (a b : table_id) : {a = b} + {a <> b}.
Proof. decide equality. Qed.

Lemma write_all_ok l idxs x :
  (forall i, In i idxs -> i < length l) ->
  exists l', write_all l idxs x = Some l' /\ length l' = length l /\
    (forall i, In i idxs -> nth_error l' i = Some x) /\
    (forall i, ~ In i idxs -> nth_error l' i = nth_error l i).
Proof.
  unfold write_all. revert l. induction idxs as [|i idxs IH]; intros l Hin; cbn [ofold].
  - exists l. repeat split; auto. intros i [].
  - destruct (set_nth_some l i x (Hin i (or_introl eq_refl))) as (l1 & E1 & L1 & N1 & O1).
    rewrite E1.
    destruct (IH l1) as (l2 & E2 & L2 & N2 & O2).
    { intros y Hy. rewrite L1. apply Hin. now right. }
    exists l2. split; [exact E2|]. split; [congruence|]. split.
    + intros y Hy. destruct (in_dec Nat.eq_dec y idxs) as [Hi|Hi]; [now apply N2|].
      destruct Hy as [<-|Hy]; [|contradiction]. rewrite O2 by exact Hi. exact N1.
    + intros y Hy. rewrite O2 by (intros Hi; apply Hy; now right).
      apply O1. intros ->. apply Hy. now left.
Qed.

Lemma run_op_ok t o :
  (forall i, In i (op_idxs o) -> i < length (tab (op_kind o) t)) ->
  exists t', run_op t o = Some t' /\
    t_states t' = t_states t ++ [op_state o] /\ t_ist t' = t_ist t + 1 /\
    (forall k, length (tab k t') = length (tab k t)) /\
    (forall i, In i (op_idxs o) -> nth_error (tab (op_kind o) t') i = Some (t_ist t)) /\
    (forall k i, (k <> op_kind o \/ ~ In i (op_idxs o)) ->
       nth_error (tab k t') i = nth_error (tab k t) i).
Proof.
  destruct o as [[k s] idxs]. unfold run_op. cbn [op_kind op_state op_idxs fst snd].
  intros Hin.
  destruct (write_all_ok (tab k t) idxs (t_ist t) Hin) as (l & E & L & N & O).
  destruct k; cbn [tab emit obind] in *; rewrite E; cbn [obind]; eexists;
    (split; [reflexivity|]); cbn [t_states t_ist tab t_funda t_ovrtn t_combn];
    (split; [reflexivity|]); (split; [reflexivity|]);
    (split; [intros []; cbn; auto|]); (split; [exact N|]);
    intros [] i [Hk|Hi]; try congruence; try reflexivity; now apply O.
Qed.

Lemma run_ops_ok ops t :
  (forall o, In o ops -> forall i, In i (op_idxs o) -> i < length (tab (op_kind o) t)) ->
  exists t', ofold run_op ops t = Some t' /\
    t_states t' = t_states t ++ map op_state ops /\ t_ist t' = t_ist t + length ops /\
    (forall k, length (tab k t') = length (tab k t)) /\
    (forall q o i, nth_error ops q = Some o -> In i (op_idxs o) ->
       (forall q' o', q < q' -> nth_error ops q' = Some o' ->
          op_kind o' = op_kind o -> ~ In i (op_idxs o')) ->
       nth_error (tab (op_kind o) t') i = Some (t_ist t + q)) /\
    (forall k i, (forall o, In o ops -> op_kind o = k -> ~ In i (op_idxs o)) ->
       nth_error (tab k t') i = nth_error (tab k t) i).
Proof.
  revert t. induction ops as [|o ops IH]; intros t Hin.
  - exists t. cbn. rewrite app_nil_r, Nat.add_0_r. repeat split; auto.
    intros [|q] o i Hq; discriminate.
  - destruct (run_op_ok t o (Hin o (or_introl eq_refl)))
      as (t1 & E1 & S1 & I1' & L1 & N1 & O1).
    cbn [ofold]. rewrite E1.
    destruct (IH t1) as (t2 & E2 & S2 & I2' & L2 & N2 & O2).
    { intros o' Ho' i Hi. rewrite L1. apply Hin; [now right|exact Hi]. }
    exists t2. split; [exact E2|]. split.
    { rewrite S2, S1, <- app_assoc. reflexivity. }
    split; [cbn; lia|]. split; [intros k; now rewrite L2, L1|]. split.
    + intros [|q] o' i Hq Hi Hlater.
      * injection Hq as <-. rewrite Nat.add_0_r. rewrite O2.
        -- apply N1, Hi.
        -- intros o' Ho' Hk. apply In_nth_error in Ho' as (q' & Hq').
           apply (Hlater (S q') o'); [lia|exact Hq'|exact Hk].
      * cbn in Hq. rewrite (N2 q o' i Hq Hi); [f_equal; lia|].
        intros q' o'' Hlt Hq' Hk. apply (Hlater (S q') o''); [lia|exact Hq'|exact Hk].
    + intros k i Hno. rewrite O2 by (intros; apply Hno; [now right|assumption]).
      apply O1. destruct (table_id_dec k (op_kind o)) as [->|Hk]; [|now left].
      right. apply Hno; [now left|reflexivity].
Qed.

(** ** the iterations of [restst_tables] as one list *)
(** spec vectors *)
Definition unit1 (nvib i x : nat) : list nat :=
  map (fun a => if a =? i then x else 0) (seq 0 nvib).
Definition unit11 (nvib i j : nat) : list nat :=
  map (fun a => if (a =? i) || (a =? j) then 1 else 0) (seq 0 nvib).
Definition punit1 (nvib i : nat) (x : nat * nat) : list (nat * nat) :=
  map (fun a => if a =? i then x else (0, 0)) (seq 0 nvib).
Definition punit11 (nvib i j : nat) : list (nat * nat) :=
  map (fun a => if (a =? i) || (a =? j) then (1, 1) else (0, 0)) (seq 0 nvib).

Lemma list_ext {A} (l l' : list A) :
  length l = length l' ->
  (forall i, i < length l -> nth_error l i = nth_error l' i) -> l = l'.
Proof.
  revert l'. induction l as [|a l IH]; intros [|b l'] Hl He; try discriminate; [reflexivity|].
  pose proof (He 0 ltac:(cbn; lia)) as H0. cbn in H0. injection H0 as ->.
  f_equal. apply IH; [now injection Hl|]. intros i Hi. apply (He (S i)). cbn. lia.
Qed.

Lemma nth_error_map_seq {A} (f : nat -> A) n i :
  i < n -> nth_error (map f (seq 0 n)) i = Some (f i).
Proof. intros Hi. apply map_nth_error. now rewrite nth_error_seq. Qed.

Lemma nth_error_repeat {A} (x : A) n i : i < n -> nth_error (repeat x n) i = Some x.
Proof.
  revert i. induction n as [|n IH]; intros [|i] Hi; try lia; [reflexivity|]. cbn.
  apply IH. lia.
Qed.

Lemma set_nth_map_seq {A} (f : nat -> A) n i x :
  i < n ->
  set_nth (map f (seq 0 n)) i x = Some (map (fun a => if a =? i then x else f a) (seq 0 n)).
Proof.
  intros Hi.
  destruct (set_nth_some (map f (seq 0 n)) i x) as (l & E & L & N & O).
  { now rewrite map_length, seq_length. }
  rewrite E. f_equal. rewrite map_length, seq_length in L. apply list_ext.
  - now rewrite map_length, seq_length.
  - intros a Ha. rewrite L in Ha. rewrite nth_error_map_seq by exact Ha.
    destruct (a =? i) eqn:Ea.
    + apply Nat.eqb_eq in Ea. subst. exact N.
    + apply Nat.eqb_neq in Ea. rewrite O by exact Ea. now rewrite nth_error_map_seq.
Qed.

Lemma repeat_map_seq {A} (x : A) n : repeat x n = map (fun _ => x) (seq 0 n).
Proof.
  apply list_ext.
  - now rewrite repeat_length, map_length, seq_length.
  - intros i Hi. rewrite repeat_length in Hi.
    now rewrite nth_error_repeat, nth_error_map_seq.
Qed.

Lemma vec1_eq nvib i x : i < nvib -> vec1 nvib i x = Some (unit1 nvib i x).
Proof. intros Hi. unfold vec1. rewrite repeat_map_seq. now rewrite set_nth_map_seq. Qed.
Lemma pvec1_eq nvib i x : i < nvib -> pvec1 nvib i x = Some (punit1 nvib i x).
Proof. intros Hi. unfold pvec1. rewrite repeat_map_seq. now rewrite set_nth_map_seq. Qed.
Lemma vec11_eq nvib i j :
  i < nvib -> j < nvib -> vec11 nvib i j = Some (unit11 nvib i j).
Proof.
  intros Hi Hj. unfold vec11. rewrite vec1_eq by exact Hi. cbn [obind].
  unfold unit1. rewrite set_nth_map_seq by exact Hj. f_equal. apply map_ext. intros a.
  destruct (a =? i) eqn:E1, (a =? j) eqn:E2; reflexivity.
Qed.
Lemma pvec11_eq nvib i j :
  i < nvib -> j < nvib -> pvec11 nvib i j = Some (punit11 nvib i j).
Proof.
  intros Hi Hj. unfold pvec11. rewrite pvec1_eq by exact Hi. cbn [obind].
  unfold punit1. rewrite set_nth_map_seq by exact Hj. f_equal. apply map_ext. intros a.
  destruct (a =? i) eqn:E1, (a =? j) eqn:E2; reflexivity.
Qed.

Section Ops.
  Variables (nvib : nat) (modes : list mode).
  Let n1 := n1dm modes.
  Let n2 := n2dm modes.
  Let n3 := n3dm modes.

  Definition op_f1 ii : op := (Funda, I1st (unit1 nvib ii 1), [m1 modes ii]).
  Definition op_f2 ii : op :=
    (Funda, I2st (punit1 nvib ii (1, 1)), [fst (m2 modes ii); snd (m2 modes ii)]).
  Definition op_f3 ii : op :=
    (Funda, I3st (unit1 nvib ii 1),
     [fst (fst (m3 modes ii)); snd (fst (m3 modes ii)); snd (m3 modes ii)]).
  Definition op_o1 ii : op := (Ovrtn, I1st (unit1 nvib ii 2), [m1 modes ii]).
  Definition op_o2 ii : op :=
    (Ovrtn, I2st (punit1 nvib ii (2, 0)), [fst (m2 modes ii); snd (m2 modes ii)]).
  Definition op_c1 ii jj : op :=
    (Combn, I1st (unit11 nvib ii jj), [pair_index (m1 modes ii) (m1 modes jj)]).
  Definition op_c12 ii jj : op :=
    (Combn, I12st (unit1 nvib ii 1) (punit1 nvib jj (1, 1)),
     [pair_index (m1 modes ii) (fst (m2 modes jj));
      pair_index (m1 modes ii) (snd (m2 modes jj))]).
  Definition op_c2 ii jj : op :=
    (Combn, I2st (punit11 nvib ii jj),
     [pair_index (fst (m2 modes ii)) (fst (m2 modes jj));
      pair_index (fst (m2 modes ii)) (snd (m2 modes jj));
      pair_index (snd (m2 modes ii)) (fst (m2 modes jj));
      pair_index (snd (m2 modes ii)) (snd (m2 modes jj))]).

  Definition ops_comb : list op :=
    flat_map (fun ii => map (op_c1 ii) (range (ii + 1) n1) ++ map (op_c12 ii) (range 0 n2))
             (range 0 n1).
  Definition ops_deg : list op :=
    flat_map (fun ii => map (op_c2 ii) (range (ii + 1) n2)) (range 0 n2).
  Definition all_ops : list op :=
    map op_f1 (range 0 n1) ++ map op_f2 (range 0 n2) ++ map op_f3 (range 0 n3) ++
    map op_o1 (range 0 n1) ++ map op_o2 (range 0 n2) ++ ops_comb ++ ops_deg.

  Definition start (i2vib : nat) : tables :=
    mk_tables [I1st (repeat 0 nvib)] (repeat 0 nvib) (repeat 0 nvib) (repeat 0 i2vib) 1.

  Hypothesis H1 : n1 <= nvib.
  Hypothesis H2 : n2 <= nvib.
  Hypothesis H3 : n3 <= nvib.

  Lemma restst_tables_ops i2vib :
    restst_tables nvib i2vib modes = ofold run_op all_ops (start i2vib).
  Proof.
    unfold restst_tables, all_ops. fold n1 n2 n3. fold (start i2vib).
    generalize (start i2vib). intros t0.
    rewrite !ofold_app, !ofold_map.
    assert (bind_ext : forall (o o' : option tables) (f g : tables -> option tables),
      o = o' -> (forall t, f t = g t) -> obind o f = obind o' g).
    { intros o o' f g -> He. destruct o'; cbn; auto. }
    apply bind_ext.
    { apply ofold_ext. intros t ii Hi. apply in_range in Hi.
      rewrite vec1_eq by lia. reflexivity. }
    intros t. rewrite ofold_app, ofold_map. apply bind_ext.
    { apply ofold_ext. intros t' ii Hi. apply in_range in Hi.
      rewrite pvec1_eq by lia. cbn [option_map]. unfold run_op, op_f2, op_kind, op_state, op_idxs.
      cbn [fst snd]. destruct (m2 modes ii); reflexivity. }
    intros t1. rewrite ofold_app, ofold_map. apply bind_ext.
    { apply ofold_ext. intros t' ii Hi. apply in_range in Hi.
      rewrite vec1_eq by lia. cbn [option_map]. unfold run_op, op_f3, op_kind, op_state, op_idxs.
      cbn [fst snd]. destruct (m3 modes ii) as [[a b] c]; reflexivity. }
    intros t2. rewrite ofold_app, ofold_map. apply bind_ext.
    { apply ofold_ext. intros t' ii Hi. apply in_range in Hi.
      rewrite vec1_eq by lia. reflexivity. }
    intros t3. rewrite ofold_app, ofold_map. apply bind_ext.
    { apply ofold_ext. intros t' ii Hi. apply in_range in Hi.
      rewrite pvec1_eq by lia. cbn [option_map]. unfold run_op, op_o2, op_kind, op_state, op_idxs.
      cbn [fst snd]. destruct (m2 modes ii); reflexivity. }
    intros t4. rewrite ofold_app. apply bind_ext.
    { unfold ops_comb. rewrite ofold_flat_map. apply ofold_ext.
      intros t' ii Hi. apply in_range in Hi. rewrite ofold_app. apply bind_ext.
      - rewrite ofold_map. apply ofold_ext. intros t'' jj Hj. apply in_range in Hj.
        rewrite vec11_eq by lia. reflexivity.
      - intros t''. rewrite ofold_map. apply ofold_ext. intros u jj Hj. apply in_range in Hj.
        rewrite vec1_eq, pvec1_eq by lia. cbn [obind].
        unfold run_op, op_c12, op_kind, op_state, op_idxs.
        cbn [fst snd]. destruct (m2 modes jj); reflexivity. }
    intros t5. unfold ops_deg. rewrite ofold_flat_map. apply ofold_ext.
    intros t' ii Hi. apply in_range in Hi. rewrite ofold_map.
    destruct (m2 modes ii) as [i1 i2] eqn:Em.
    apply ofold_ext. intros u jj Hj. apply in_range in Hj.
    rewrite pvec11_eq by lia. cbn [option_map].
    unfold run_op, op_c2, op_kind, op_state, op_idxs.
    cbn [fst snd]. rewrite Em. destruct (m2 modes jj); reflexivity.
  Qed.
End Ops.

(** ** mode lists in which each mode occurs once *)
Lemma members_split modes :
  Permutation (flat_map members modes)
    (i1mode modes ++ flat_map (fun '(a, b) => [a; b]) (i2mode modes)
       ++ flat_map (fun '(a, b, c) => [a; b; c]) (i3mode modes)).
Proof.
  rewrite i1mode_eq, i2mode_eq, i3mode_eq.
  induction modes as [|m modes IH]; [constructor|].
  destruct m as [i|i j|i j k]; cbn [flat_map members get1 get2 get3 app].
  - constructor. exact IH.
  - transitivity (i :: j :: flat_map get1 modes ++
      flat_map (fun '(a, b) => [a; b]) (flat_map get2 modes) ++
      flat_map (fun '(a, b, c) => [a; b; c]) (flat_map get3 modes)).
    + do 2 constructor. exact IH.
    + change (i :: j :: ?l) with ([i; j] ++ l).
      rewrite !app_assoc. apply Permutation_app_tail. apply Permutation_app_tail.
      change (i :: j :: flat_map get1 modes) with ([i; j] ++ flat_map get1 modes).
      apply Permutation_app_comm.
  - transitivity ([i; j; k] ++ (flat_map get1 modes ++
      flat_map (fun '(a, b) => [a; b]) (flat_map get2 modes)) ++
      flat_map (fun '(a, b, c) => [a; b; c]) (flat_map get3 modes)).
    + cbn [app]. do 3 constructor. rewrite <- app_assoc. exact IH.
    + rewrite (app_assoc (flat_map get1 modes)).
      rewrite (app_assoc [i; j; k]).
      change (i :: j :: k :: ?l) with ([i; j; k] ++ l).
      rewrite (app_assoc _ [i; j; k]).
      apply Permutation_app_tail, Permutation_app_comm.
Qed.

Section Partition.
  Variables (nvib : nat) (modes : list mode).
  Hypothesis Hpart : Permutation (flat_map members modes) (seq 0 nvib).
  Let n1 := n1dm modes.
  Let n2 := n2dm modes.
  Let n3 := n3dm modes.

  Lemma part_nodup : NoDup (i1mode modes ++ flat_map (fun '(a, b) => [a; b]) (i2mode modes)
       ++ flat_map (fun '(a, b, c) => [a; b; c]) (i3mode modes)).
  Proof.
    eapply Permutation_NoDup; [apply members_split|].
    eapply Permutation_NoDup; [symmetry; exact Hpart|]. apply seq_NoDup.
  Qed.
  Lemma part_lt x : In x (i1mode modes ++ flat_map (fun '(a, b) => [a; b]) (i2mode modes)
       ++ flat_map (fun '(a, b, c) => [a; b; c]) (i3mode modes)) <-> x < nvib.
  Proof.
    rewrite <- members_split, Hpart, in_seq. lia.
  Qed.

  Lemma part_counts : n1 + 2 * n2 + 3 * n3 = nvib.
  Proof.
    pose proof (Permutation_length Hpart) as Hl. rewrite seq_length in Hl.
    rewrite (Permutation_length (members_split modes)) in Hl.
    rewrite !app_length in Hl. unfold n1, n2, n3.
    rewrite n1dm_eq, n2dm_eq, n3dm_eq.
    assert (forall l : list (nat * nat), length (flat_map (fun '(a, b) => [a; b]) l) = 2 * length l) as A2.
    { induction l as [|[a b] l IH]; [reflexivity|]. cbn [flat_map app length]. rewrite IH. lia. }
    assert (forall l : list (nat * nat * nat),
      length (flat_map (fun '(a, b, c) => [a; b; c]) l) = 3 * length l) as A3.
    { induction l as [|[[a b] c] l IH]; [reflexivity|]. cbn [flat_map app length]. rewrite IH. lia. }
    rewrite A2, A3 in Hl. lia.
  Qed.

  Lemma m1_nth ii : ii < n1 -> nth_error (i1mode modes) ii = Some (m1 modes ii).
  Proof. intros Hp. unfold m1. apply nth_error_nth'. now rewrite <- n1dm_eq. Qed.
  Lemma m2_nth ii : ii < n2 -> nth_error (i2mode modes) ii = Some (m2 modes ii).
  Proof. intros Hp. unfold m2. apply nth_error_nth'. now rewrite <- n2dm_eq. Qed.
  Lemma m3_nth ii : ii < n3 -> nth_error (i3mode modes) ii = Some (m3 modes ii).
  Proof. intros Hp. unfold m3. apply nth_error_nth'. now rewrite <- n3dm_eq. Qed.

  (** which entry a mode belongs to, as (kind, position) *)
  Definition owner (x : nat) (o : nat * nat) : Prop :=
    match fst o with
    | 1 => snd o < n1 /\ x = m1 modes (snd o)
    | 2 => snd o < n2 /\ (x = fst (m2 modes (snd o)) \/ x = snd (m2 modes (snd o)))
    | 3 => snd o < n3 /\ (x = fst (fst (m3 modes (snd o))) \/ x = snd (fst (m3 modes (snd o)))
                          \/ x = snd (m3 modes (snd o)))
    | _ => False
    end.

  Lemma NoDup_nth_eq {A} (l : list A) i j x :
    NoDup l -> nth_error l i = Some x -> nth_error l j = Some x -> i = j.
  Proof.
    intros Hd Hi Hj. apply (proj1 (NoDup_nth_error l) Hd); [|congruence].
    apply nth_error_Some. congruence.
  Qed.

  Lemma NoDup_flat_map_nth {A B} (f : A -> list B) l i j x y b :
    NoDup (flat_map f l) -> nth_error l i = Some x -> nth_error l j = Some y ->
    In b (f x) -> In b (f y) -> i = j.
  Proof.
    revert i j. induction l as [|a l IH]; intros i j Hd Hi Hj Hb Hb'.
    - destruct i; discriminate.
    - cbn in Hd. apply NoDup_app_inv in Hd as (_ & Hd & Hx).
      destruct i as [|i], j as [|j]; cbn in Hi, Hj.
      + reflexivity.
      + exfalso. injection Hi as ->. apply (Hx b Hb). apply in_flat_map.
        exists y. split; [eapply nth_error_In, Hj|exact Hb'].
      + exfalso. injection Hj as ->. apply (Hx b Hb'). apply in_flat_map.
        exists x. split; [eapply nth_error_In, Hi|exact Hb].
      + f_equal. now apply IH.
  Qed.

  Lemma owner_lt x o : owner x o -> x < nvib.
  Proof.
    intros Ho. apply part_lt. rewrite !in_app_iff.
    destruct o as [[|[|[|[|k]]]] p]; cbn in Ho; try contradiction.
    - destruct Ho as [Hp ->]. left. eapply nth_error_In, m1_nth, Hp.
    - destruct Ho as [Hp Hx]. right; left. apply in_flat_map. exists (m2 modes p).
      split; [eapply nth_error_In, m2_nth, Hp|]. destruct (m2 modes p); cbn in *.
      destruct Hx as [->| ->]; auto.
    - destruct Ho as [Hp Hx]. right; right. apply in_flat_map. exists (m3 modes p).
      split; [eapply nth_error_In, m3_nth, Hp|]. destruct (m3 modes p) as [[a b] c]; cbn in *.
      destruct Hx as [->|[->| ->]]; auto.
  Qed.

  Lemma owner_unique x o o' : owner x o -> owner x o' -> o = o'.
  Proof.
    pose proof part_nodup as Hd.
    apply NoDup_app_inv in Hd as (D1 & Hd & X1).
    apply NoDup_app_inv in Hd as (D2 & D3 & X2).
    assert (I1' : forall p, owner x (1, p) -> In x (i1mode modes)).
    { intros p [Hp ->]. cbn in *. eapply nth_error_In, m1_nth, Hp. }
    assert (I2' : forall p, owner x (2, p) ->
       In x (flat_map (fun '(a, b) => [a; b]) (i2mode modes)) /\
       In x ((fun '(a, b) => [a; b]) (m2 modes p))).
    { intros p [Hp Hx]. cbn in Hp, Hx.
      assert (In x ((fun '(a, b) => [a; b]) (m2 modes p))) as Hi
        by (destruct (m2 modes p); cbn in *; destruct Hx as [->| ->]; auto).
      split; [|exact Hi]. apply in_flat_map. exists (m2 modes p).
      split; [eapply nth_error_In, m2_nth, Hp|exact Hi]. }
    assert (I3' : forall p, owner x (3, p) ->
       In x (flat_map (fun '(a, b, c) => [a; b; c]) (i3mode modes)) /\
       In x ((fun '(a, b, c) => [a; b; c]) (m3 modes p))).
    { intros p [Hp Hx]. cbn in Hp, Hx.
      assert (In x ((fun '(a, b, c) => [a; b; c]) (m3 modes p))) as Hi
        by (destruct (m3 modes p) as [[a b] c]; cbn in *; destruct Hx as [->|[->| ->]]; auto).
      split; [|exact Hi]. apply in_flat_map. exists (m3 modes p).
      split; [eapply nth_error_In, m3_nth, Hp|exact Hi]. }
    destruct o as [[|[|[|[|k]]]] p]; intros Ho; try contradiction;
    destruct o' as [[|[|[|[|k']]]] p']; intros Ho'; try contradiction.
    - f_equal. destruct Ho as [Hp Hx], Ho' as [Hp' Hx']. cbn in *.
      eapply (NoDup_nth_eq _ p p' x D1); [rewrite Hx|rewrite Hx']; now apply m1_nth.
    - exfalso. apply (X1 x); [eauto|]. apply in_app_iff. left. now apply (I2' p').
    - exfalso. apply (X1 x); [eauto|]. apply in_app_iff. right. now apply (I3' p').
    - exfalso. apply (X1 x); [eauto|]. apply in_app_iff. left. now apply (I2' p).
    - f_equal. pose proof (I2' p Ho) as [_ Ha]. pose proof (I2' p' Ho') as [_ Hb].
      eapply (NoDup_flat_map_nth _ _ p p' _ _ x D2).
      + apply m2_nth. apply Ho.
      + apply m2_nth. apply Ho'.
      + exact Ha.
      + exact Hb.
    - exfalso. apply (X2 x); [now apply (I2' p)|now apply (I3' p')].
    - exfalso. apply (X1 x); [eauto|]. apply in_app_iff. right. now apply (I3' p).
    - exfalso. apply (X2 x); [now apply (I2' p')|now apply (I3' p)].
    - f_equal. pose proof (I3' p Ho) as [_ Ha]. pose proof (I3' p' Ho') as [_ Hb].
      eapply (NoDup_flat_map_nth _ _ p p' _ _ x D3).
      + apply m3_nth. apply Ho.
      + apply m3_nth. apply Ho'.
      + exact Ha.
      + exact Hb.
  Qed.

  (** what an iteration of a given kind writes, in terms of owners *)
  Inductive label :=
  | LF (o : nat * nat)
  | LO (o : nat * nat)
  | LC (o o' : nat * nat).

  Definition op_of (l : label) : op :=
    match l with
    | LF (1, p) => op_f1 nvib modes p
    | LF (2, p) => op_f2 nvib modes p
    | LF (_, p) => op_f3 nvib modes p
    | LO (1, p) => op_o1 nvib modes p
    | LO (_, p) => op_o2 nvib modes p
    | LC (1, p) (1, q) => op_c1 nvib modes p q
    | LC (1, p) (_, q) => op_c12 nvib modes p q
    | LC (_, p) (_, q) => op_c2 nvib modes p q
    end.

  Definition labels : list label :=
    map (fun p => LF (1, p)) (range 0 n1) ++ map (fun p => LF (2, p)) (range 0 n2) ++
    map (fun p => LF (3, p)) (range 0 n3) ++
    map (fun p => LO (1, p)) (range 0 n1) ++ map (fun p => LO (2, p)) (range 0 n2) ++
    flat_map (fun p => map (fun q => LC (1, p) (1, q)) (range (p + 1) n1) ++
                       map (fun q => LC (1, p) (2, q)) (range 0 n2)) (range 0 n1) ++
    flat_map (fun p => map (fun q => LC (2, p) (2, q)) (range (p + 1) n2)) (range 0 n2).

  Lemma all_ops_labels : all_ops nvib modes = map op_of labels.
  Proof.
    unfold all_ops, labels, ops_comb, ops_deg. rewrite !map_app, !map_map.
    assert (Hm : forall {A B C} (f : B -> C) (g : A -> list B) l,
            map f (flat_map g l) = flat_map (fun x => map f (g x)) l).
    { intros A B C f g l. induction l as [|x l IH]; [reflexivity|].
      cbn. now rewrite map_app, IH. }
    rewrite !Hm. do 5 (apply (f_equal2 (@app op)); [reflexivity|]).
    apply (f_equal2 (@app op)).
    - apply flat_map_ext. intros p. now rewrite map_app, !map_map.
    - apply flat_map_ext. intros p. now rewrite map_map.
  Qed.

  (** well-formed labels: exactly those in the list *)
  Definition wf (l : label) : Prop :=
    match l with
    | LF (1, p) | LO (1, p) => p < n1
    | LF (2, p) | LO (2, p) => p < n2
    | LF (3, p) => p < n3
    | LC (1, p) (1, q) => p < q /\ q < n1
    | LC (1, p) (2, q) => p < n1 /\ q < n2
    | LC (2, p) (2, q) => p < q /\ q < n2
    | _ => False
    end.

  Lemma in_labels l : In l labels <-> wf l.
  Proof.
    unfold labels. rewrite !in_app_iff, !in_map_iff, !in_flat_map. split.
    - intros Hl. repeat destruct Hl as [Hl|Hl];
        try (destruct Hl as (p & <- & Hp); apply in_range in Hp; cbn; lia).
      + destruct Hl as (p & Hp & Hl). apply in_range in Hp. apply in_app_iff in Hl as [Hl|Hl];
          apply in_map_iff in Hl as (q & <- & Hq); apply in_range in Hq; cbn; lia.
      + destruct Hl as (p & Hp & Hl). apply in_range in Hp.
        apply in_map_iff in Hl as (q & <- & Hq); apply in_range in Hq; cbn; lia.
    - destruct l as [[k p]|[k p]|[k p] [k' q]].
      + destruct k as [|[|[|[|k]]]]; cbn; try contradiction; intros Hp.
        * left. exists p. rewrite in_range. split; [reflexivity|lia].
        * right; left. exists p. rewrite in_range. split; [reflexivity|lia].
        * do 2 right; left. exists p. rewrite in_range. split; [reflexivity|lia].
      + destruct k as [|[|[|k]]]; cbn; try contradiction; intros Hp.
        * do 3 right; left. exists p. rewrite in_range. split; [reflexivity|lia].
        * do 4 right; left. exists p. rewrite in_range. split; [reflexivity|lia].
      + destruct k as [|[|[|k]]]; cbn; try contradiction;
          destruct k' as [|[|[|k']]]; cbn; try contradiction; intros Hp.
        * do 5 right; left. exists p. rewrite in_range. split; [lia|].
          apply in_app_iff. left. apply in_map_iff. exists q. rewrite in_range.
          split; [reflexivity|lia].
        * do 5 right; left. exists p. rewrite in_range. split; [lia|].
          apply in_app_iff. right. apply in_map_iff. exists q. rewrite in_range.
          split; [reflexivity|lia].
        * do 6 right. exists p. rewrite in_range. split; [lia|].
          apply in_map_iff. exists q. rewrite in_range. split; [reflexivity|lia].
  Qed.

  (** the indices written *)
  Lemma op_of_idxs l x :
    wf l -> In x (op_idxs (op_of l)) ->
    match l with
    | LF o | LO o => owner x o
    | LC o o' => exists a b, owner a o /\ owner b o' /\ x = pair_index a b
    end.
  Proof.
    destruct l as [[k p]|[k p]|[k p] [k' q]].
    - destruct k as [|[|[|[|k]]]]; cbn; try contradiction; intuition.
    - destruct k as [|[|[|k]]]; cbn; try contradiction; intuition.
    - destruct k as [|[|[|k]]]; cbn; try contradiction;
        destruct k' as [|[|[|k']]]; cbn; try contradiction; intros [Hp Hq] Hx;
        repeat destruct Hx as [Hx|Hx]; try contradiction; subst x;
        do 2 eexists; (split; [|split; [|reflexivity]]); unfold owner; cbn; intuition lia.
  Qed.

  Lemma op_of_kind l : wf l ->
    op_kind (op_of l) = match l with LF _ => Funda | LO _ => Ovrtn | LC _ _ => Combn end.
  Proof.
    destruct l as [[k p]|[k p]|[k p] [k' q]].
    - destruct k as [|[|[|[|k]]]]; cbn; try contradiction; reflexivity.
    - destruct k as [|[|[|k]]]; cbn; try contradiction; reflexivity.
    - destruct k as [|[|[|k]]]; cbn; try contradiction;
        destruct k' as [|[|[|k']]]; cbn; try contradiction; reflexivity.
  Qed.

  (** two iterations that write the same cell of the same table are the same *)
  Lemma op_of_disjoint l l' x :
    wf l -> wf l' -> op_kind (op_of l) = op_kind (op_of l') ->
    In x (op_idxs (op_of l)) -> In x (op_idxs (op_of l')) -> l = l'.
  Proof.
    intros W W' K Hx Hx'. rewrite !op_of_kind in K by assumption.
    apply op_of_idxs in Hx; [|exact W]. apply op_of_idxs in Hx'; [|exact W'].
    destruct l as [o|o|o1 o2], l' as [o'|o'|o1' o2']; try discriminate.
    - f_equal. eapply owner_unique; eassumption.
    - f_equal. eapply owner_unique; eassumption.
    - destruct Hx as (a & b & Ha & Hb & ->). destruct Hx' as (a' & b' & Ha' & Hb' & He).
      apply pair_index_inj in He as [[-> ->]|[-> ->]].
      + f_equal; eapply owner_unique; eassumption.
      + pose proof (owner_unique _ _ _ Ha Hb') as <-.
        pose proof (owner_unique _ _ _ Hb Ha') as <-. exfalso.
        destruct o1 as [[|[|[|k]]] p], o2 as [[|[|[|k']]] q]; cbn in W, W'; lia || contradiction.
  Qed.

  Lemma op_of_inj l l' : wf l -> wf l' -> op_of l = op_of l' -> l = l'.
  Proof.
    intros W W' E.
    assert (exists x, In x (op_idxs (op_of l))) as (x & Hx).
    { destruct l as [[k p]|[k p]|[k p] [k' q]].
      - destruct k as [|[|[|[|k]]]]; cbn; try contradiction; eexists; left; reflexivity.
      - destruct k as [|[|[|k]]]; cbn; try contradiction; eexists; left; reflexivity.
      - destruct k as [|[|[|k]]]; cbn in W; try contradiction;
        destruct k' as [|[|[|k']]]; cbn in W |- *; try contradiction; eexists; left; reflexivity. }
    apply (op_of_disjoint l l' x W W'); [congruence|exact Hx|congruence].
  Qed.

  Lemma labels_nodup : NoDup labels.
  Proof.
    unfold labels.
    assert (forall {A} (f : nat -> A) a b, (forall x y, f x = f y -> x = y) ->
              NoDup (map f (range a b))) as Hm.
    { intros A f a b Hf. apply NoDup_map_inj; [apply range_nodup|auto]. }
    repeat (apply NoDup_app_intro; [apply Hm; congruence| |]).
    2-6: intros x Hx Hx'; apply in_map_iff in Hx as (p & <- & Hp);
      rewrite ?in_app_iff, ?in_map_iff, ?in_flat_map in Hx';
      repeat destruct Hx' as [Hx'|Hx'];
      try (destruct Hx' as (q & Hq & _); discriminate);
      destruct Hx' as (q & _ & Hq); rewrite ?in_app_iff, ?in_map_iff in Hq;
      repeat destruct Hq as [Hq|Hq]; destruct Hq as (s & Hs & _); discriminate.
    apply NoDup_app_intro.
    - apply NoDup_flat_map; [apply range_nodup| |].
      + intros p _. apply NoDup_app_intro; [apply Hm; congruence|apply Hm; congruence|].
        intros x Hx Hx'. apply in_map_iff in Hx as (q & <- & _).
        apply in_map_iff in Hx' as (s & Hs & _). discriminate.
      + intros x y z _ _ Hx Hy. apply in_app_iff in Hx, Hy.
        destruct Hx as [Hx|Hx], Hy as [Hy|Hy]; apply in_map_iff in Hx as (? & <- & _);
          apply in_map_iff in Hy as (? & Hy & _); congruence.
    - apply NoDup_flat_map; [apply range_nodup| |].
      + intros p _. apply Hm; congruence.
      + intros x y z _ _ Hx Hy. apply in_map_iff in Hx as (? & <- & _);
          apply in_map_iff in Hy as (? & Hy & _); congruence.
    - intros x Hx Hx'. apply in_flat_map in Hx as (p & _ & Hx).
      apply in_flat_map in Hx' as (p' & _ & Hx').
      apply in_map_iff in Hx' as (q' & <- & _). apply in_app_iff in Hx.
      destruct Hx as [Hx|Hx]; apply in_map_iff in Hx as (q & Hq & _); discriminate.
  Qed.

  Lemma pair_index_lt a b : a < nvib -> b < nvib -> pair_index a b < ioff (nvib + 1).
  Proof. intros. rewrite ioff_succ. now apply pair_index_bound. Qed.

  (** the tables exist, and each label finds its state *)
  Lemma tables_main :
    exists t, restst_tables nvib (ioff (nvib + 1)) modes = Some t /\
      t_states t = I1st (repeat 0 nvib) :: map (fun l => op_state (op_of l)) labels /\
      length (t_funda t) = nvib /\ length (t_ovrtn t) = nvib /\
      length (t_combn t) = ioff (nvib + 1) /\
      (forall l x, wf l -> In x (op_idxs (op_of l)) ->
         exists p, nth_error (tab (op_kind (op_of l)) t) x = Some p /\ p <> 0 /\
                   nth_error (t_states t) p = Some (op_state (op_of l))) /\
      (forall k x, (forall l, wf l -> op_kind (op_of l) = k -> ~ In x (op_idxs (op_of l))) ->
         nth_error (tab k t) x = nth_error (tab k (start nvib (ioff (nvib + 1)))) x).
  Proof.
    pose proof part_counts as Hc.
    rewrite restst_tables_ops; [|fold n1; lia|fold n2; lia|fold n3; lia].
    destruct (run_ops_ok (all_ops nvib modes) (start nvib (ioff (nvib + 1))))
      as (t & E & S & I & L & N & O).
    { intros o Ho i Hi. rewrite all_ops_labels in Ho. apply in_map_iff in Ho as (l & <- & Hl).
      apply in_labels in Hl. pose proof (op_of_idxs l i Hl Hi) as Hx.
      rewrite op_of_kind by exact Hl.
      destruct l as [o|o|o o']; cbn [tab start t_funda t_ovrtn t_combn]; rewrite repeat_length.
      - eapply owner_lt, Hx.
      - eapply owner_lt, Hx.
      - destruct Hx as (a & b & Ha & Hb & ->). apply pair_index_lt; eapply owner_lt; eassumption. }
    exists t. split; [exact E|].
    assert (t_states t = I1st (repeat 0 nvib) :: map (fun l => op_state (op_of l)) labels) as S'.
    { rewrite S, all_ops_labels, map_map. reflexivity. }
    split; [exact S'|].
    split; [etransitivity; [apply (L Funda)|apply repeat_length]|].
    split; [etransitivity; [apply (L Ovrtn)|apply repeat_length]|].
    split; [etransitivity; [apply (L Combn)|apply repeat_length]|].
    split.
    - intros l x Hl Hx. pose proof (proj2 (in_labels l) Hl) as Hin.
      apply In_nth_error in Hin as (q & Hq).
      exists (1 + q). rewrite (N q (op_of l) x).
      + split; [reflexivity|]. split; [lia|]. rewrite S'. cbn.
        apply (map_nth_error (fun l => op_state (op_of l))), Hq.
      + rewrite all_ops_labels. now apply map_nth_error.
      + exact Hx.
      + intros q' o' Hlt Hq' Hk Hx'. rewrite all_ops_labels in Hq'.
        rewrite nth_error_map in Hq'. destruct (nth_error labels q') as [l'|] eqn:El; [|discriminate].
        cbn in Hq'. injection Hq' as <-.
        assert (wf l') as Hl' by (apply in_labels; eapply nth_error_In, El).
        assert (l' = l) as -> by (eapply op_of_disjoint; eassumption).
        pose proof (NoDup_nth_eq _ _ _ _ labels_nodup Hq El). lia.
    - intros k x Hno. apply O. intros o Ho Hk. rewrite all_ops_labels in Ho.
      apply in_map_iff in Ho as (l & <- & Hl). apply Hno; [now apply in_labels|exact Hk].
  Qed.
End Partition.

(** ** distinctness of the states *)
Lemma unit1_inj n i j x : i < n -> x <> 0 -> unit1 n i x = unit1 n j x -> i = j.
Proof.
  intros Hi Hx He. pose proof (f_equal (fun l => nth_error l i) He) as Hn. cbn in Hn.
  unfold unit1 in Hn. rewrite !nth_error_map_seq in Hn by exact Hi.
  rewrite Nat.eqb_refl in Hn. injection Hn as Hn.
  destruct (i =? j) eqn:E; [now apply Nat.eqb_eq in E|contradiction].
Qed.

Lemma nth_unit1 n i x a : nth_error (unit1 n i x) a =
  if a <? n then Some (if a =? i then x else 0) else None.
Proof.
  unfold unit1. destruct (a <? n) eqn:E.
  - apply Nat.ltb_lt in E. now rewrite nth_error_map_seq.
  - apply Nat.ltb_ge in E. apply nth_error_None. now rewrite map_length, seq_length.
Qed.
Lemma nth_unit11 n i j a : nth_error (unit11 n i j) a =
  if a <? n then Some (if (a =? i) || (a =? j) then 1 else 0) else None.
Proof.
  unfold unit11. destruct (a <? n) eqn:E.
  - apply Nat.ltb_lt in E. now rewrite nth_error_map_seq.
  - apply Nat.ltb_ge in E. apply nth_error_None. now rewrite map_length, seq_length.
Qed.
Lemma nth_punit1 n i x a : nth_error (punit1 n i x) a =
  if a <? n then Some (if a =? i then x else (0, 0)) else None.
Proof.
  unfold punit1. destruct (a <? n) eqn:E.
  - apply Nat.ltb_lt in E. now rewrite nth_error_map_seq.
  - apply Nat.ltb_ge in E. apply nth_error_None. now rewrite map_length, seq_length.
Qed.
Lemma nth_punit11 n i j a : nth_error (punit11 n i j) a =
  if a <? n then Some (if (a =? i) || (a =? j) then (1, 1) else (0, 0)) else None.
Proof.
  unfold punit11. destruct (a <? n) eqn:E.
  - apply Nat.ltb_lt in E. now rewrite nth_error_map_seq.
  - apply Nat.ltb_ge in E. apply nth_error_None. now rewrite map_length, seq_length.
Qed.

Ltac probe He a :=
  let Hn := fresh "Hn" in
  pose proof (f_equal (fun l => nth_error l a) He) as Hn; cbn beta in Hn;
  rewrite ?nth_unit1, ?nth_unit11, ?nth_punit1, ?nth_punit11 in Hn.

Ltac cases Hn :=
  repeat match type of Hn with
         | context [if ?b then _ else _] => let E := fresh "E" in destruct b eqn:E
         | context [?a || ?b] => let E := fresh "E" in destruct a eqn:E; cbn [orb] in Hn
         end.

Section States.
  Variables (nvib : nat) (modes : list mode).
  Hypothesis Hpart : Permutation (flat_map members modes) (seq 0 nvib).

  Lemma op_state_inj l l' :
    wf modes l -> wf modes l' ->
    op_state (op_of nvib modes l) = op_state (op_of nvib modes l') -> l = l'.
  Proof.
    pose proof (part_counts nvib modes Hpart) as Hc.
    destruct l as [[k p]|[k p]|[k p] [k2 q]];
    destruct l' as [[k' p']|[k' p']|[k' p'] [k2' q']]; cbn [wf];
    destruct k as [|[|[|[|k]]]]; try contradiction;
    destruct k' as [|[|[|[|k']]]]; try contradiction;
    try (destruct k2 as [|[|[|k2]]]; try contradiction);
    try (destruct k2' as [|[|[|k2']]]; try contradiction);
    intros W W'; cbn; intros He; try discriminate;
    try (injection He as He1 He2;
         probe He1 p; probe He2 q; cases Hn; cases Hn0; try discriminate;
         repeat f_equal; lia);
    injection He as He;
    first [ probe He p; cases Hn; try discriminate; repeat f_equal; lia
          | probe He p; probe He q; cases Hn; cases Hn0; try discriminate;
            repeat f_equal; lia
          | probe He p; probe He q; probe He p'; probe He q';
            cases Hn; cases Hn0; cases Hn1; cases Hn2; try discriminate;
            repeat f_equal; lia
          | probe He p'; probe He q'; cases Hn; cases Hn0; try discriminate;
            repeat f_equal; lia ].
  Qed.

  Lemma op_state_ground l :
    wf modes l -> op_state (op_of nvib modes l) <> I1st (repeat 0 nvib).
  Proof.
    pose proof (part_counts nvib modes Hpart) as Hc.
    destruct l as [[k p]|[k p]|[k p] [k2 q]]; cbn [wf];
    destruct k as [|[|[|[|k]]]]; try contradiction;
    try (destruct k2 as [|[|[|k2]]]; try contradiction);
    intros W; cbn; intros He; try discriminate; injection He as He;
    probe He p; rewrite nth_error_repeat in Hn by lia; cases Hn; try discriminate; lia.
  Qed.

  Lemma states_nodup t :
    restst_tables nvib (ioff (nvib + 1)) modes = Some t -> NoDup (t_states t).
  Proof.
    intros Ht. destruct (tables_main nvib modes Hpart) as (t' & E & S & _).
    rewrite Ht in E. injection E as <-. rewrite S. constructor.
    - intros Hin. apply in_map_iff in Hin as (l & He & Hl). apply in_labels in Hl.
      exact (op_state_ground l Hl He).
    - apply NoDup_map_inj; [apply labels_nodup|].
      intros x y Hx Hy. apply in_labels in Hx, Hy. now apply op_state_inj.
  Qed.

  (** every table entry, mode by mode *)
  Lemma tables_lemma :
    exists t, restst_tables nvib (ioff (nvib + 1)) modes = Some t /\
      let at_ tbl i s := exists p, nth_error tbl i = Some p /\ nth_error (t_states t) p = Some s in
      let a p i := nth_error (flat_map get1 modes) p = Some i in
      let e p i i' := nth_error (flat_map get2 modes) p = Some (i, i') in
      NoDup (t_states t) /\
      length (t_funda t) = nvib /\ length (t_ovrtn t) = nvib /\
      length (t_combn t) = nvib * (nvib + 1) / 2 /\
      (forall p i, a p i ->
         at_ (t_funda t) i (I1st (unit1 nvib p 1)) /\
         at_ (t_ovrtn t) i (I1st (unit1 nvib p 2))) /\
      (forall p i i' x, e p i i' -> x = i \/ x = i' ->
         at_ (t_funda t) x (I2st (punit1 nvib p (1, 1))) /\
         at_ (t_ovrtn t) x (I2st (punit1 nvib p (2, 0)))) /\
      (forall p i i' i'' x, nth_error (flat_map get3 modes) p = Some (i, i', i'') ->
         x = i \/ x = i' \/ x = i'' ->
         at_ (t_funda t) x (I3st (unit1 nvib p 1))) /\
      (forall p q i j, p < q -> a p i -> a q j ->
         at_ (t_combn t) (pair_index i j) (I1st (unit11 nvib p q))) /\
      (forall p q i j j' y, a p i -> e q j j' -> y = j \/ y = j' ->
         at_ (t_combn t) (pair_index i y) (I12st (unit1 nvib p 1) (punit1 nvib q (1, 1)))) /\
      (forall p q i i' j j' x y, p < q -> e p i i' -> e q j j' ->
         x = i \/ x = i' -> y = j \/ y = j' ->
         at_ (t_combn t) (pair_index x y) (I2st (punit11 nvib p q))).
  Proof.
    destruct (tables_main nvib modes Hpart) as (t & E & S & L1 & L2 & L3 & Hl & _).
    exists t. split; [exact E|]. cbv zeta. split; [now apply states_nodup|].
    split; [exact L1|]. split; [exact L2|].
    split; [rewrite L3, ioff_succ; symmetry; apply t2_div|].
    assert (A : forall p i, nth_error (flat_map get1 modes) p = Some i ->
                p < n1dm modes /\ m1 modes p = i).
    { intros p i Hp. rewrite n1dm_eq. unfold m1. rewrite i1mode_eq.
      split; [apply nth_error_Some; congruence|now apply nth_error_nth]. }
    assert (B : forall p i, nth_error (flat_map get2 modes) p = Some i ->
                p < n2dm modes /\ m2 modes p = i).
    { intros p i Hp. rewrite n2dm_eq. unfold m2. rewrite i2mode_eq.
      split; [apply nth_error_Some; congruence|now apply nth_error_nth]. }
    assert (C : forall p i, nth_error (flat_map get3 modes) p = Some i ->
                p < n3dm modes /\ m3 modes p = i).
    { intros p i Hp. rewrite n3dm_eq. unfold m3. rewrite i3mode_eq.
      split; [apply nth_error_Some; congruence|now apply nth_error_nth]. }
    assert (U : forall l x, wf modes l -> In x (op_idxs (op_of nvib modes l)) ->
       exists p, nth_error (tab (op_kind (op_of nvib modes l)) t) x = Some p /\
                 nth_error (t_states t) p = Some (op_state (op_of nvib modes l))).
    { intros l x W Hx. destruct (Hl l x W Hx) as (p & Q1 & _ & Q2). eauto. }
    split.
    { intros p i Hp. apply A in Hp as [Hp Em]. split.
      - apply (U (LF (1, p))); [exact Hp|]. cbn. auto.
      - apply (U (LO (1, p))); [exact Hp|]. cbn. auto. }
    split.
    { intros p i i' x Hp Hx. apply B in Hp as [Hp Em]. split.
      - apply (U (LF (2, p))); [exact Hp|]. cbn. rewrite Em. cbn. intuition.
      - apply (U (LO (2, p))); [exact Hp|]. cbn. rewrite Em. cbn. intuition. }
    split.
    { intros p i i' i'' x Hp Hx. apply C in Hp as [Hp Em].
      apply (U (LF (3, p))); [exact Hp|]. cbn. rewrite Em. cbn. intuition. }
    split.
    { intros p q i j Hpq Hp Hq. apply A in Hp as [Hp Em]. apply A in Hq as [Hq Em'].
      apply (U (LC (1, p) (1, q))); [cbn; lia|]. cbn. rewrite Em, Em'. auto. }
    split.
    { intros p q i j j' y Hp Hq Hy. apply A in Hp as [Hp Em]. apply B in Hq as [Hq Em'].
      apply (U (LC (1, p) (2, q))); [cbn; lia|]. cbn. rewrite Em, Em'. cbn.
      intuition (subst; auto). }
    intros p q i i' j j' x y Hpq Hp Hq Hx Hy.
    apply B in Hp as [Hp Em]. apply B in Hq as [Hq Em'].
    apply (U (LC (2, p) (2, q))); [cbn; lia|]. cbn. rewrite Em, Em'. cbn.
    intuition (subst; auto).
  Qed.
End States.

(** ** asymmetric tops: all occupation vectors of at most two quanta *)
Lemma singles_part n : Permutation (flat_map members (singles n)) (seq 0 n).
Proof.
  unfold singles. rewrite flat_map_concat_map, map_map. cbn.
  rewrite <- flat_map_concat_map. induction (seq 0 n) as [|a l IH]; [constructor|].
  cbn. now constructor.
Qed.

Definition total (v : list nat) : nat := fold_right plus 0 v.

Lemma total_map_add {A} (f g : A -> nat) l :
  total (map (fun a => f a + g a) l) = total (map f l) + total (map g l).
Proof.
  induction l as [|a l IH]; [reflexivity|]. unfold total in *.
  cbn [map fold_right]. rewrite IH. lia.
Qed.
Lemma total_unit s n i x :
  total (map (fun a => if a =? i then x else 0) (seq s n)) =
  if (s <=? i) && (i <? s + n) then x else 0.
Proof.
  revert s. induction n as [|n IH]; intros s; [destruct (s <=? i) eqn:E1, (i <? s + 0) eqn:E2; cbn; lia|].
  cbn [seq map total fold_right]. change (fold_right plus 0 ?l) with (total l). rewrite IH.
  destruct (s =? i) eqn:E, (S s <=? i) eqn:E1, (i <? S s + n) eqn:E2,
    (s <=? i) eqn:E3, (i <? s + S n) eqn:E4; cbn [andb]; lia.
Qed.
Lemma total_repeat n : total (repeat 0 n) = 0.
Proof. induction n; cbn; auto. Qed.
Lemma total_unit1 n i x : i < n -> total (unit1 n i x) = x.
Proof.
  intros Hi. unfold unit1. rewrite total_unit.
  destruct (0 <=? i) eqn:E1, (i <? 0 + n) eqn:E2; cbn; lia.
Qed.
Lemma total_unit11 n i j : i < j -> j < n -> total (unit11 n i j) = 2.
Proof.
  intros Hij Hj. unfold unit11.
  rewrite (map_ext _ (fun a => (if a =? i then 1 else 0) + (if a =? j then 1 else 0))).
  - rewrite total_map_add, !total_unit.
    destruct (0 <=? i) eqn:E1, (i <? 0 + n) eqn:E2, (0 <=? j) eqn:E3, (j <? 0 + n) eqn:E4; cbn; lia.
  - intros a. destruct (a =? i) eqn:E1, (a =? j) eqn:E2; cbn; lia.
Qed.

Lemma total_0 v : total v = 0 -> forall a x, nth_error v a = Some x -> x = 0.
Proof.
  induction v as [|y v IH]; intros Ht [|a] x Hx; cbn in *; try discriminate.
  - injection Hx as <-. lia.
  - apply (IH ltac:(unfold total; lia) a x Hx).
Qed.
Lemma total_1 v : total v = 1 -> exists i, i < length v /\
  forall a x, nth_error v a = Some x -> x = if a =? i then 1 else 0.
Proof.
  induction v as [|y v IH]; intros Ht; [discriminate|].
  change (y + total v = 1) in Ht. destruct y as [|y].
  - destruct (IH Ht) as (i & Hi & Hx). exists (S i). split; [cbn; lia|].
    intros [|a] x; cbn; [congruence|]. apply Hx.
  - exists 0. split; [cbn; lia|]. assert (total v = 0) as H0 by lia.
    intros [|a] x Hx; cbn in *.
    + injection Hx as <-. lia.
    + apply (total_0 v H0 a x Hx).
Qed.
Lemma total_2 v : total v = 2 ->
  (exists i, i < length v /\ forall a x, nth_error v a = Some x -> x = if a =? i then 2 else 0) \/
  (exists i j, i < j /\ j < length v /\
     forall a x, nth_error v a = Some x -> x = if (a =? i) || (a =? j) then 1 else 0).
Proof.
  induction v as [|y v IH]; intros Ht; [discriminate|].
  change (y + total v = 2) in Ht. destruct y as [|[|y]].
  - destruct (IH Ht) as [(i & Hi & Hx)|(i & j & Hi & Hj & Hx)].
    + left. exists (S i). split; [cbn; lia|]. intros [|a] x; cbn; [congruence|]. apply Hx.
    + right. exists (S i), (S j). split; [lia|]. split; [cbn; lia|].
      intros [|a] x; cbn; [congruence|]. apply Hx.
  - right. destruct (total_1 v ltac:(lia)) as (j & Hj & Hx). exists 0, (S j).
    split; [lia|]. split; [cbn; lia|]. intros [|a] x; cbn; [congruence|]. apply Hx.
  - left. exists 0. split; [cbn; lia|]. assert (total v = 0) as H0 by lia.
    intros [|a] x Hx; cbn in *.
    + injection Hx as <-. lia.
    + apply (total_0 v H0 a x Hx).
Qed.

Lemma vec_eq_map v n (f : nat -> nat) :
  length v = n -> (forall a x, nth_error v a = Some x -> x = f a) -> v = map f (seq 0 n).
Proof.
  intros Hl Hx. apply list_ext; [now rewrite map_length, seq_length|].
  intros i Hi. rewrite nth_error_map_seq by lia.
  destruct (nth_error v i) as [x|] eqn:E; [now rewrite (Hx i x E)|].
  apply nth_error_None in E. lia.
Qed.

Definition pairs_up (n : nat) : list (nat * nat) :=
  flat_map (fun i => map (pair i) (seq (i + 1) (n - (i + 1)))) (seq 0 n).

Lemma in_pairs_up n i j : In (i, j) (pairs_up n) <-> i < j < n.
Proof.
  unfold pairs_up. rewrite in_flat_map. split.
  - intros (a & Ha & Hin). apply in_map_iff in Hin as (b & He & Hb). injection He as -> ->.
    apply in_seq in Ha, Hb. lia.
  - intros Hij. exists i. split; [apply in_seq; lia|]. apply in_map_iff. exists j.
    split; [reflexivity|apply in_seq; lia].
Qed.

Lemma states_asym_lemma n :
  exists t vs, restst_tables n (ioff (n + 1)) (singles n) = Some t /\
    t_states t = map I1st vs /\ NoDup vs /\
    (forall v, In v vs <-> length v = n /\ total v <= 2) /\
    length vs = 1 + n + n + n * (n - 1) / 2 /\
    vs = [repeat 0 n] ++ map (fun i => unit1 n i 1) (seq 0 n)
         ++ map (fun i => unit1 n i 2) (seq 0 n)
         ++ map (fun '(i, j) => unit11 n i j) (pairs_up n).
Proof.
  destruct (tables_main n (singles n) (singles_part n)) as (t & E & S & _).
  exists t.
  set (vs := [repeat 0 n] ++ map (fun i => unit1 n i 1) (seq 0 n)
         ++ map (fun i => unit1 n i 2) (seq 0 n)
         ++ map (fun '(i, j) => unit11 n i j) (pairs_up n)).
  exists vs. split; [exact E|].
  assert (Hs : t_states t = map I1st vs).
  { rewrite S. unfold vs. cbn [app map]. f_equal.
    unfold labels. rewrite n1dm_singles, n2dm_singles, n3dm_singles.
    rewrite !range_0. cbn [seq map app].
    rewrite !map_app, !map_map. cbn [flat_map]. rewrite app_nil_r.
    apply (f_equal2 (@app state)); [reflexivity|].
    apply (f_equal2 (@app state)); [reflexivity|].
    unfold pairs_up.
    assert (Hm : forall (A B C : Type) (f : B -> C) (g : A -> list B) l,
            map f (flat_map g l) = flat_map (fun x => map f (g x)) l).
    { intros A B C f g l. induction l as [|x l IH]; [reflexivity|].
      cbn. now rewrite map_app, IH. }
    rewrite !Hm. apply flat_map_ext. intros p. rewrite app_nil_r.
    rewrite !map_map. reflexivity. }
  split; [exact Hs|].
  split.
  { pose proof (states_nodup n (singles n) (singles_part n) t E) as Hd.
    rewrite Hs in Hd. eapply NoDup_map_inv, Hd. }
  split.
  { intros v. unfold vs. rewrite !in_app_iff, !in_map_iff. cbn [In]. split.
    - intros [[<-|[]]|[(i & <- & Hi)|[(i & <- & Hi)|([i j] & <- & Hi)]]].
      + rewrite repeat_length, total_repeat. lia.
      + apply in_seq in Hi. rewrite total_unit1 by lia. unfold unit1.
        rewrite map_length, seq_length. lia.
      + apply in_seq in Hi. rewrite total_unit1 by lia. unfold unit1.
        rewrite map_length, seq_length. lia.
      + apply in_pairs_up in Hi. rewrite total_unit11 by lia. unfold unit11.
        rewrite map_length, seq_length. lia.
    - intros [Hl Ht].
      assert (total v = 0 \/ total v = 1 \/ total v = 2) as [H0|[H1|H2]] by lia.
      + left. left. rewrite repeat_map_seq. symmetry. apply vec_eq_map; [exact Hl|].
        intros a x. now apply total_0.
      + right. left. destruct (total_1 v H1) as (i & Hi & Hx). exists i. rewrite in_seq.
        split; [|lia]. symmetry. apply vec_eq_map; [exact Hl|exact Hx].
      + right. right. destruct (total_2 v H2) as [(i & Hi & Hx)|(i & j & Hi & Hj & Hx)].
        * left. exists i. rewrite in_seq. split; [|lia]. symmetry.
          apply vec_eq_map; [exact Hl|exact Hx].
        * right. exists (i, j). rewrite in_pairs_up. split; [|lia]. symmetry.
          apply vec_eq_map; [exact Hl|exact Hx]. }
  split; [|reflexivity].
  unfold vs. rewrite !app_length, !map_length, !seq_length. cbn [length].
  enough (length (pairs_up n) = n * (n - 1) / 2) by lia.
  unfold pairs_up. symmetry. apply div_exact_eq; [lia|].
  rewrite flat_map_concat_map.
  assert (Hk : forall k m, k + m <= n ->
     2 * length (concat (map (fun i => map (pair i) (seq (i + 1) (n - (i + 1)))) (seq k m))) =
     m * (2 * n - 2 * k - m - 1)).
  { intros k m. revert k. induction m as [|m IH]; intros k Hm; [reflexivity|].
    cbn [seq map concat]. rewrite app_length, map_length, seq_length.
    rewrite Nat.mul_add_distr_l, IH by lia. nia. }
  rewrite Hk by lia. nia.
Qed.

Lemma pair_slots_lemma n i j i' j' :
  (i < n /\ j < n <-> pair_index i j < n * (n + 1) / 2) /\
  (pair_index i j = pair_index i' j' -> i = i' /\ j = j' \/ i = j' /\ j = i').
Proof.
  rewrite t2_div. split; [symmetry; apply pair_index_bound|].
  intros He. apply pair_index_inj in He. tauto.
Qed.
