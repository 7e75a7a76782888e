(** Lemmas about resonance polyads. *)
From Coq Require Import Reals Lra Lia List ZArith Arith Bool.
From Verif Require Import Num Loops Index Modes Anharm Polyads ListFacts LoadFacts ModesFacts StatesFacts
  ResFacts AnharmFacts EnergyFacts.
Import ListNotations.
Open Scope nat_scope.

(** ** denominators *)
Section Denom.
  Local Open Scope R_scope.
  Definition sval (w : nat -> R) (s : sign) : R := match s with Plus i => w i | Minus i => - w i end.
  (** the mode whose sign differs from the other two is the sum of them in a reported
      resonance *)
  Definition dropped (res : nat -> nat -> nat -> bool) (s1 s2 s3 : sign) : bool :=
    match s1, s2, s3 with
    | Plus a, Minus b, Minus c | Minus a, Plus b, Plus c => res b c a
    | Minus a, Plus b, Minus c | Plus a, Minus b, Plus c => res a c b
    | Minus a, Minus b, Plus c | Plus a, Plus b, Minus c => res a b c
    | _, _, _ => false
    end.

  Lemma fold_den1 fm1 (d : nat -> nat -> nat -> R) a b c :
    fold_left (fun d '(i, j) => upd3 d j i i (nz 0)) fm1 d a b c
    = if existsb (fun '(i, j) => (a =? j) && (b =? i) && (c =? i))%nat fm1 then 0 else d a b c.
  Proof.
    revert d. induction fm1 as [|[i j] l IH]; intros d; [reflexivity|]. cbn [fold_left existsb]. rewrite IH.
    destruct (existsb _ l); [now rewrite orb_true_r|]. rewrite orb_false_r. unfold upd3.
    destruct (_ && _ && _); [apply nz_R|reflexivity].
  Qed.
  Lemma fold_den2 fm2 (d : nat -> nat -> nat -> R) a b c :
    fold_left (fun d '(j, k, i) => upd3 (upd3 d i j k (nz 0)) i k j (nz 0)) fm2 d a b c
    = if existsb (fun '(j, k, i) => (a =? i) && (b =? j) && (c =? k) || (a =? i) && (b =? k) && (c =? j))%nat fm2
      then 0 else d a b c.
  Proof.
    revert d. induction fm2 as [|[[j k] i] l IH]; intros d; [reflexivity|]. cbn [fold_left existsb]. rewrite IH.
    destruct (existsb _ l); [now rewrite orb_true_r|]. rewrite orb_false_r. unfold upd3.
    destruct ((a =? i) && (b =? k) && (c =? j))%nat; [rewrite orb_true_r; apply nz_R|]. rewrite orb_false_r.
    destruct (_ && _ && _); [apply nz_R|reflexivity].
  Qed.
  Lemma init_den w fm1 fm2 res a b c : reported fm1 fm2 res ->
    init_res_denom w fm1 fm2 a b c = keep (res b c a) (1 / (w a - w b - w c)).
  Proof.
    intros Hr. unfold init_res_denom. rewrite fold_den2, fold_den1. unR.
    assert (Q : res b c a = existsb (fun '(i, j) => (a =? j) && (b =? i) && (c =? i))%nat fm1
      || existsb (fun '(j, k, i) => (a =? i) && (b =? j) && (c =? k) || (a =? i) && (b =? k) && (c =? j))%nat fm2).
    { apply eq_iff_eq_true. rewrite (Hr b c a). unfold resonant. rewrite orb_true_iff, !existsb_exists. split.
      - intros [[-> I]|[I|I]].
        + left. exists (c, a). rewrite !Nat.eqb_refl. auto.
        + right. exists (b, c, a). rewrite !Nat.eqb_refl. auto.
        + right. exists (c, b, a). rewrite !Nat.eqb_refl. rewrite orb_true_r. auto.
      - intros [([i j] & I & T)|([[j k] i] & I & T)].
        + rewrite !andb_true_iff, !Nat.eqb_eq in T. destruct T as [[-> ->] ->]. auto.
        + rewrite orb_true_iff, !andb_true_iff, !Nat.eqb_eq in T.
          destruct T as [[[-> ->] ->]|[[-> ->] ->]]; auto. }
    rewrite Q. unfold keep. destruct (existsb _ fm1), (existsb _ fm2); reflexivity.
  Qed.

  Lemma denom_lemma w fm1 fm2 res s1 s2 s3 : reported fm1 fm2 res ->
    (dropped res s1 s2 s3 = false -> sval w s1 + sval w s2 + sval w s3 <> 0) ->
    denom w (init_res_denom w fm1 fm2) s1 s2 s3
    = keep (dropped res s1 s2 s3) (1 / (sval w s1 + sval w s2 + sval w s3)).
  Proof.
    intros Hr. unfold denom.
    destruct s1 as [a|a], s2 as [b|b], s3 as [c|c]; cbn [sg_abs sg_num sval dropped];
      repeat match goal with |- context [Z.quot ?x ?y] => let v := eval compute in (Z.quot x y) in
        change (Z.quot x y) with v end; cbn [Z.eqb Z.ltb Z.compare orb Z.mul Pos.mul Pos.eqb];
      rewrite ?(init_den w fm1 fm2 res _ _ _ Hr); unR; intros Hd;
      try match goal with |- context [keep (res ?i ?j ?k) _] => destruct (res i j k) end; unfold keep; try lra.
    all: specialize (Hd eq_refl); field; repeat split; lra.
  Qed.
End Denom.

(** ** comparing two states *)
(** quantum numbers of two states [q] and [q'] *)
Definition qdiff (q q' : nat -> nat) (i : nat) : Z := (Z.of_nat (q' i) - Z.of_nat (q i))%Z.
Definition zsum (l : list nat) (f : nat -> Z) : Z := fold_right (fun i s => (f i + s)%Z) 0%Z l.
(** total number of quanta moved, net change, and modes that differ *)
Definition moved (n : nat) (q q' : nat -> nat) : Z := zsum (seq 0 n) (fun i => Z.abs (qdiff q q' i)).
Definition net (n : nat) (q q' : nat -> nat) : Z := zsum (seq 0 n) (qdiff q q').
Definition differing (n : nat) (q q' : nat -> nat) : list nat :=
  filter (fun i => negb (q i =? q' i)) (seq 0 n).
Definition entry (q q' : nat -> nat) (i : nat) : diff :=
  mk_diff i (qdiff q q' i) (Nat.min (q i) (q' i)).

Lemma zsum_app l l' f : zsum (l ++ l') f = (zsum l f + zsum l' f)%Z.
Proof. induction l as [|a l IH]; cbn [app zsum fold_right]; [reflexivity|]. unfold zsum in *. cbn. lia. Qed.
Lemma zsum_abs_nonneg l (q q' : nat -> nat) : (0 <= zsum l (fun i => Z.abs (qdiff q q' i)))%Z.
Proof. induction l as [|a l IH]; cbn; [lia|]. unfold zsum in *. lia. Qed.
Lemma zsum_cons a l f : zsum (a :: l) f = (f a + zsum l f)%Z.
Proof. reflexivity. Qed.
Lemma differ_moved l (q q' : nat -> nat) :
  (Z.of_nat (length (filter (fun i => negb (q i =? q' i)%nat) l)) <= zsum l (fun i => Z.abs (qdiff q q' i)))%Z.
Proof.
  induction l as [|a l IH]; [reflexivity|]. rewrite zsum_cons. cbn [filter].
  unfold qdiff at 1. destruct (Nat.eqb_spec (q a) (q' a)); cbn [negb length]; lia.
Qed.

Section Scan.
  Variables (iirst : nat -> nat -> nat) (s t : nat).
  Notation q := (fun i => iirst i s).
  Notation q' := (fun i => iirst i t).
  Lemma scan_none l : fold_left (scan_step iirst s t) l None = None.
  Proof. induction l as [|a l IH]; [reflexivity|exact IH]. Qed.
  Lemma scan_from l nd n0 es : (Z.of_nat (length es) <= nd)%Z ->
    fold_left (scan_step iirst s t) l (Some (nd, n0, es))
    = let m := (nd + zsum l (fun i => Z.abs (qdiff q q' i)))%Z in
      if (4 <? m)%Z && negb (m =? nd)%Z then None
      else Some (m, (n0 + zsum l (qdiff q q'))%Z,
                 es ++ map (entry q q') (filter (fun i => negb (q i =? q' i)%nat) l)).
  Proof.
    revert nd n0 es. induction l as [|a l IH]; intros nd n0 es Hes.
    - cbn. rewrite !Z.add_0_r, Z.eqb_refl, andb_false_r, app_nil_r. reflexivity.
    - cbn [fold_left]. rewrite !zsum_cons. cbn [filter]. unfold scan_step at 2. cbv zeta.
      fold (qdiff q q' a). cbv beta.
      replace (Z.of_nat (iirst a t) - Z.of_nat (iirst a s))%Z with (qdiff q q' a) by reflexivity.
      pose proof (zsum_abs_nonneg l q q') as Hp.
      destruct (Z.eqb_spec (qdiff q q' a) 0) as [E|E].
      + rewrite IH by exact Hes. rewrite E, Z.abs_0, !Z.add_0_l.
        replace (iirst a s =? iirst a t) with true by (symmetry; apply Nat.eqb_eq; unfold qdiff in E; lia).
        reflexivity.
      + replace (iirst a s =? iirst a t) with false by (symmetry; apply Nat.eqb_neq; unfold qdiff in E; lia).
        cbn [negb map].
        assert (A : (0 < Z.abs (qdiff q q' a))%Z) by lia.
        destruct (4 <? length (es ++ _))%nat eqn:E4.
        * apply Nat.ltb_lt in E4. rewrite app_length in E4. cbn in E4. cbn [orb]. rewrite scan_none.
          cbv zeta. replace (4 <? _)%Z with true by (symmetry; apply Z.ltb_lt; lia).
          replace (_ =? nd)%Z with false by (symmetry; apply Z.eqb_neq; lia). reflexivity.
        * cbn [orb]. destruct (Z.ltb_spec 4 (nd + Z.abs (qdiff q q' a))).
          -- rewrite scan_none. cbv zeta. replace (4 <? _)%Z with true by (symmetry; apply Z.ltb_lt; lia).
             replace (_ =? nd)%Z with false by (symmetry; apply Z.eqb_neq; lia). reflexivity.
          -- rewrite IH by (rewrite app_length; cbn; lia). cbv zeta. rewrite !Z.add_assoc, <- app_assoc.
             cbn [app]. fold (entry q q' a).
             set (Sm := zsum l (fun i => Z.abs (qdiff q q' i))) in *.
             destruct (Z.ltb_spec 4 (nd + Z.abs (qdiff q q' a) + Sm)); [|reflexivity].
             replace (nd + Z.abs (qdiff q q' a) + Sm =? nd)%Z with false by (symmetry; apply Z.eqb_neq; lia).
             replace (nd + Z.abs (qdiff q q' a) + Sm =? nd + Z.abs (qdiff q q' a))%Z with false
               by (symmetry; apply Z.eqb_neq; lia).
             reflexivity.
  Qed.
  Lemma scan_eq n : scan n iirst s t
    = if (4 <? moved n q q')%Z then None
      else Some (moved n q q', net n q q', map (entry q q') (differing n q q')).
  Proof.
    unfold scan. rewrite range_0, scan_from by reflexivity. cbv zeta. rewrite !Z.add_0_l. cbn [app].
    fold (moved n q q') (net n q q') (differing n q q').
    destruct (Z.ltb_spec 4 (moved n q q')); [|reflexivity].
    replace (moved n q q' =? 0)%Z with false by (symmetry; apply Z.eqb_neq; lia). reflexivity.
  Qed.
End Scan.

(** ** symmetry *)
Lemma moved_sym n q q' : moved n q q' = moved n q' q.
Proof.
  unfold moved. generalize (seq 0 n). induction l as [|a l IH]; [reflexivity|]. rewrite !zsum_cons, IH.
  unfold qdiff. lia.
Qed.
Lemma net_sym n q q' : net n q' q = (- net n q q')%Z.
Proof.
  unfold net. generalize (seq 0 n). induction l as [|a l IH]; [reflexivity|]. rewrite !zsum_cons, IH.
  unfold qdiff. lia.
Qed.
Lemma differing_sym n q q' : differing n q' q = differing n q q'.
Proof. unfold differing. apply filter_ext. intros a. now rewrite Nat.eqb_sym. Qed.
Lemma differing_in n q q' i : In i (differing n q q') <-> i < n /\ q i <> q' i.
Proof.
  unfold differing. rewrite filter_In, in_seq, negb_true_iff, Nat.eqb_neq. intuition lia.
Qed.
Lemma differing_nodup n q q' : NoDup (differing n q q').
Proof. apply NoDup_filter, seq_NoDup. Qed.

Section Any.
  Context {F : Type} `{Num F}.
  Variables (freq : nat -> F) (zmat f3 : nat -> nat -> nat -> F) (f4 : nat -> nat -> nat -> nat -> F)
    (rotcon : nat -> F) (i1 : list nat) (dnm : nat -> nat -> nat -> F).
  Notation gen := (genrsa freq zmat f3 f4 rotcon i1 dnm).
  Notation res2 := (res2a freq zmat f3 f4 rotcon i1 dnm).

  Lemma opp_eqb0 z : (- z =? 0)%Z = (z =? 0)%Z.
  Proof. destruct (Z.eqb_spec z 0) as [->|N]; [reflexivity|]. apply Z.eqb_neq. lia. Qed.
  Lemma entry_abs q q' a : Z.abs (df_d (entry q' q a)) = Z.abs (df_d (entry q q' a)).
  Proof. cbn. unfold qdiff. lia. Qed.
  Lemma entry_min q q' a : df_min (entry q' q a) = df_min (entry q q' a).
  Proof. apply Nat.min_comm. Qed.

  Lemma genrsa_sym n iirst s t : gen n iirst s t = gen n iirst t s.
  Proof.
    unfold genrsa. rewrite !scan_eq. rewrite (moved_sym n (fun i => iirst i t)), (net_sym n (fun i => iirst i s)),
      (differing_sym n (fun i => iirst i s)).
    set (q := fun i => iirst i s). set (q' := fun i => iirst i t).
    destruct (4 <? moved n q q')%Z; [reflexivity|]. rewrite opp_eqb0.
    destruct (differing n q q') as [|a [|b [|c [|d [|? ?]]]]]; cbn [map]; try reflexivity.
    - rewrite !(entry_min q q'), !(entry_abs q q'). cbn [df_idx entry].
      repeat match goal with |- (if ?x then _ else _) = (if ?x then _ else _) => destruct x; try reflexivity end.
      destruct (res2 a a a b); cbn [obind]; [|reflexivity].
      destruct (res2 b b b a); cbn [obind]; [|reflexivity].
      match goal with |- obind ?x _ = obind ?y _ => assert (E : x = y); [|now rewrite E] end.
      apply ofold_ext. intros acc k _. destruct (_ && _); [|reflexivity].
      rewrite (Nat.eqb_sym (iirst k t)). destruct (Nat.eqb_spec (iirst k s) (iirst k t)) as [->|N]; reflexivity.
    - unfold sort2a. rewrite !(entry_min q q'), !(entry_abs q q').
      repeat match goal with |- (if ?x then _ else _) = (if ?x then _ else _) => destruct x; try reflexivity end.
      destruct (_ =? 2)%Z, (_ =? 2)%Z; rewrite !(entry_min q q'); reflexivity.
    - rewrite !(entry_min q q'). reflexivity.
  Qed.

  Lemma genrsa_far n iirst s t : (4 < moved n (fun i => iirst i s) (fun i => iirst i t))%Z ->
    gen n iirst s t = Some (nz 0).
  Proof. intros Hm. unfold genrsa. rewrite scan_eq. apply Z.ltb_lt in Hm. now rewrite Hm. Qed.

  Lemma res2_aabb a b : res2 a a b b <> None.
  Proof. unfold res2a. rewrite !Nat.eqb_refl. discriminate. Qed.
  Lemma res2_aaab a b : res2 a a a b <> None.
  Proof. unfold res2a. rewrite !Nat.eqb_refl. cbn. destruct (a =? b); discriminate. Qed.
  Lemma res2_acbc a b c : a <> b -> a <> c -> res2 a c b c <> None.
  Proof.
    intros N N'. unfold res2a. apply Nat.eqb_neq in N, N'. rewrite N', N, Nat.eqb_refl. discriminate.
  Qed.
  Lemma res2_aabc a b c : a <> b -> b <> c -> res2 a a b c <> None.
  Proof.
    intros N N'. unfold res2a. apply Nat.eqb_neq in N, N'. rewrite N', N, Nat.eqb_refl. cbn [andb negb].
    destruct (a =? c); discriminate.
  Qed.
  Lemma res2_abcd a b c d : NoDup [a; b; c; d] -> res2 a b c d = None.
  Proof.
    intros N. inversion N as [|? ? A N1]; subst. inversion N1 as [|? ? B N2]; subst.
    inversion N2 as [|? ? C N3]; subst. cbn in A, B, C. unfold res2a.
    replace (a =? b) with false by (symmetry; apply Nat.eqb_neq; intuition).
    replace (b =? d) with false by (symmetry; apply Nat.eqb_neq; intuition).
    reflexivity.
  Qed.
  Lemma bind_none {A B} (o : option A) (f : A -> B) : o <> None -> (let* v := o in Some (f v)) <> None.
  Proof. destruct o; [discriminate|congruence]. Qed.
  Lemma ofold_not_none {A S} (f : S -> A -> option S) l : (forall s a, In a l -> f s a <> None) ->
    forall s, ofold f l s <> None.
  Proof.
    induction l as [|a l IH]; intros Hf s; [discriminate|]. cbn.
    destruct (f s a) eqn:E; [|exfalso; eapply Hf; [now left|exact E]].
    apply IH. intros; apply Hf; now right.
  Qed.

  (** exactly when the computation of a coupling panics *)
  Lemma genrsa_none n iirst s t :
    let q := fun i => iirst i s in
    let q' := fun i => iirst i t in
    gen n iirst s t = None <->
    moved n q q' = 4%Z /\
    (length (differing n q q') = 4%nat \/
     net n q q' <> 0%Z /\ (length (differing n q q') = 2%nat \/ length (differing n q q') = 3%nat)).
  Proof.
    intros q q'. unfold genrsa. rewrite scan_eq. fold q q'.
    pose proof (differ_moved (seq 0 n) q q') as Hm. fold (differing n q q') (moved n q q') in Hm.
    pose proof (differing_nodup n q q') as Nd.
    assert (Hin := differing_in n q q').
    destruct (Z.ltb_spec 4 (moved n q q')); [split; [discriminate|lia]|].
    destruct (differing n q q') as [|a [|b [|c [|d [|? ?]]]]] eqn:E; cbn [map length] in *; try lia.
    - split; [discriminate|lia].
    - split; [discriminate|lia].
    - destruct (Z.eqb_spec (moved n q q') 4) as [Q|Q].
      + destruct (Z.eqb_spec (net n q q') 0) as [Z0|Z0].
        * split; [|lia]. intros X. exfalso. revert X. apply bind_none, res2_aabb.
        * split; [lia|reflexivity].
      + split; [|lia]. intros X. exfalso. revert X.
        repeat match goal with |- (if ?x then _ else _) = None -> _ => destruct x; try discriminate end.
        cbn [entry df_idx].
        destruct (res2 a a a b) eqn:E1; [|now apply res2_aaab in E1]. cbn [obind].
        destruct (res2 b b b a) eqn:E2; [|now apply res2_aaab in E2]. cbn [obind].
        apply bind_none, ofold_not_none. intros acc k Hk.
        destruct (Nat.eqb_spec k a); [discriminate|]. destruct (Nat.eqb_spec k b); [discriminate|].
        cbn [negb andb]. destruct (Nat.eqb_spec (iirst k s) (iirst k t)) as [Ek|Nk].
        * cbn [negb]. apply bind_none, res2_acbc; [|congruence].
          intros ->. inversion Nd as [|? ? A N1]; subst. apply A. now left.
        * exfalso. assert (I : In k [a; b]).
          { apply Hin. apply in_range in Hk. split; [lia|exact Nk]. }
          destruct I as [<-|[<-|[]]]; congruence.
    - destruct (Z.eqb_spec (moved n q q') 4) as [Q|Q].
      + destruct (Z.eqb_spec (net n q q') 0) as [Z0|Z0].
        * split; [|lia]. intros X. exfalso. revert X.
          assert (D : a <> b /\ a <> c /\ b <> c).
          { inversion Nd as [|? ? A N1]; subst. inversion N1 as [|? ? B N2]; subst. cbn in A, B. intuition. }
          destruct D as (D1 & D2 & D3). unfold sort2a.
          destruct (_ =? 2)%Z, (_ =? 2)%Z; cbn [entry df_idx]; apply bind_none, res2_aabc; congruence.
        * split; [lia|reflexivity].
      + destruct (Z.eqb_spec (moved n q q') 3); [|lia].
        split; [|lia]. destruct (_ || _ || _); discriminate.
    - split; [intros _; split; [lia|now left]|]. intros _. cbn [entry df_idx].
      destruct (_ =? 0)%Z; [|reflexivity]. now rewrite res2_abcd.
  Qed.
End Any.
