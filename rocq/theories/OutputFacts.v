(** Lemmas about the printed tables. *)
From Coq Require Import Reals Lra Lia List Arith Bool Permutation.
From Verif Require Import Num Loops Index Modes Anharm VibRot Distort Transform Report ListFacts
  ModesFacts ResFacts StatesFacts AnharmFacts EnergyFacts FermiFacts SymRotFacts.
Import ListNotations.
Open Scope nat_scope.

Section Table.
  Context {F I : Type} `{Num F}.

  Definition row_of (o : lists F I) (i : nat) (r : row F I) : Prop :=
    row_mode r = i + 1 /\ nth_error (o_irreps o) i = Some (row_irrep r) /\
    nth_error (o_harms o) i = Some (row_harm r) /\ nth_error (o_funds o) i = Some (row_fund r) /\
    nth_error (o_corrs o) i = Some (row_corr r).

  Lemma table_lemma (o : lists F I) :
    (forall rws, table o = Some rws ->
       length rws = length (o_harms o) /\
       forall i r, nth_error rws i = Some r -> row_of o i r) /\
    (table o = None <->
       length (o_irreps o) < length (o_harms o) \/ length (o_funds o) < length (o_harms o) \/
       length (o_corrs o) < length (o_harms o)).
  Proof.
    unfold table.
    set (step := fun acc i => let* l := nth_error (o_irreps o) i in _).
    assert (Q : forall n, n <= length (o_harms o) ->
       (exists rws, ofold step (range 0 n) [] = Some rws /\ length rws = n /\
          n <= length (o_irreps o) /\ n <= length (o_funds o) /\ n <= length (o_corrs o) /\
          forall i r, nth_error rws i = Some r -> row_of o i r) \/
       (ofold step (range 0 n) [] = None /\
          (length (o_irreps o) < n \/ length (o_funds o) < n \/ length (o_corrs o) < n))).
    { induction n as [|n IH]; intros Hn.
      - left. exists []. repeat split; try lia. all: destruct i; discriminate.
      - assert (R : range 0 (S n) = range 0 n ++ [n])
          by (unfold range; rewrite !Nat.sub_0_r, seq_S; reflexivity).
        rewrite R, ofold_app. destruct (IH ltac:(lia)) as [(rws & E & L & L1 & L2 & L3 & Hr)|[E Hl]].
        2:{ right. rewrite E. split; [reflexivity|lia]. }
        rewrite E. cbn [ofold]. unfold step at 1 2.
        destruct (nth_error (o_irreps o) n) as [l|] eqn:E1; cbn [obind].
        2:{ right. split; [reflexivity|]. apply nth_error_None in E1. lia. }
        destruct (nth_error (o_harms o) n) as [h|] eqn:E2; cbn [obind].
        2:{ apply nth_error_None in E2. lia. }
        destruct (nth_error (o_funds o) n) as [f|] eqn:E3; cbn [obind].
        2:{ right. split; [reflexivity|]. apply nth_error_None in E3. lia. }
        destruct (nth_error (o_corrs o) n) as [c|] eqn:E4; cbn [obind].
        2:{ right. split; [reflexivity|]. apply nth_error_None in E4. lia. }
        left. eexists. split; [reflexivity|]. rewrite app_length. cbn [length].
        assert (n < length (o_irreps o)) by (apply nth_error_Some; congruence).
        assert (n < length (o_funds o)) by (apply nth_error_Some; congruence).
        assert (n < length (o_corrs o)) by (apply nth_error_Some; congruence).
        repeat (split; [lia|]).
        intros i r Hi. destruct (Nat.lt_ge_cases i n) as [C|C].
        + rewrite nth_error_app1 in Hi by lia. auto.
        + rewrite nth_error_app2 in Hi by lia. rewrite L in Hi.
          destruct (i - n) as [|k] eqn:K; [|destruct k; discriminate].
          assert (i = n) as -> by lia. injection Hi as <-. repeat split; assumption. }
    destruct (Q _ (Nat.le_refl _)) as [(rws & E & L & L1 & L2 & L3 & Hr)|[E Hl]]; rewrite E.
    - split.
      + intros rws' Q'. injection Q' as <-. auto.
      + split; [discriminate|lia].
    - split; [discriminate|tauto].
  Qed.

  Lemma harmonic_table_lemma nvib (freq : list F) (irreps : list I) o :
    harmonic_lists nvib freq irreps = Some o -> (table o = None <-> 0 < nvib).
  Proof.
    unfold harmonic_lists, reported_harms. destruct (length freq <? nvib) eqn:E; [discriminate|].
    apply Nat.ltb_ge in E. cbn [obind]. intros Q. injection Q as <-.
    destruct (table_lemma (mk_lists (firstn nvib freq) [] [] irreps)) as [_ T].
    cbn [o_harms o_funds o_corrs o_irreps length] in T. rewrite firstn_length in T. rewrite T. lia.
  Qed.

  Lemma corrs_lemma modes (eng : list F) :
    let n := n1dm modes + n2dm modes + n3dm modes in
    n < length eng -> exists c E0, corrs modes eng = Some c /\ nth_error eng 0 = Some E0 /\
      length c = n /\ forall p x, nth_error c p = Some x ->
        exists E, nth_error eng (p + 1) = Some E /\ x = nsub E E0.
  Proof.
    cbv zeta. intros L. unfold corrs.
    set (n := n1dm modes + n2dm modes + n3dm modes) in *.
    destruct (nth_error eng 0) as [E0|] eqn:Z; [|apply nth_error_None in Z; lia].
    set (g := fun i => match nth_error eng i with Some x => nsub x E0 | None => E0 end).
    assert (Q : forall l acc, (forall i, In i l -> i < length eng) ->
      ofold (fun acc i => let* x := nth_error eng i in let* e0 := Some E0 in
         Some (acc ++ [nsub x e0])) l acc = Some (acc ++ map g l)).
    { induction l as [|i l IH]; intros acc Hl; cbn [ofold map]; [now rewrite app_nil_r|].
      destruct (nth_error eng i) as [x|] eqn:E.
      2:{ apply nth_error_None in E. specialize (Hl i (or_introl eq_refl)). lia. }
      cbn [obind]. rewrite IH by (intros; apply Hl; now right).
      rewrite <- app_assoc. unfold g at 2. now rewrite E. }
    exists (map g (range 1 (n + 1))), E0. rewrite Q.
    2:{ intros i Hi. apply in_range in Hi. lia. }
    split; [reflexivity|]. split; [reflexivity|].
    unfold range. rewrite map_length, seq_length. split; [lia|].
    intros p x Hx. rewrite nth_error_map in Hx.
    destruct (nth_error (seq 1 (n + 1 - 1)) p) as [q|] eqn:E; [|discriminate].
    assert (p < n + 1 - 1) as Hp.
    { assert (p < length (seq 1 (n + 1 - 1))) as Q' by (apply nth_error_Some; congruence).
      now rewrite seq_length in Q'. }
    rewrite nth_error_seq in E by exact Hp. injection E as <-.
    cbn [option_map] in Hx. injection Hx as Hx. unfold g in Hx.
    replace (p + 1) with (S p) by lia. change (1 + p) with (S p) in Hx.
    destruct (nth_error eng (S p)) as [y|] eqn:E.
    - exists y. now split.
    - apply nth_error_None in E. lia.
  Qed.
End Table.

(** the modes in the order of [make_sym_funds] *)
Definition listed (modes : list mode) : list nat :=
  flat_map get1 modes ++ map fst (flat_map get2 modes).

(** what a row of the table says about mode [m]: its frequencies come from the fundamental
    level of that mode, before and after the treatment of resonances *)
Definition describes {I} (fr : list R) (t : tables) (eng eng' : list R) (r : row R I) (m : nat) : Prop :=
  exists st E0 E E', nth_error (t_funda t) m = Some st /\ row_harm r = nth m fr 0%R /\
    nth_error eng 0 = Some E0 /\ nth_error eng' 0 = Some E0 /\
    nth_error eng st = Some E /\ row_fund r = (E - E0)%R /\
    nth_error eng' st = Some E' /\ row_corr r = (E' - E0)%R.

Lemma states_start nvib modes t :
  Permutation (flat_map members modes) (seq 0 nvib) ->
  restst_tables nvib (ioff (nvib + 1)) modes = Some t ->
  n1dm modes + n2dm modes + n3dm modes < length (t_states t) /\
  (forall p, p < n1dm modes -> nth_error (t_states t) (p + 1) = Some (I1st (unit1 nvib p 1))) /\
  (forall p, p < n2dm modes ->
     nth_error (t_states t) (n1dm modes + p + 1) = Some (I2st (punit1 nvib p (1, 1)))).
Proof.
  intros Hp E. destruct (tables_main nvib modes Hp) as (t' & E' & S & _).
  assert (t' = t) as -> by congruence.
  pose proof (part_counts nvib modes Hp) as Hc.
  rewrite S. unfold labels. rewrite !map_app, !map_map, !range_0.
  split; [|split].
  - cbn [length]. rewrite !app_length, !map_length, !seq_length. lia.
  - intros p L. replace (p + 1) with (Datatypes.S p) by lia. cbn [nth_error].
    rewrite nth_error_app1 by (rewrite map_length, seq_length; lia).
    rewrite nth_error_map_seq by lia. reflexivity.
  - intros p L. replace (n1dm modes + p + 1) with (Datatypes.S (n1dm modes + p)) by lia. cbn [nth_error].
    rewrite nth_error_app2 by (rewrite map_length, seq_length; lia).
    rewrite map_length, seq_length. replace (n1dm modes + p - n1dm modes) with p by lia.
    rewrite nth_error_app1 by (rewrite map_length, seq_length; lia).
    rewrite nth_error_map_seq by lia. reflexivity.
Qed.

Lemma rows_sym_lemma {I} nvib modes (fr : list R) x gc e0 eig2 f3 fm1 fm2 (irreps : list I) :
  Permutation (flat_map members modes) (seq 0 nvib) ->
  (forall i j, x i j = x j i) ->
  gc <> None \/ flat_map get2 modes = [] ->
  length irreps = nvib ->
  (forall i j, In (i, j) fm1 -> j < nvib) ->
  (forall i j k, In (i, j, k) fm2 -> k < nvib) ->
  exists t eng eng' o rws,
    restst_tables nvib (ioff (nvib + 1)) modes = Some t /\
    part1 (fun i => nth i fr 0%R) modes x gc e0 (t_states t) = Some eng /\
    enrgy eig2 f3 (make_fermi_checks fm1 fm2) modes t eng = Some eng' /\
    finish_lists true nvib modes fr x gc eng' irreps = Some o /\ table o = Some rws /\
    length rws = length (listed modes) /\
    forall p r, nth_error rws p = Some r ->
      row_mode r = p + 1 /\ nth_error irreps p = Some (row_irrep r) /\
      exists m, nth_error (listed modes) p = Some m /\ describes fr t eng eng' r m.
Proof.
  intros Hpart Sym Hg Li B1 B2.
  destruct (funds_sym_lemma nvib modes (fun i => nth i fr 0%R) x gc e0 Hpart Sym Hg)
    as (t & eng & harms & funds & Et & Ep & Ef & Lh & Lf & H1 & H2).
  destruct (tables_lemma nvib modes Hpart) as (t' & Et' & ND & _).
  assert (t' = t) as -> by congruence. clear Et'.
  assert (Hg' : gc <> None \/ n2dm modes = 0).
  { destruct Hg as [|Q]; [now left|right]. now rewrite n2dm_eq, i2mode_eq, Q. }
  assert (Ee : eng = map (state_energy modes (fun i => nth i fr 0%R) x gc e0) (t_states t)).
  { rewrite part1_R in Ep by exact Hg'. congruence. }
  assert (Le : length eng = length (t_states t)) by (rewrite Ee; apply map_length).
  destruct (ground_kept_lemma eig2 f3 fm1 fm2 nvib modes t eng Hpart Et Le B1 B2)
    as (eng' & En & Le' & G0).
  destruct (states_start nvib modes t Hpart Et) as (Ls & S1 & S2).
  destruct (corrs_lemma modes eng') as (c & E0 & Ec & Z & Lc & Hc); [lia|].
  assert (L1 : length (flat_map get1 modes) = n1dm modes) by now rewrite n1dm_eq, i1mode_eq.
  assert (L2 : length (flat_map get2 modes) = n2dm modes) by now rewrite n2dm_eq, i2mode_eq.
  assert (P3 : n1dm modes + n2dm modes <= nvib).
  { pose proof (part_counts nvib modes Hpart). lia. }
  exists t, eng, eng', (mk_lists harms funds c irreps).
  destruct (table (mk_lists harms funds c irreps)) as [rws|] eqn:Etab.
  2:{ exfalso. apply table_lemma in Etab. cbn [o_harms o_funds o_corrs o_irreps] in Etab. lia. }
  exists rws. split; [exact Et|]. split; [exact Ep|]. split; [exact En|].
  split.
  { unfold finish_lists. cbv zeta. rewrite nz_R. rewrite Ef. cbn [obind]. now rewrite Ec. }
  split; [reflexivity|].
  destruct (proj1 (table_lemma _) rws Etab) as [Lr Hr]. cbn [o_harms] in Lr.
  split; [rewrite Lr, Lh; unfold listed; now rewrite app_length, map_length|].
  intros p r Hp. destruct (Hr p r Hp) as (R1 & R2 & R3 & R4 & R5).
  cbn [o_harms o_funds o_corrs o_irreps] in *. split; [exact R1|]. split; [exact R2|].
  destruct (Hc p _ R5) as (E' & N' & Q').
  assert (p < length rws) as Hlt by (apply nth_error_Some; congruence).
  destruct (Nat.lt_ge_cases p (n1dm modes)) as [C|C].
  - destruct (nth_error (flat_map get1 modes) p) as [m|] eqn:Em.
    2:{ apply nth_error_None in Em. lia. }
    destruct (H1 p m Em) as (st & Ei & E0' & F1 & F2 & F3 & F4 & F5 & F6).
    assert (st = p + 1) as -> by exact (NoDup_nth_eq _ _ _ _ ND F2 (S1 p C)).
    exists m. split; [unfold listed; rewrite nth_error_app1 by lia; exact Em|].
    exists (p + 1), E0, Ei, E'. assert (E0' = E0) as -> by congruence.
    repeat split; try assumption; try congruence.
  - destruct (nth_error (flat_map get2 modes) (p - n1dm modes)) as [[m m']|] eqn:Em.
    2:{ apply nth_error_None in Em. lia. }
    destruct (H2 _ m m' Em) as (st & Ei & E0' & F1 & F1' & F2 & F3 & F4 & F5 & F6).
    assert (p - n1dm modes < n2dm modes) as C2 by lia.
    assert (st = p + 1) as ->.
    { pose proof (NoDup_nth_eq _ _ _ _ ND F2 (S2 _ C2)). lia. }
    rewrite L1 in F5, F6. replace (n1dm modes + (p - n1dm modes)) with p in F5, F6 by lia.
    exists m. split.
    { unfold listed. rewrite nth_error_app2 by lia. rewrite L1, nth_error_map, Em. reflexivity. }
    exists (p + 1), E0, Ei, E'. assert (E0' = E0) as -> by congruence.
    repeat split; try assumption; try congruence.
Qed.

Lemma rows_asym_lemma {I} nvib (fr : list R) x gc e0 eig2 f3 fm1 fm2 (irreps : list I) :
  (forall i j, x i j = x j i) ->
  length irreps = nvib -> nvib <= length fr ->
  (forall i j, In (i, j) fm1 -> j < nvib) ->
  (forall i j k, In (i, j, k) fm2 -> k < nvib) ->
  exists t eng eng' o rws,
    restst_tables nvib (ioff (nvib + 1)) (singles nvib) = Some t /\
    part1 (fun i => nth i fr 0%R) (singles nvib) x gc e0 (t_states t) = Some eng /\
    enrgy eig2 f3 (make_fermi_checks fm1 fm2) (singles nvib) t eng = Some eng' /\
    finish_lists false nvib (singles nvib) fr x gc eng' irreps = Some o /\ table o = Some rws /\
    length rws = nvib /\
    forall p r, nth_error rws p = Some r ->
      row_mode r = p + 1 /\ nth_error irreps p = Some (row_irrep r) /\ describes fr t eng eng' r p.
Proof.
  intros Sym Li Lfr B1 B2. set (modes := singles nvib). pose proof (singles_part nvib) as Hpart.
  fold modes in Hpart.
  destruct (funds_asym_lemma nvib (fun i => nth i fr 0%R) x gc e0 Sym)
    as (t & eng & Et & Ep & Lf & H1). fold modes in Et, Ep.
  destruct (tables_lemma nvib modes Hpart) as (t' & Et' & ND & _).
  assert (t' = t) as -> by congruence. clear Et'.
  assert (Hg' : gc <> None \/ n2dm modes = 0) by (right; apply n2dm_singles).
  assert (Ee : eng = map (state_energy modes (fun i => nth i fr 0%R) x gc e0) (t_states t)).
  { rewrite part1_R in Ep by exact Hg'. congruence. }
  assert (Le : length eng = length (t_states t)) by (rewrite Ee; apply map_length).
  destruct (ground_kept_lemma eig2 f3 fm1 fm2 nvib modes t eng Hpart Et Le B1 B2)
    as (eng' & En & Le' & G0).
  destruct (states_start nvib modes t Hpart Et) as (Ls & S1 & S2).
  destruct (corrs_lemma modes eng') as (c & E0 & Ec & Z & Lc & Hc); [lia|].
  unfold modes in Lc at 1 2 3, S1. rewrite n1dm_singles, n2dm_singles, n3dm_singles in Lc.
  rewrite n1dm_singles in S1.
  set (o := mk_lists (firstn nvib fr) (make_funds nvib (fun i => nth i fr 0%R) x) c irreps).
  exists t, eng, eng', o.
  destruct (table o) as [rws|] eqn:Etab.
  2:{ exfalso. apply table_lemma in Etab. cbn [o o_harms o_funds o_corrs o_irreps] in Etab.
      rewrite firstn_length in Etab. lia. }
  exists rws. split; [exact Et|]. split; [exact Ep|]. split; [exact En|].
  split.
  { unfold finish_lists, reported_harms. cbv zeta. rewrite nz_R.
    destruct (Nat.ltb_spec (length fr) nvib); [lia|]. cbn [obind]. now rewrite Ec. }
  split; [reflexivity|].
  destruct (proj1 (table_lemma _) rws Etab) as [Lr Hr]. unfold o in Lr. cbn [o_harms] in Lr.
  rewrite firstn_length in Lr. split; [lia|].
  intros p r Hp. destruct (Hr p r Hp) as (R1 & R2 & R3 & R4 & R5).
  unfold o in *. cbn [o_harms o_funds o_corrs o_irreps] in *. split; [exact R1|]. split; [exact R2|].
  destruct (Hc p _ R5) as (E' & N' & Q').
  assert (p < length rws) as Hlt by (apply nth_error_Some; congruence).
  destruct (H1 p ltac:(lia)) as (st & Ei & E0' & F1 & F2 & F3 & F4 & F6).
  assert (st = p + 1) as -> by exact (NoDup_nth_eq _ _ _ _ ND F2 (S1 p ltac:(lia))).
  exists (p + 1), E0, Ei, E'. assert (E0' = E0) as -> by congruence.
  assert (row_harm r = nth p fr 0%R).
  { assert (nth_error fr p = Some (row_harm r)) as Q.
    { rewrite <- R3. rewrite <- (firstn_skipn nvib fr) at 1. apply nth_error_app1.
      rewrite firstn_length. lia. }
    symmetry. now apply nth_error_nth. }
  repeat split; try assumption; try congruence.
Qed.
