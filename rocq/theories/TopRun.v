(** The result of [finish] for symmetric tops without Fermi resonances. *)
From Coq Require Import Reals Lra List ZArith Arith Lia Bool Permutation Sorted FunctionalExtensionality.
From Verif Require Import Num Loops ListFacts Index LoadFacts Modes ModesFacts ResFacts ResWitness
  StatesFacts IndexFacts Anharm AnharmFacts EnergyFacts FermiFacts VibRot Distort Transform TransformFacts
  RotFacts NormalFacts HarmFacts ModeFacts SymAnharm
  Polyads Report OutputFacts VibRotFacts SymRotFacts Geom IrrepFacts Finish FinishFacts RunFacts
  PerturbFacts PerturbSum PerturbLevels SymE0 SymPerturb SymLevels SymFacts RunSecond.
Import ListNotations.
Open Scope nat_scope.
Local Open Scope R_scope.

Lemma nth_nil_0 k i : nth i (repeat 0%nat k) 0%nat = 0%nat.
Proof. revert i. induction k as [|k IH]; intros [|i]; cbn; auto. Qed.
Lemma nth_nil_00 k i : nth i (repeat (0, 0)%nat k) (0, 0)%nat = (0, 0)%nat.
Proof. revert i. induction k as [|k IH]; intros [|i]; cbn; auto. Qed.
Lemma sorted_nodup l : StronglySorted lt l -> NoDup l.
Proof.
  induction 1 as [|a l _ IH H]; constructor; [|exact IH]. intros Hin. rewrite Forall_forall in H. specialize (H a Hin). lia.
Qed.

Section Top.
  Context {I : Type}.
  Variables (eig2 : R -> R -> R -> R * R * (R * R)).

  Lemma finish_top m freql f3l f4l (irreps : list I) lxm lx o :
    let n := m_nvib m in
    let w := fun i => nth i freql 0 in
    let f3 := fun i j k => nth (find3 i j k) f3l 0 in
    let f4 := fun i j k l => nth (find4 i j k l) f4l 0 in
    let zeta := zeta_of (m_natom m) lxm in
    let wl := wila (m_natom m) (m_geom m) (m_w m) lxm in
    let B := m_rotcon m in
    let modes := rs_modes (out_resonances o) in
    is_sym_top (m_rotor m) = Some true ->
    finish eig2 false m freql f3l f4l irreps lxm lx = Some o ->
    restst_tables n (ioff (n + 1)) modes = Some (rs_tables (out_resonances o)) ->
    top_field n modes w f3 f4 zeta B (m_rotor m) wl ->
    rs_fermi1 (out_resonances o) = [] -> rs_fermi2 (out_resonances o) = [] ->
    o_harms (out_lists o) = map w (OutputFacts.listed modes) /\ o_funds (out_lists o) = o_corrs (out_lists o) /\
    length (o_corrs (out_lists o)) = length (OutputFacts.listed modes) /\
    forall us0, intermediate n f3 ground us0 ->
      out_zpt o = perturbed n w f3 f4 zeta B none ground us0 + angular_shift n zeta B
        - / 2 * Rsum (degs modes) (fun p => B 2%nat * Rsqr (zeta (fst p) (snd p) 2%nat))
        + e0_gap (m_rotor m) modes w f3 /\
      forall p k us, nth_error (OutputFacts.listed modes) p = Some k -> intermediate n f3 (one k) us ->
        nth_error (o_corrs (out_lists o)) p
        = Some (perturbed n w f3 f4 zeta B none (one k) us - perturbed n w f3 f4 zeta B none ground us0).
  Proof.
    intros n w f3 f4 zeta wl B modes Hr E Et TF E1 E2.
    destruct (finish_inv _ _ _ _ _ _ _ _ _ E) as (sym & x & g & e0 & lev & eng & rows & _ & _ & Es & Ex & Ep & _ & Ee & El & _ & _ & _ & Ez & _).
    rewrite Hr in Es. injection Es as <-. rewrite E1, E2 in *. fold modes in Ex, Ep, Ee, El.
    assert (Wf : (fun i => nth i freql (nz 0)) = w) by (unfold w; rewrite nz_R; reflexivity). rewrite Wf in *.
    assert (W3 : (fun i j k => nth (find3 i j k) f3l (nz 0)) = f3) by (unfold f3; rewrite nz_R; reflexivity). rewrite W3 in *.
    assert (W4 : (fun i j k l => nth (find4 i j k l) f4l (nz 0)) = f4) by (unfold f4; rewrite nz_R; reflexivity). rewrite W4 in *.
    assert (Z : zmat (m_natom m) lxm = zeta).
    { unfold zeta. extensionality i. extensionality j. extensionality a. apply zeta_of_zmat. }
    rewrite Z in *. fold wl B in Ex.
    destruct (xcals f4 w f3 zeta B (m_rotor m) [] [] modes wl) as [[[x' g'] e']|] eqn:EX; cbn [obind] in Ex; [|discriminate].
    apply some_triple in Ex as (<- & <- & <-). rename x' into x, g' into g, e' into e0.
    destruct (xcals_symm _ _ _ _ _ _ _ _ _ _ _ _ _ EX) as [Sx _].
    pose proof TF as [T1 T2 T3 T4 T5 T6 T7 T8 T9 T10 T11 (ax & T12 & T13)].
    destruct (funds_sym_lemma n modes w x (Some g) e0 T1 Sx) as (t & eng1 & harms & funds & Et1 & Ep1 & Ef & Lh & Lf & H1 & H2).
    { left; discriminate. }
    assert (t = rs_tables (out_resonances o)) as -> by congruence.
    assert (eng1 = lev) as -> by congruence.
    assert (eng = lev) as ->. { unfold enrgy in Ee. rewrite (no_fermi_ops_lemma n) in Ee by assumption. cbn in Ee. congruence. }
    set (t := rs_tables (out_resonances o)) in *.
    assert (Hg : (Some g : option (nat -> nat -> R)) <> None \/ n2dm modes = 0%nat) by (left; discriminate).
    assert (Ee' : lev = map (state_energy modes w x (Some g) e0) (t_states t)).
    { rewrite part1_R in Ep by exact Hg. congruence. }
    assert (Ll : length lev = length (t_states t)) by (rewrite Ee'; apply map_length).
    destruct (states_start n modes t T1 Et) as (Ls & S1 & S2).
    destruct (tables_main n modes T1) as (t' & Et' & S0 & _).
    assert (t' = t) as -> by congruence. clear Et' Et1 Ep1.
    destruct (corrs_lemma modes lev) as (c & E0 & Ec & EZ & Lc & Hc); [lia|].
    unfold finish_lists in El. rewrite Wf in El. rewrite Ef in El. cbn [obind] in El. rewrite Ec in El. cbn [obind] in El. injection El as El.
    rewrite <- El. cbn [o_harms o_funds o_corrs].
    assert (L1 : length (flat_map get1 modes) = n1dm modes) by now rewrite n1dm_eq, i1mode_eq.
    assert (L2 : length (flat_map get2 modes) = n2dm modes) by now rewrite n2dm_eq, i2mode_eq.
    assert (N3 : n3dm modes = 0%nat).
    { rewrite n3dm_eq.
      assert (Q : flat_map get3 modes = []).
      { clear - T2. induction modes as [|mo l IH]; [reflexivity|]. cbn [flat_map]. rewrite IH by (intros i j k H; apply (T2 i j k); now right).
        destruct mo as [| |i j k]; try reflexivity. exfalso. apply (T2 i j k). now left. }
      rewrite i3mode_eq, Q. reflexivity. }
    assert (LL : length (OutputFacts.listed modes) = (n1dm modes + n2dm modes)%nat) by (unfold OutputFacts.listed; rewrite app_length, map_length; lia).
    destruct (tables_lemma n modes T1) as (t' & Et' & ND & _).
    assert (t' = t) as -> by congruence. clear Et'.
    (* the fundamentals *)
    assert (NF : forall p, (p < length (OutputFacts.listed modes))%nat -> nth_error harms p = Some (w (nth p (OutputFacts.listed modes) 0%nat)) /\
      nth_error funds p = nth_error c p).
    { intros p Hp. rewrite LL in Hp.
      assert (Cp : exists y, nth_error c p = Some y).
      { destruct (nth_error c p) eqn:Q; [eauto|]. apply nth_error_None in Q. lia. }
      destruct Cp as (y & Cp). rewrite Cp. destruct (Hc p y Cp) as (E' & N' & ->).
      destruct (Nat.lt_ge_cases p (n1dm modes)) as [C|C].
      - destruct (nth_error (flat_map get1 modes) p) as [k|] eqn:Em.
        2:{ apply nth_error_None in Em. lia. }
        destruct (H1 p k Em) as (st & Ei & E0' & F1 & F2 & F3 & F4 & F5 & F6).
        assert (st = (p + 1)%nat) as -> by exact (NoDup_nth_eq _ _ _ _ ND F2 (S1 p C)).
        rewrite F5, F6. split.
        + unfold OutputFacts.listed. rewrite app_nth1 by lia. now rewrite (nth_error_nth _ _ 0%nat Em).
        + f_equal. cbn. congruence.
      - destruct (nth_error (flat_map get2 modes) (p - n1dm modes)) as [[k k']|] eqn:Em.
        2:{ apply nth_error_None in Em. lia. }
        destruct (H2 _ k k' Em) as (st & Ei & E0' & F1 & F1' & F2 & F3 & F4 & F5 & F6).
        assert (p - n1dm modes < n2dm modes)%nat as C2 by lia.
        assert (st = (p + 1)%nat) as ->.
        { pose proof (NoDup_nth_eq _ _ _ _ ND F2 (S2 _ C2)). lia. }
        rewrite L1 in F5, F6. replace (n1dm modes + (p - n1dm modes))%nat with p in F5, F6 by lia.
        rewrite F5, F6. split.
        + unfold OutputFacts.listed. rewrite app_nth2 by lia. rewrite L1.
          rewrite (nth_error_nth (map fst (flat_map get2 modes)) _ 0%nat (x := k)); [reflexivity|]. now rewrite nth_error_map, Em.
        + f_equal. cbn. congruence. }
    split.
    { apply list_ext; [rewrite map_length; lia|]. intros p Hp. destruct (NF p) as [-> _]; [lia|].
      symmetry. rewrite nth_error_map. rewrite (nth_error_nth' (OutputFacts.listed modes) 0%nat) by lia. reflexivity. }
    split. { apply list_ext; [lia|]. intros p Hp. apply (NF p). lia. }
    split; [lia|].
    intros us0 Hus0.
    assert (Lev : forall q st v us, nth_error (t_states t) q = Some st -> intermediate n f3 v us ->
      (forall i k, nth_error (nondeg modes) i = Some k -> nth i (state_i1 st) 0%nat = v k) ->
      (forall i a b, nth_error (degs modes) i = Some (a, b) -> fst (nth i (state_i2 st) (0, 0)%nat) = (v a + v b)%nat) ->
      definite modes v (fun i => snd (nth i (state_i2 st) (0, 0)%nat)) ->
      nth_error lev q = Some (perturbed n w f3 f4 zeta B none v us + angular_shift n zeta B
        - / 2 * Rsum (degs modes) (fun p => B 2%nat * Rsqr (zeta (fst p) (snd p) 2%nat))
        + e0_gap (m_rotor m) modes w f3)).
    { intros q st v us Hq Hus V1 V2 Df. rewrite Ee', nth_error_map, Hq. cbn [option_map]. f_equal.
      pose proof (levels_lemma n modes w f3 f4 zeta B (m_rotor m) wl x g e0 TF EX v
        (fun i => nth i (state_i1 st) 0%nat) (fun i => nth i (state_i2 st) (0, 0)%nat) us Hus V1 V2) as L.
      rewrite level_R in L by exact Hg. apply (f_equal (fun o => match o with Some z => z | None => 0 end)) in L.
      unfold state_energy. rewrite L.
      rewrite (definite_l n modes w f3 f4 zeta B (m_rotor m) wl g TF v _ Df), (definite_polar n modes w f3 f4 zeta B v _ Df). lra. }
    assert (G0 : nth_error lev 0 = Some (perturbed n w f3 f4 zeta B none ground us0 + angular_shift n zeta B
        - / 2 * Rsum (degs modes) (fun p => B 2%nat * Rsqr (zeta (fst p) (snd p) 2%nat))
        + e0_gap (m_rotor m) modes w f3)).
    { apply (Lev 0%nat (I1st (repeat 0%nat n)) ground us0); [rewrite S0; reflexivity|exact Hus0|..].
      - intros i k _. cbn [state_i1]. apply nth_repeat_0.
      - intros i a b _. cbn [state_i2]. rewrite nth_nil_00. reflexivity.
      - split.
        + intros i a b _. left. cbn [state_i2]. rewrite nth_nil_00. repeat split.
        + intros i j _ _ Hi. cbn [state_i2] in Hi. rewrite nth_nil_00 in Hi. now elim Hi. }
    split; [congruence|].
    intros p k us Hk Hus.
    assert (Hp : (p < length (OutputFacts.listed modes))%nat) by (apply nth_error_Some; congruence).
    pose proof (Hpart n modes w f3 f4 zeta B (m_rotor m) wl TF) as HP.
    assert (G1 : nth_error lev (p + 1) = Some (perturbed n w f3 f4 zeta B none (one k) us + angular_shift n zeta B
        - / 2 * Rsum (degs modes) (fun p => B 2%nat * Rsqr (zeta (fst p) (snd p) 2%nat))
        + e0_gap (m_rotor m) modes w f3)).
    { assert (Nn : NoDup (nondeg modes ++ flat_map (fun '(a, b) => [a; b]) (degs modes))).
      { eapply Permutation_NoDup; [symmetry; exact HP|apply seq_NoDup]. }
      pose proof (NoDup_app_inv _ _ Nn) as (ND1 & ND2 & DJ).
      assert (Len : (length (nondeg modes) + length (degs modes) <= n)%nat).
      { unfold nondeg, degs. rewrite L1, L2. pose proof (part_counts n modes T1). lia. }
      unfold OutputFacts.listed in Hk, Hp. fold (nondeg modes) (degs modes) in Hk, Hp. rewrite app_length, map_length in Hp.
      assert (UN : forall i q y, (i < n)%nat -> nth i (unit1 n q y) 0%nat = if (i =? q)%nat then y else 0%nat).
      { intros i q y Hi. unfold unit1. now rewrite (nth_map_seq (fun a => if (a =? q)%nat then y else 0%nat)). }
      assert (PN : forall i q y, (i < n)%nat -> nth i (punit1 n q y) (0, 0)%nat = if (i =? q)%nat then y else (0, 0)%nat).
      { intros i q y Hi. unfold punit1. now rewrite (nth_map_seq (fun a => if (a =? q)%nat then y else (0, 0)%nat)). }
      assert (PD : forall i a b, nth_error (degs modes) i = Some (a, b) -> forall j c d, nth_error (degs modes) j = Some (c, d) ->
        (a = c \/ b = c) -> i = j /\ a = c).
      { intros i a b Hi j c' d Hj Hor.
        pose proof (nth_error_In _ _ Hi) as Ii. pose proof (nth_error_In _ _ Hj) as Ij.
        pose proof (ts_nd n (nondeg modes) (degs modes) HP) as Td.
        pose proof (sorted_nodup _ T3) as NDf.
        destruct Hor as [->| ->].
        - split; [|reflexivity]. apply (NoDup_nth_eq (firsts modes) i j c' NDf); unfold firsts; rewrite nth_error_map; [rewrite Hi|rewrite Hj]; reflexivity.
        - exfalso. exact (proj1 (pair_facts (degs modes) (c', d) (a, c') Td Ij Ii) eq_refl). }
      destruct (Nat.lt_ge_cases p (length (nondeg modes))) as [C|C].
      - rewrite nth_error_app1 in Hk by exact C.
        apply (Lev (p + 1)%nat (I1st (unit1 n p 1)) (one k) us); [apply S1; unfold nondeg in C; lia|exact Hus|..].
        + intros i k' Hi. cbn [state_i1].
          assert (i < length (nondeg modes))%nat by (apply nth_error_Some; congruence).
          rewrite UN by lia. unfold one. destruct (Nat.eqb_spec i p) as [->|Ni].
          * assert (k' = k) as -> by congruence. now rewrite Nat.eqb_refl.
          * destruct (Nat.eqb_spec k' k) as [->|]; [|reflexivity]. elim Ni. exact (NoDup_nth_eq _ _ _ _ ND1 Hi Hk).
        + intros i a b Hi. cbn [state_i2]. rewrite nth_nil_00. cbn [fst]. unfold one.
          apply nth_error_In in Hi. apply nth_error_In in Hk.
          destruct (Nat.eqb_spec a k) as [->|]; [|destruct (Nat.eqb_spec b k) as [->|]; [|reflexivity]];
            elim (DJ k Hk); apply in_flat_map; eexists; (split; [exact Hi|]); cbn; auto.
        + split.
          * intros i a b Hi. left. cbn [state_i2]. rewrite nth_nil_00. unfold one.
            apply nth_error_In in Hi. apply nth_error_In in Hk.
            destruct (Nat.eqb_spec a k) as [->|]; [|destruct (Nat.eqb_spec b k) as [->|]; [|auto]];
              elim (DJ k Hk); apply in_flat_map; eexists; (split; [exact Hi|]); cbn; auto.
          * intros i j _ _ Hi. cbn [state_i2] in Hi. rewrite nth_nil_00 in Hi. now elim Hi.
      - rewrite nth_error_app2 in Hk by exact C. rewrite nth_error_map in Hk.
        set (q := (p - length (nondeg modes))%nat) in *.
        destruct (nth_error (degs modes) q) as [[k1 k2]|] eqn:Hq; [|discriminate]. cbn in Hk. injection Hk as ->.
        assert (Hq' : (q < length (degs modes))%nat) by (apply nth_error_Some; congruence).
        replace (p + 1)%nat with (n1dm modes + q + 1)%nat by (unfold q, nondeg in *; lia).
        pose proof (nth_error_In _ _ Hq) as Iq.
        apply (Lev _ (I2st (punit1 n q (1, 1)%nat)) (one k) us); [apply S2; unfold degs in Hq'; lia|exact Hus|..].
        + intros i k' Hi. cbn [state_i1]. rewrite nth_nil_0. unfold one. destruct (Nat.eqb_spec k' k) as [->|]; [|reflexivity].
          apply nth_error_In in Hi. elim (DJ k Hi). apply in_flat_map. exists (k, k2). cbn. auto.
        + intros i a b Hi. cbn [state_i2].
          assert (i < length (degs modes))%nat by (apply nth_error_Some; congruence).
          rewrite PN by lia. unfold one. destruct (Nat.eqb_spec i q) as [->|Ni].
          * assert (a = k /\ b = k2) as [-> ->] by (split; congruence). rewrite Nat.eqb_refl.
            destruct (Nat.eqb_spec k2 k) as [->|]; [|reflexivity].
            exfalso. exact (proj1 (pair_facts (degs modes) (k, k) (k, k) (ts_nd n (nondeg modes) (degs modes) HP) Iq Iq) eq_refl).
          * destruct (Nat.eqb_spec a k) as [->|]; [elim Ni; exact (proj1 (PD i k b Hi q k k2 Hq (or_introl eq_refl)))|].
            destruct (Nat.eqb_spec b k) as [->|]; [elim Ni; exact (proj1 (PD i a k Hi q k k2 Hq (or_intror eq_refl)))|]. reflexivity.
        + assert (Nk : k2 <> k).
          { intros ->. exact (proj1 (pair_facts (degs modes) (k, k) (k, k) (ts_nd n (nondeg modes) (degs modes) HP) Iq Iq) eq_refl). }
          split.
          * intros i a b Hi. cbn [state_i2].
            assert (i < length (degs modes))%nat by (apply nth_error_Some; congruence).
            rewrite PN by lia. unfold one. destruct (Nat.eqb_spec i q) as [->|Ni].
            -- assert (a = k /\ b = k2) as [-> ->] by (split; congruence). rewrite Nat.eqb_refl.
               destruct (Nat.eqb_spec k2 k) as [|]; [congruence|]. right. left. auto.
            -- left. destruct (Nat.eqb_spec a k) as [->|]; [elim Ni; exact (proj1 (PD i k b Hi q k k2 Hq (or_introl eq_refl)))|].
               destruct (Nat.eqb_spec b k) as [->|]; [elim Ni; exact (proj1 (PD i a k Hi q k k2 Hq (or_intror eq_refl)))|]. auto.
          * intros i j Li Lj Hi Hj. cbn [state_i2] in Hi, Hj. rewrite PN in Hi, Hj by lia.
            destruct (Nat.eqb_spec i q) as [->|]; [|now elim Hi]. destruct (Nat.eqb_spec j q) as [->|]; [reflexivity|now elim Hj]. }
    destruct (nth_error c p) as [y|] eqn:Cp. 2:{ apply nth_error_None in Cp. lia. }
    destruct (Hc p y Cp) as (E' & N' & ->). f_equal. cbn.
    rewrite G1 in N'. rewrite G0 in EZ. injection N' as <-. injection EZ as <-. lra.
  Qed.
End Top.
