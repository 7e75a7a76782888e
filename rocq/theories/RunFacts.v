(** Lemmas about [finish] and [run] as wholes. *)
From Coq Require Import List ZArith Arith Lia Bool Permutation.
From Verif Require Import Num Loops ListFacts Index LoadFacts Modes ModesFacts ResFacts ResWitness
  StatesFacts IndexFacts Anharm EnergyFacts FermiFacts VibRot Distort Transform HarmFacts SymAnharm Polyads Report
  OutputFacts VibRotFacts SymRotFacts Geom IrrepFacts Finish FinishFacts.
Import ListNotations.
Open Scope nat_scope.

(** ** taking a successful [finish] apart *)
Section Inversion.
  Context {F I : Type} `{Num F}.
  Variable eig2 : F -> F -> F -> F * F * (F * F).

  Lemma finish_inv (m : molecule F) (freql f3l f4l : list F) (irreps : list I) lxm lx o :
    finish eig2 false m freql f3l f4l irreps lxm lx = Some o ->
    let r := m_rotor m in
    let nvib := m_nvib m in
    let freq i := nth i freql (nz 0) in
    let f3 i j k := nth (find3 i j k) f3l (nz 0) in
    let f4 i j k l := nth (find4 i j k l) f4l (nz 0) in
    let zm := zmat (m_natom m) lxm in
    let wl := wila (m_natom m) (m_geom m) (m_w m) lxm in
    let rs := out_resonances o in
    let modes := rs_modes rs in
    let states := t_states (rs_tables rs) in
    let c := make_fermi_checks (rs_fermi1 rs) (rs_fermi2 rs) in
    exists sym x g e0 lev eng rows,
      quartic_new r nvib (m_rotcon m) (m_primat m) freq wl = Some (out_quartic o) /\
      restst_new r nvib zm f3 freq = Some rs /\
      is_sym_top r = Some sym /\
      (if sym : bool then
         let* (x, g, e0) := xcals f4 freq f3 zm (m_rotcon m) r (rs_fermi1 rs) (rs_fermi2 rs) modes wl in
         Some (x, Some g, e0)
       else Some (xcalc nvib f4 freq f3 zm (m_rotcon m) (rs_fermi1 rs) (rs_fermi2 rs), None,
                  make_e0 f4 freq f3 c modes)) = Some (x, g, e0) /\
      part1 freq modes x g e0 states = Some lev /\
      length lev = length states /\
      enrgy eig2 f3 c modes (rs_tables rs) lev = Some eng /\
      finish_lists sym nvib modes freql x g eng irreps = Some (out_lists o) /\
      (if sym || is_diatomic r
       then alphas (m_rotcon m) (m_primat m) freq wl zm f3 r modes states (rs_coriolis rs)
       else alphaa nvib (m_rotcon m) (m_primat m) freq wl zm f3 modes states (rs_coriolis rs)) = Some rows /\
      (if sym || is_diatomic r then
         if is_spherical_top r then None
         else rots (m_rotcon m) r rows states (bxs (out_quartic o)) (bys (out_quartic o)) (bzs (out_quartic o))
       else rota (m_rotcon m) (nth 7 (m_header m) 4%Z) rows states
              (bxa (out_quartic o)) (bya (out_quartic o)) (bza (out_quartic o))) = Some (out_rots o) /\
      sextic_new r nvib (length freql) (m_rotcon m) (m_primat m) freq wl zm f3 = Some (out_sextic o) /\
      nth_error eng 0 = Some (out_zpt o) /\
      out_rot_equil o = m_rotcon m /\ out_linear o = is_linear r /\
      to_vec (3 * m_natom m) (3 * m_natom m) (storage (3 * m_natom m) lxm) = Some (out_lxm o) /\
      to_vec (3 * m_natom m) (3 * m_natom m) (storage (3 * m_natom m) lx) = Some (out_lx o).
  Proof.
    intros E. unfold finish in E. cbv zeta in E. cbn [andb] in E.
    match type of E with obind ?a _ = _ => destruct a as [q|] eqn:Eq; [|discriminate] end. cbn [obind] in E.
    match type of E with obind ?a _ = _ => destruct a as [rs|] eqn:Er; [|discriminate] end. cbn [obind] in E.
    match type of E with obind ?a _ = _ => destruct a as [sym|] eqn:Es; [|discriminate] end. cbn [obind] in E.
    match type of E with obind ?a _ = _ => destruct a as [[[x g] e0]|] eqn:Ex; [|discriminate] end. cbn [obind] in E.
    match type of E with obind ?a _ = _ => destruct a as [lev|] eqn:El; [|discriminate] end. cbn [obind] in E.
    assert (Ll : length lev = length (t_states (rs_tables rs))).
    { unfold part1 in El.
      assert (G : forall fr md l acc lev, ofold (fun eng s =>
          let* x0 := level fr md x g e0 (fun ii => nth ii (state_i1 s) 0) (fun ii => nth ii (state_i2 s) (0, 0)) in
          Some (eng ++ [x0])) l acc = Some lev -> length lev = length acc + length l).
      { clear. induction l as [|s l IH]; intros acc lev E; cbn [ofold] in E.
        - injection E as <-. cbn. lia.
        - destruct (level _ _ _ _ _ _ _); [|discriminate]. cbn [obind] in E.
          apply IH in E. rewrite app_length in E. cbn [length] in *. lia. }
      apply G in El. cbn in El. exact El. }
    rewrite <- Ll, overwrite in E by now rewrite repeat_length. cbn [obind] in E.
    match type of E with obind ?a _ = _ => destruct a as [eng|] eqn:Ee; [|discriminate] end. cbn [obind] in E.
    match type of E with obind ?a _ = _ => destruct a as [li|] eqn:Ei; [|discriminate] end. cbn [obind] in E.
    match type of E with obind ?a _ = _ => destruct a as [rows|] eqn:Ea; [|discriminate] end. cbn [obind] in E.
    match type of E with obind ?a _ = _ => destruct a as [rt|] eqn:Eo; [|discriminate] end. cbn [obind] in E.
    match type of E with obind ?a _ = _ => destruct a as [sx|] eqn:Esx; [|discriminate] end. cbn [obind] in E.
    match type of E with obind ?a _ = _ => destruct a as [zp|] eqn:Ez; [|discriminate] end. cbn [obind] in E.
    match type of E with obind ?a _ = _ => destruct a as [v1|] eqn:E1; [|discriminate] end. cbn [obind] in E.
    match type of E with obind ?a _ = _ => destruct a as [v2|] eqn:E2; [|discriminate] end. cbn [obind] in E.
    injection E as <-. cbv zeta. cbn [out_lists out_rots out_rot_equil out_quartic out_sextic out_zpt out_linear out_lxm out_lx out_resonances].
    exists sym, x, g, e0, lev, eng, rows. auto 20.
  Qed.
End Inversion.

(** ** [force3] and [force4] do not panic when there are modes *)
Lemma force3_total {F} `{Num F} n f3 lx nvib (w : nat -> F) : 0 < nvib -> exists v, force3 n f3 lx nvib w = Some v.
Proof. intros Hn. unfold force3. destruct (Nat.eqb_spec nvib 0); [lia|]. eauto. Qed.
Lemma force4_total {F} `{Num F} n f4 lx nvib (w : nat -> F) : 0 < nvib -> exists v, force4 n f4 lx nvib w = Some v.
Proof.
  intros Hn. unfold force4. destruct (Nat.eqb_spec nvib 0); [lia|].
  assert (G : forall A (f : list F -> A -> option (list F)) l N v, length v = N ->
    (forall v a, length v = N -> In a l -> exists v', f v a = Some v' /\ length v' = N) ->
    exists v', ofold f l v = Some v' /\ length v' = N).
  { clear. intros A f l N. induction l as [|a l IH]; intros v L Hf; cbn [ofold]; [eauto|].
    destruct (Hf v a L (or_introl eq_refl)) as (v' & -> & L'). apply IH; [exact L'|]. intros; apply Hf; auto. now right. }
  set (n1 := nvib - 1). set (N := find4 n1 n1 n1 n1 + 1).
  match goal with |- exists v, ofold ?f ?l ?s = Some v => assert (Q : exists v', ofold f l s = Some v' /\ length v' = N) end.
  { apply G; [apply repeat_length|]. intros v i Lv Hi%in_range. apply G; [exact Lv|]. intros v0 j Lv0 Hj%in_range.
    apply G; [exact Lv0|]. intros v1 k Lv1 Hk%in_range. apply G; [exact Lv1|]. intros v2 l Lv2 Hl%in_range.
    assert (B : find4 k l i j < N).
    { assert (find4 k l i j < t4 nvib) by (apply find4_bound; repeat split; lia).
      assert (N = t4 nvib); [|lia]. unfold N.
      rewrite find4_sorted by lia. replace nvib with (S n1) at 1 by (unfold n1; lia). cbn [t4 t3 t2].
      lia. }
    unfold f4qcm_set.
    match goal with |- exists v', set_nth _ _ ?x = _ /\ _ =>
      destruct (set_nth_spec v2 (find4 k l i j) x) as (v' & E' & L' & _); [lia|] end.
    exists v'. split; [exact E'|lia]. }
  destruct Q as (v & E' & _). exists v. exact E'.
Qed.

(** ** the harmonic part *)
Lemma sort_pairs_length {F} `{Num F} b (l : list (nat * F)) : length (sort_pairs b l) = length l.
Proof.
  induction l as [|p l IH]; [reflexivity|]. cbn [sort_pairs fold_right]. fold (sort_pairs b l).
  cbn [length]. rewrite <- IH. generalize (sort_pairs b l). clear. intros l.
  induction l as [|q l IH]; [reflexivity|]. cbn [insert_pair].
  destruct (before b (snd q) (snd p)); cbn [length]; [now rewrite IH|reflexivity].
Qed.
Lemma sort_eigen_total {F} `{Num F} vals (vecs : nat -> nat -> F) cols b : cols <= length vals ->
  exists vals' vecs', sort_eigen vals vecs cols b = Some (vals', vecs') /\ length vals' = length vals.
Proof.
  intros Hc. unfold sort_eigen. set (pairs := sort_pairs b _).
  assert (Lp : length pairs = length vals).
  { unfold pairs. rewrite sort_pairs_length, combine_length, range_0, seq_length. apply Nat.min_id. }
  match goal with |- context [ofold ?f ?l ?s] => destruct (ofold_total f l s) as (v & E) end.
  { intros s a Ha%in_range. destruct (nth_error pairs a) eqn:E; [cbn [obind]; eauto|].
    apply nth_error_None in E. lia. }
  rewrite E. cbn [obind]. eexists _, _. split; [reflexivity|]. now rewrite map_length.
Qed.
Lemma harmonic_total {F} `{Num F} natom axes fc2 w eig vals (vecs : nat -> nat -> F) :
  eig (secular natom axes fc2 w) = (vals, vecs) -> 3 * natom <= length vals ->
  exists freql lxm, harmonic natom axes fc2 w eig = Some (freql, lxm) /\ length freql = length vals.
Proof.
  intros E L. unfold harmonic. rewrite E.
  destruct (sort_eigen_total vals vecs (3 * natom) true L) as (v' & V & -> & L').
  cbn [obind]. eexists _, _. split; [reflexivity|]. now rewrite map_length.
Qed.

(** ** a whole run *)
Section Run.
  Context {F I : Type} `{Num F} `{Trig F}.
  Variables (eig2 : F -> F -> F -> F * F * (F * F))
    (eig : (nat -> nat -> F) -> list F * (nat -> nat -> F))
    (label : (nat -> F * F * F) -> (nat -> nat -> F) -> nat -> F -> option I) (A : I) (fuel : nat)
    (buddy : option nat).

  (** the modes used after the harmonic part: those of a symmetric top are aligned first *)
  Definition aligned (m : molecule F) iatom order (freql : list F) (lxm lx lxm' lx' : nat -> nat -> F) : Prop :=
    if match m_rotor m with OblateSymmTop | ProlateSymmTop | Linear => true | _ => false end
    then bdegnl (is_linear (m_rotor m)) (m_natom m) (m_nvib m) iatom order buddy
           (fun i => nth i freql (nz 0)) (m_w m) lxm lx = Some (lxm', lx')
    else lxm' = lxm /\ lx' = lx.

  (** the loop of the labels ends *)
  Definition labels_end : Prop := exists k, k < fuel /\ ngeb (raised (nlit 1 10000) k) (nlit 1 10) = true.

  Lemma run_prefix polyad m axes iatom order d freql lxm lxm' lx' :
    let lx := make_lx (3 * m_natom m) (make_sqm (m_w m)) lxm in
    m_rotor m <> SphericalTop -> m_rotor m <> NoRotor -> labels_end ->
    harmonic (m_natom m) axes (derivative_fc2 d) (m_w m) eig = Some (freql, lxm) ->
    aligned m iatom order freql lxm lx lxm' lx' ->
    exists irreps, length irreps = Nat.min (m_nvib m) (3 * m_natom m) /\
    (forall i x, nth_error irreps i = Some x -> found (label (m_geom m) lxm') A i (nlit 1 10000) x) /\
    run eig2 eig label A fuel buddy polyad m axes iatom order d =
    match d with
    | Harmonic _ =>
        let* o := harmonic_lists (m_nvib m) freql irreps in
        let* vlxm := to_vec (3 * m_natom m) (3 * m_natom m) (storage (3 * m_natom m) lxm') in
        let* vlx := to_vec (3 * m_natom m) (3 * m_natom m) (storage (3 * m_natom m) lx') in
        Some (HarmonicResult o (m_rotcon m) vlxm vlx (is_linear (m_rotor m)))
    | Cubic _ _ => None
    | Quartic _ f3x f4x =>
        let* f3l := force3 (3 * m_natom m) (rot3rd (m_natom m) (3 * m_natom m) axes f3x) lx' (m_nvib m)
          (fun i => nth i freql (nz 0)) in
        let* f4l := force4 (3 * m_natom m) (rot4th (m_natom m) (3 * m_natom m) axes f4x) lx' (m_nvib m)
          (fun i => nth i freql (nz 0)) in
        let* o := finish eig2 polyad m freql f3l f4l irreps lxm' lx' in
        Some (FullResult o)
    end.
  Proof.
    intros lx H1 H2 (k & Hk & G) Eh Al. unfold run. rewrite Eh. cbn [obind]. fold lx.
    destruct (irreps_ends (label (m_geom m) lxm') A fuel (3 * m_natom m) (m_nvib m) (nlit 1 10000) k G Hk)
      as (irreps & Ei & Li & Fi).
    exists irreps. split; [exact Li|]. split; [exact Fi|].
    assert (is_sym_top (m_rotor m) = Some (match m_rotor m with OblateSymmTop | ProlateSymmTop | Linear => true | _ => false end)) as ->
      by (destruct (m_rotor m); try contradiction; reflexivity).
    cbn [obind]. unfold aligned in Al.
    destruct (match m_rotor m with OblateSymmTop | ProlateSymmTop | Linear => true | _ => false end).
    - rewrite Al. cbn [obind]. rewrite Ei. cbn [obind]. reflexivity.
    - destruct Al as [-> ->]. cbn [obind]. rewrite Ei. cbn [obind]. reflexivity.
  Qed.
End Run.

Section RunTotal.
  Context {F I : Type} `{Num F} `{Trig F}.
  Variables (eig2 : F -> F -> F -> F * F * (F * F))
    (eig : (nat -> nat -> F) -> list F * (nat -> nat -> F))
    (label : (nat -> F * F * F) -> (nat -> nat -> F) -> nat -> F -> option I) (A : I) (fuel : nat)
    (buddy : option nat).
  Notation go := (run eig2 eig label A fuel buddy).

  Lemma table_some (o : lists F I) n1 n2 n3 : length (o_harms o) = n1 + n2 ->
    length (o_funds o) = n1 + n2 -> length (o_corrs o) = n1 + n2 + n3 ->
    n1 + n2 <= length (o_irreps o) -> exists rws, table o = Some rws /\ length rws = n1 + n2.
  Proof.
    intros L1 L2 L3 L4. destruct (table_lemma o) as [T1 T2].
    destruct (table o) as [rws|] eqn:E.
    - exists rws. split; [reflexivity|]. rewrite (proj1 (T1 rws eq_refl)). exact L1.
    - destruct (proj1 T2 eq_refl) as [Q|[Q|Q]]; lia.
  Qed.

  Lemma run_total_lemma m axes iatom order fc2 f3x f4x freql lxm lxm' lx' modes :
    let lx := make_lx (3 * m_natom m) (make_sqm (m_w m)) lxm in
    m_rotor m <> SphericalTop -> m_rotor m <> NoRotor -> labels_end fuel ->
    (m_rotor m = AsymmTop -> 2 < nth 7 (m_header m) 4)%Z ->
    0 < m_natom m -> 0 < m_nvib m <= 3 * m_natom m ->
    harmonic (m_natom m) axes fc2 (m_w m) eig = Some (freql, lxm) -> m_nvib m <= length freql ->
    aligned buddy m iatom order freql lxm lx lxm' lx' ->
    deg_modes (m_rotor m) (m_nvib m) (fun i => nth i freql (nz 0)) = Some modes ->
    Permutation (flat_map members modes) (seq 0 (m_nvib m)) ->
    comparable (fun i => nth i freql (nz 0)) (m_nvib m) ->
    exists o rws, go false m axes iatom order (Quartic fc2 f3x f4x) = Some (FullResult o) /\
      rs_modes (out_resonances o) = modes /\
      length (o_harms (out_lists o)) = length (flat_map get1 modes) + length (flat_map get2 modes) /\
      length (o_funds (out_lists o)) = length (o_harms (out_lists o)) /\
      length (o_corrs (out_lists o)) = length modes /\
      map rot_state (out_rots o) = I1st (repeat 0 (m_nvib m)) ::
        map (fun i => I1st (unit1 (m_nvib m) i 1)) (seq 0 (length (flat_map get1 modes))) ++
        map (fun i => I2st (punit1 (m_nvib m) i (1, 1))) (seq 0 (length (flat_map get2 modes))) /\
      table (out_lists o) = Some rws /\ length rws = length (o_harms (out_lists o)).
  Proof.
    intros lx H1 H2 Le Hd Hn [Hv1 Hv2] Eh Hf Al Ed Hp C.
    destruct (run_prefix eig2 eig label A fuel buddy false m axes iatom order (Quartic fc2 f3x f4x)
      freql lxm lxm' lx' H1 H2 Le Eh Al) as (irreps & Li & _ & ->).
    destruct (force3_total (3 * m_natom m) (rot3rd (m_natom m) (3 * m_natom m) axes f3x) lx' (m_nvib m)
          (fun i => nth i freql (nz 0)) Hv1) as (f3l & ->). cbn [obind].
    destruct (force4_total (3 * m_natom m) (rot4th (m_natom m) (3 * m_natom m) axes f4x) lx' (m_nvib m)
          (fun i => nth i freql (nz 0)) Hv1) as (f4l & ->). cbn [obind].
    destruct (finish_total_lemma eig2 m freql f3l f4l irreps lxm' lx' modes H1 H2 Ed Hp C Hf Hn Hd)
      as (o & -> & Em & L1 & L2 & L3 & Ei & Mr). cbn [obind].
    assert (N : n1dm modes + n2dm modes <= m_nvib m).
    { pose proof (part_counts _ _ Hp). lia. }
    destruct (table_some (out_lists o) _ _ _ L1 L2 L3) as (rws & Er & Lr).
    { rewrite Ei, Li. lia. }
    exists o, rws. split; [reflexivity|]. split; [exact Em|].
    rewrite n1dm_len, n2dm_len in *. unfold nondeg, degs in *.
    split; [exact L1|]. split; [congruence|].
    split. { rewrite L3. rewrite n3dm_eq, i3mode_eq. clear. induction modes as [|[]]; cbn; rewrite ?app_length in *; lia. }
    split; [exact Mr|]. split; [exact Er|congruence].
  Qed.
End RunTotal.
