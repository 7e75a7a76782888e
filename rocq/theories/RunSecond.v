(** A whole run of an asymmetric top over the real numbers. *)
From Coq Require Import Reals Lra List ZArith Arith Lia Bool Permutation Sorted FunctionalExtensionality.
From Verif Require Import Num Loops ListFacts Index LoadFacts Modes ModesFacts ResFacts ResWitness
  StatesFacts IndexFacts Anharm AnharmFacts EnergyFacts FermiFacts VibRot Distort Transform TransformFacts
  RotFacts NormalFacts HarmFacts ModeFacts SymAnharm
  Polyads Report OutputFacts VibRotFacts SymRotFacts Geom IrrepFacts Finish FinishFacts RunFacts
  PerturbFacts PerturbSum PerturbLevels SymE0 SymLevels.
Import ListNotations.
Open Scope nat_scope.
Local Open Scope R_scope.

Lemma comparable_R (freq : nat -> R) n : comparable freq n.
Proof. intros i j k _ _ _. rewrite aminjm_R. discriminate. Qed.

Lemma labels_end_R : exists fuel, forall n, (fuel <= n)%nat -> labels_end (F := R) n.
Proof.
  destruct (tenth_reached (nlit 1 10000)) as (k & Hk). { cbn. lra. }
  exists (S k). intros n Hn. exists k. split; [lia|]. rewrite raised_R. now apply ngeb_tenth.
Qed.

Section AsymRun.
  Context {I : Type}.
  Variables (eig2 : R -> R -> R -> R * R * (R * R))
    (eig : (nat -> nat -> R) -> list R * (nat -> nat -> R))
    (label : (nat -> R * R * R) -> (nat -> nat -> R) -> nat -> R -> option I) (A : I)
    (buddy : option nat).
  Context `{Trig R}.

  (** no run of an asymmetric top panics *)
  Lemma run_asym_lemma : exists fuel0, forall fuel m axes iatom order fc2 f3x f4x,
    (fuel0 <= fuel)%nat -> m_rotor m = AsymmTop -> (2 < nth 7 (m_header m) 4)%Z ->
    (0 < m_natom m)%nat -> (0 < m_nvib m <= 3 * m_natom m)%nat ->
    length (fst (eig (secular (m_natom m) axes fc2 (m_w m)))) = (3 * m_natom m)%nat ->
    exists o rws,
      run eig2 eig label A fuel buddy false m axes iatom order (Quartic fc2 f3x f4x) = Some (FullResult o) /\
      length (o_harms (out_lists o)) = m_nvib m /\ length (o_funds (out_lists o)) = m_nvib m /\
      length (o_corrs (out_lists o)) = m_nvib m /\
      map rot_state (out_rots o) = I1st (repeat 0%nat (m_nvib m)) ::
        map (fun i => I1st (unit1 (m_nvib m) i 1)) (seq 0 (m_nvib m)) /\
      table (out_lists o) = Some rws /\ length rws = m_nvib m.
  Proof.
    destruct labels_end_R as (f0 & Hf0). exists f0. intros fuel m axes iatom order fc2 f3x f4x Hfu Hr Hd Hn Hv He.
    destruct (eig (secular (m_natom m) axes fc2 (m_w m))) as [vals vecs] eqn:Ee. cbn [fst] in He.
    destruct (harmonic_total (m_natom m) axes fc2 (m_w m) eig vals vecs Ee) as (freql & lxm & Eh & Lf); [lia|].
    destruct (run_total_lemma eig2 eig label A fuel buddy m axes iatom order fc2 f3x f4x freql lxm lxm
      (make_lx (3 * m_natom m) (make_sqm (m_w m)) lxm) (singles (m_nvib m)))
      as (o & rws & E & Em & L1 & L2 & L3 & Mr & Et & Lr); try assumption.
    - rewrite Hr; discriminate.
    - rewrite Hr; discriminate.
    - now apply Hf0.
    - intros _. exact Hd.
    - lia.
    - unfold aligned. rewrite Hr. split; reflexivity.
    - rewrite Hr. now apply deg_modes_asym_lemma; auto.
    - apply singles_part.
    - apply comparable_R.
    - assert (N1 : length (flat_map get1 (singles (m_nvib m))) = m_nvib m).
      { unfold singles. rewrite flat_map_concat_map, map_map. cbn [get1].
        rewrite <- flat_map_concat_map. rewrite <- (seq_length (m_nvib m) 0) at 2. generalize (seq 0 (m_nvib m)).
        intros l. induction l; cbn; congruence. }
      assert (N2 : length (flat_map get2 (singles (m_nvib m))) = 0%nat).
      { unfold singles. generalize (seq 0 (m_nvib m)). intros l. induction l; cbn; auto. }
      rewrite N1, N2 in *. cbn [seq map] in Mr. rewrite app_nil_r in Mr.
      exists o, rws. split; [exact E|]. split; [lia|]. split; [lia|].
      split. { rewrite L3. unfold singles. now rewrite map_length, seq_length. }
      split; [exact Mr|]. split; [exact Et|lia].
  Qed.
End AsymRun.

(** ** second order perturbation theory depends on the constants of the first [n] modes only *)
Lemma cubic_ext n f3 f3' psi u :
  (forall i j k, (i < n)%nat -> (j < n)%nat -> (k < n)%nat -> f3 i j k = f3' i j k) ->
  cubic n f3 psi u = cubic n f3' psi u.
Proof.
  intros E. unfold cubic. apply Rsum_ext; intros i Hi%in_seq. apply Rsum_ext; intros j Hj%in_seq.
  apply Rsum_ext; intros k Hk%in_seq. now rewrite E by lia.
Qed.
Lemma quartic_ext n f4 f4' psi u :
  (forall i j k l, (i < n)%nat -> (j < n)%nat -> (k < n)%nat -> (l < n)%nat -> f4 i j k l = f4' i j k l) ->
  quartic n f4 psi u = quartic n f4' psi u.
Proof.
  intros E. unfold quartic. apply Rsum_ext; intros i Hi%in_seq. apply Rsum_ext; intros j Hj%in_seq.
  apply Rsum_ext; intros k Hk%in_seq. apply Rsum_ext; intros l Hl%in_seq. now rewrite E by lia.
Qed.
Lemma angular_ext n w zeta zeta' a psi psi' u :
  (forall i j a, (i < n)%nat -> (j < n)%nat -> zeta i j a = zeta' i j a) ->
  (forall u, psi u = psi' u) ->
  angular n w zeta a psi u = angular n w zeta' a psi' u.
Proof.
  intros E P. unfold angular. apply Rsum_ext; intros i Hi%in_seq. apply Rsum_ext; intros j Hj%in_seq.
  rewrite E by lia. unfold pos, mom. now rewrite !P.
Qed.
Lemma angular_shift_ext n zeta zeta' B :
  (forall i j a, (i < n)%nat -> (j < n)%nat -> zeta i j a = zeta' i j a) ->
  angular_shift n zeta B = angular_shift n zeta' B.
Proof.
  intros E. unfold angular_shift. apply Rsum_ext; intros i Hi%in_seq. apply Rsum_ext; intros j Hj%in_seq.
  now rewrite !E by lia.
Qed.
Lemma perturbed_zeta n w f3 f4 zeta zeta' B res v us :
  (forall i j a, (i < n)%nat -> (j < n)%nat -> zeta i j a = zeta' i j a) ->
  perturbed n w f3 f4 zeta B res v us = perturbed n w f3 f4 zeta' B res v us.
Proof.
  intros E. unfold perturbed.
  assert (Q : forall a, angular n w zeta a (angular n w zeta a (ket n v)) v
    = angular n w zeta' a (angular n w zeta' a (ket n v)) v).
  { intros a. apply angular_ext; [exact E|]. intros u. now apply angular_ext. }
  now rewrite !Q.
Qed.
Lemma perturbed_ext n w f3 f3' f4 f4' zeta B res v us :
  (forall i j k, (i < n)%nat -> (j < n)%nat -> (k < n)%nat -> f3 i j k = f3' i j k) ->
  (forall i j k l, (i < n)%nat -> (j < n)%nat -> (k < n)%nat -> (l < n)%nat -> f4 i j k l = f4' i j k l) ->
  perturbed n w f3 f4 zeta B res v us = perturbed n w f3' f4' zeta B res v us.
Proof.
  intros E3 E4. unfold perturbed. rewrite (quartic_ext n f4 f4') by exact E4. f_equal. f_equal.
  apply Rsum_ext. intros u _. now rewrite (cubic_ext n f3 f3') by exact E3.
Qed.
Lemma intermediate_ext n f3 f3' v us :
  (forall i j k, (i < n)%nat -> (j < n)%nat -> (k < n)%nat -> f3 i j k = f3' i j k) ->
  intermediate n f3 v us -> intermediate n f3' v us.
Proof.
  intros E3 [H1 H2]. split; [exact H1|]. intros u Hu. apply H2.
  now rewrite (cubic_ext n f3 f3') by exact E3.
Qed.

(** ** the specification of a run *)
(** the Coriolis constants of the mass weighted modes *)
Definition zeta_of (N : nat) (l : nat -> nat -> R) (i j a : nat) : R :=
  Sum N (fun q => match a with
    | 0%nat => l (3 * q + 1)%nat i * l (3 * q + 2)%nat j - l (3 * q + 2)%nat i * l (3 * q + 1)%nat j
    | 1%nat => l (3 * q + 2)%nat i * l (3 * q)%nat j - l (3 * q)%nat i * l (3 * q + 2)%nat j
    | _ => l (3 * q)%nat i * l (3 * q + 1)%nat j - l (3 * q + 1)%nat i * l (3 * q)%nat j
    end).
Lemma zeta_of_zmat N l i j a : zmat N l i j a = zeta_of N l i j a.
Proof. rewrite zmat_R. reflexivity. Qed.

(** one quantum in mode [p] *)
Definition one (p : nat) : occ := fun i => if (i =? p)%nat then 1%nat else 0%nat.
Definition ground : occ := fun _ => 0%nat.

Lemma unit1_one n p : (p < n)%nat -> (fun ii => nth ii (unit1 n p 1) 0%nat) = one p.
Proof.
  intros Hp. extensionality i. unfold unit1, one. destruct (Nat.lt_ge_cases i n) as [Hi|Hi].
  - now rewrite (nth_map_seq (fun a => if (a =? p)%nat then 1%nat else 0%nat)).
  - rewrite nth_overflow by (rewrite map_length, seq_length; lia).
    destruct (Nat.eqb_spec i p); [lia|reflexivity].
Qed.

Lemma some_triple {X Y Z} (a a' : X) (b b' : Y) (c c' : Z) :
  Some (a, b, c) = Some (a', b', c') -> a = a' /\ b = b' /\ c = c'.
Proof. intros Q. injection Q. auto. Qed.

Section Second.
  Context {I : Type}.
  Variables (eig2 : R -> R -> R -> R * R * (R * R))
    (eig : (nat -> nat -> R) -> list R * (nat -> nat -> R))
    (label : (nat -> R * R * R) -> (nat -> nat -> R) -> nat -> R -> option I) (A : I)
    (buddy : option nat).
  Context `{Trig R}.

  (** a result of [finish] for an asymmetric top without resonances *)
  Lemma finish_second m freql f3l f4l (irreps : list I) lxm lx o F3 F4 :
    let n := m_nvib m in
    let w := fun i => nth i freql 0 in
    let zeta := zeta_of (m_natom m) lxm in
    let B := m_rotcon m in
    m_rotor m = AsymmTop ->
    finish eig2 false m freql f3l f4l irreps lxm lx = Some o ->
    (forall i j k, (i < n)%nat -> (j < n)%nat -> (k < n)%nat -> f3qcm_get f3l i j k = Some (F3 i j k)) ->
    (forall i j k l, (i < n)%nat -> (j < n)%nat -> (k < n)%nat -> (l < n)%nat ->
       f4qcm_get f4l i j k l = Some (F4 i j k l)) ->
    (forall i, (i < n)%nat -> 0 < w i) ->
    (forall i j k, (i < n)%nat -> (j < n)%nat -> (k < n)%nat -> w i + w j <> w k) ->
    rs_fermi1 (out_resonances o) = [] -> rs_fermi2 (out_resonances o) = [] ->
    o_harms (out_lists o) = map w (seq 0 n) /\ o_funds (out_lists o) = o_corrs (out_lists o) /\
    length (o_corrs (out_lists o)) = n /\
    forall us0, intermediate n F3 ground us0 ->
      out_zpt o = perturbed n w F3 F4 zeta B none ground us0 + angular_shift n zeta B /\
      forall p us, (p < n)%nat -> intermediate n F3 (one p) us ->
        nth_error (o_corrs (out_lists o)) p
        = Some (perturbed n w F3 F4 zeta B none (one p) us - perturbed n w F3 F4 zeta B none ground us0).
  Proof.
    intros n w zeta B Hr E HF3 HF4 Hw Hd E1 E2.
    destruct (finish_inv _ _ _ _ _ _ _ _ _ E) as (sym & x & g & e0 & lev & eng & rows & _ & Er & Es & Ex & Ep & _ & Ee & El & _ & _ & _ & Ez & _).
    rewrite Hr in *. cbn in Es. injection Es as <-. rewrite E1, E2 in *.
    set (rs := out_resonances o) in *.
    assert (Em : rs_modes rs = singles n /\ restst_tables n (ioff (n + 1)) (singles n) = Some (rs_tables rs)).
    { unfold restst_new in Er. rewrite deg_modes_asym_lemma in Er by auto. cbn [obind] in Er.
      do 4 (match type of Er with obind ?a _ = _ => destruct a; [|discriminate] end; cbn [obind] in Er).
      match type of Er with obind ?a _ = _ => destruct a as [t|] eqn:Et; [|discriminate] end. cbn [obind] in Er.
      injection Er as <-. split; [reflexivity|exact Et]. }
    destruct Em as [Em Et]. rewrite Em in *.
    set (f3 := fun i j k => nth (find3 i j k) f3l (nz 0)) in *.
    set (f4 := fun i j k l => nth (find4 i j k l) f4l (nz 0)) in *.
    set (zm := zmat (m_natom m) lxm) in *.
    assert (Wf : (fun i => nth i freql (nz 0)) = w) by (unfold w; rewrite nz_R; reflexivity).
    rewrite Wf in *.
    apply some_triple in Ex as (<- & <- & <-).
    assert (Z : zm = zeta). { unfold zm, zeta. extensionality i. extensionality j. extensionality a. apply zeta_of_zmat. }
    rewrite Z in *. clear Z zm.
    fold n in Ep, El, Er. fold B in Ep, El.
    set (x := xcalc n f4 w f3 zeta B [] []) in *.
    set (e0 := make_e0 f4 w f3 (make_fermi_checks [] []) (singles n)) in *.
    assert (T3 : forall i j k, (i < n)%nat -> (j < n)%nat -> (k < n)%nat -> f3 i j k = F3 i j k).
    { intros i j k Hi Hj Hk. specialize (HF3 i j k Hi Hj Hk). unfold f3qcm_get in HF3.
      unfold f3. now apply nth_error_nth. }
    assert (T4 : forall i j k l, (i < n)%nat -> (j < n)%nat -> (k < n)%nat -> (l < n)%nat -> f4 i j k l = F4 i j k l).
    { intros i j k l Hi Hj Hk Hl. specialize (HF4 i j k l Hi Hj Hk Hl). unfold f4qcm_get in HF4.
      unfold f4. now apply nth_error_nth. }
    assert (Lv : forall v v2 us, intermediate n F3 v us ->
      level w (singles n) x None e0 v v2 = Some (perturbed n w F3 F4 zeta B none v us + angular_shift n zeta B)).
    { intros v v2 us Hu. destruct none_flags as [Hn1 Hn2].
      unfold x, e0.
      rewrite (levels_second_order_lemma n w f3 f4 zeta B None [] [] none v v2 us).
      - f_equal. rewrite (perturbed_ext n w f3 F3 f4 F4) by assumption. rewrite e0_excess_none. lra.
      - intros. unfold f3. f_equal. apply find3_perm. apply perm_swap.
      - intros. unfold f3. f_equal. apply find3_perm. apply perm_skip, perm_swap.
      - intros. unfold f4. f_equal. apply find4_perm. apply perm_swap.
      - intros. unfold f4. f_equal. apply find4_perm. apply perm_skip, perm_swap.
      - intros. unfold f4. f_equal. apply find4_perm. do 2 apply perm_skip. apply perm_swap.
      - intros i j a. unfold zeta, zeta_of. rewrite <- Rsum_opp. apply Rsum_ext. intros q _. destruct a as [|[|a]]; lra.
      - exact Hn1.
      - exact Hn2.
      - intros ? ? ? [].
      - exact Hw.
      - intros i j k Hi Hj Hk _. specialize (Hd i j k Hi Hj Hk). lra.
      - apply (intermediate_ext n F3); [intros; symmetry; now apply T3|exact Hu]. }
    destruct (no_fermi_lemma n w x None e0 eig2 f3) as (t & eng1 & Et1 & Ep1 & Ee1 & Ec1 & _).
    { intros i j. apply xcalc_sym_lemma. }
    assert (t = rs_tables rs) as -> by congruence.
    assert (eng1 = lev) as -> by congruence.
    assert (eng = lev) as -> by congruence.
    destruct (states_asym_lemma n) as (t' & vs & Et' & Hs & _ & _ & _ & Hvs).
    assert (t' = rs_tables rs) as -> by congruence.
    assert (Hg : (None : option (nat -> nat -> R)) <> None \/ n2dm (singles n) = 0%nat) by (right; apply n2dm_singles).
    assert (Ee' : lev = map (state_energy (singles n) w x None e0) (t_states (rs_tables rs))).
    { rewrite part1_R in Ep by exact Hg. congruence. }
    unfold finish_lists in El.
    unfold reported_harms in El. fold n in El.
    destruct (Nat.ltb_spec (length freql) n) as [|Lf]; [discriminate|]. cbn [obind] in El.
    rewrite Wf in El.
    assert (Ec2 : corrs (singles n) lev = Some (make_funds n w x)) by exact Ec1.
    rewrite Ec2 in El. cbn [obind] in El. injection El as El. rewrite <- El. cbn [o_harms o_funds o_corrs].
    split.
    { clear - Lf. subst w. apply list_ext; [rewrite firstn_length, map_length, seq_length; lia|].
      intros i Hi. rewrite firstn_length in Hi. rewrite nth_error_map_seq by lia.
      assert (F : forall (l : list R) m j, (j < m)%nat -> nth_error (firstn m l) j = nth_error l j).
      { clear. intros l. induction l as [|a l IH]; intros [|m] [|j] Hj; cbn; try lia; try reflexivity. apply IH; lia. }
      rewrite F by lia. apply nth_error_nth'. lia. }
    split; [reflexivity|].
    split. { unfold make_funds. now rewrite range_0, map_length, seq_length. }
    intros us0 H0.
    assert (Lev : forall q v, nth_error (t_states (rs_tables rs)) q = Some (I1st v) ->
      forall us, intermediate n F3 (fun ii => nth ii v 0%nat) us ->
      nth_error lev q = Some (perturbed n w F3 F4 zeta B none (fun ii => nth ii v 0%nat) us + angular_shift n zeta B)).
    { intros q v Hq us Hu. rewrite Ee', nth_error_map, Hq. cbn [option_map]. f_equal.
      specialize (Lv (fun ii => nth ii v 0%nat) (fun _ => (0%nat, 0%nat)) us Hu).
      rewrite level_R in Lv by exact Hg. injection Lv as Lv. rewrite <- Lv. unfold state_energy. cbn [state_i1].
      unfold spec_level. rewrite n2dm_singles. cbn [seq Rsum fold_right]. reflexivity. }
    assert (G0 : nth_error lev 0 = Some (perturbed n w F3 F4 zeta B none ground us0 + angular_shift n zeta B)).
    { assert (R0 : (fun ii => nth ii (repeat 0%nat n) 0%nat) = ground) by (extensionality ii; apply nth_repeat_0).
      rewrite <- R0. apply Lev; [rewrite Hs, Hvs; reflexivity|]. now rewrite R0. }
    split; [congruence|].
    intros p us Hp Hu.
    assert (G1 : nth_error lev (p + 1) = Some (perturbed n w F3 F4 zeta B none (one p) us + angular_shift n zeta B)).
    { rewrite <- (unit1_one n p Hp). apply Lev; [|now rewrite unit1_one].
      rewrite Hs, Hvs, Nat.add_1_r. cbn [app map nth_error].
      rewrite map_app, nth_error_app1 by (rewrite !map_length, seq_length; lia).
      rewrite map_map, nth_error_map_seq by lia. reflexivity. }
    assert (Ll : length lev = length (t_states (rs_tables rs))) by (rewrite Ee'; apply map_length).
    unfold corrs in Ec2. rewrite n1dm_singles, n2dm_singles, n3dm_singles in Ec2.
    set (step := fun (acc : list R) i => let* x := nth_error lev i in let* e0 := nth_error lev 0 in Some (acc ++ [nsub x e0])) in Ec2.
    assert (St : forall acc i, (i < length lev)%nat -> step acc i = Some (acc ++ [nth i lev 0 - nth 0 lev 0])).
    { intros acc i Hi. unfold step. rewrite (nth_error_nth' lev 0 Hi). rewrite G0. cbn [obind nsub Rnum].
      now rewrite (nth_error_nth lev 0 0 G0). }
    assert (Q : forall l acc, (forall i, In i l -> (i < length lev)%nat) ->
      ofold step l acc = Some (acc ++ map (fun i => nth i lev 0 - nth 0 lev 0) l)).
    { clear - St. induction l as [|i l IH]; intros acc Hl; cbn [ofold map]; [now rewrite app_nil_r|].
      rewrite St by (apply Hl; now left).
      rewrite IH by (intros; apply Hl; now right). now rewrite <- app_assoc. }
    rewrite Q in Ec2.
    2:{ intros i Hi%in_range. rewrite Ll, Hs, Hvs, map_length, !app_length, !map_length, !seq_length. cbn [length]. lia. }
    cbn [app] in Ec2. apply (f_equal (fun o => match o with Some l => l | None => [] end)) in Ec2. rewrite <- Ec2.
    unfold range. replace (n + 0 + 0 + 1 - 1)%nat with n by lia.
    rewrite <- seq_shift, map_map, nth_error_map_seq by exact Hp. f_equal.
    rewrite Nat.add_1_r in G1. rewrite (nth_error_nth lev (S p) 0 G1), (nth_error_nth lev 0 0 G0). lra.
  Qed.

  (** the whole run *)
  Lemma run_second_lemma m axes iatom order fc2 f3x f4x :
    let N := m_natom m in
    let n := m_nvib m in
    let B := m_rotcon m in
    m_rotor m = AsymmTop -> (2 < nth 7 (m_header m) 4)%Z ->
    (0 < N)%nat -> (0 < n <= 3 * N)%nat ->
    (forall q, (q < N)%nat -> 0 < m_w m q) ->
    sym2 (3 * N) fc2 -> tsym3 (3 * N) f3x -> tsym4 (3 * N) f4x ->
    solves (3 * N) eig (secular N axes fc2 (m_w m)) ->
    exists fuel0 freq lx,
      let w := fun i => nth i freq 0 in
      let hess := fun a b => FACT2 * con2 (3 * N) (every_atom axes) fc2 a b in
      let F3 := cubic_spec (3 * N) (con3 (3 * N) (every_atom axes) f3x) lx w in
      let F4 := quartic_spec (3 * N) (con4 (3 * N) (every_atom axes) f4x) lx w in
      let zeta := zeta_of N (fun a i => sqrt (m_w m (a / 3)%nat) * lx a i) in
      (forall i j, (i < 3 * N)%nat -> (j < 3 * N)%nat ->
         Sum (3 * N) (fun a => m_w m (a / 3)%nat * lx a i * lx a j) = (if Nat.eqb i j then 1 else 0)) /\
      (forall i j, (i < 3 * N)%nat -> (j < 3 * N)%nat -> i <> j -> con2 (3 * N) lx hess i j = 0) /\
      (forall i, (i < 3 * N)%nat -> nth_error freq i = Some (to_wavenumber (con2 (3 * N) lx hess i i))) /\
      StronglySorted Rge freq /\
      ((forall i, (i < n)%nat -> 0 < w i) ->
       (forall i j k, (i < n)%nat -> (j < n)%nat -> (k < n)%nat -> w i + w j <> w k) ->
       forall fuel, (fuel0 <= fuel)%nat ->
       exists o, run eig2 eig label A fuel buddy false m axes iatom order (Quartic fc2 f3x f4x) = Some (FullResult o) /\
       (rs_fermi1 (out_resonances o) = [] -> rs_fermi2 (out_resonances o) = [] ->
        o_harms (out_lists o) = map w (seq 0 n) /\ o_funds (out_lists o) = o_corrs (out_lists o) /\
        length (o_corrs (out_lists o)) = n /\
        forall us0, intermediate n F3 ground us0 ->
          out_zpt o = perturbed n w F3 F4 zeta B none ground us0 + angular_shift n zeta B /\
          forall p us, (p < n)%nat -> intermediate n F3 (one p) us ->
            nth_error (o_corrs (out_lists o)) p
            = Some (perturbed n w F3 F4 zeta B none (one p) us - perturbed n w F3 F4 zeta B none ground us0))).
  Proof.
    intros N n B Hr Hd HN Hn Hw S2 S3 S4 Sv.
    destruct labels_end_R as (f0 & Hf0).
    destruct (normal_modes_lemma N axes fc2 (m_w m) eig S2 Hw Sv) as (freq & lxm & Eh & Lf & M1 & M2 & M3 & M4).
    set (lx := make_lx (3 * N) (make_sqm (m_w m)) lxm) in *.
    exists f0, freq, lx. cbv zeta.
    split; [exact M1|]. split; [exact M2|]. split; [exact M3|]. split; [exact M4|].
    set (w := fun i => nth i freq 0). intros Pw Dw fuel Hfu.
    assert (Wf : (fun i => nth i freq (nz 0)) = w) by (unfold w; rewrite nz_R; reflexivity).
    destruct (run_prefix eig2 eig label A fuel buddy false m axes iatom order (Quartic fc2 f3x f4x)
      freq lxm lxm lx) as (irreps & Li & _ & Er).
    { rewrite Hr; discriminate. } { rewrite Hr; discriminate. } { now apply Hf0. } { exact Eh. }
    { unfold aligned. rewrite Hr. split; reflexivity. }
    rewrite Wf in Er.
    destruct (force3_lemma (3 * N) (rot3rd N (3 * N) axes f3x) lx n w (proj1 Hn) (proj1 (proj2 (rot_sym_lemma N axes)) f3x S3))
      as (f3l & E3 & _ & G3).
    destruct (force4_lemma (3 * N) (rot4th N (3 * N) axes f4x) lx n w (proj1 Hn) (proj2 (proj2 (rot_sym_lemma N axes)) f4x S4))
      as (f4l & E4 & _ & G4).
    fold N n in Er. rewrite E3 in Er. cbn [obind] in Er. rewrite E4 in Er. cbn [obind] in Er.
    destruct (finish_total_lemma eig2 m freq f3l f4l irreps lxm lx (singles n)) as (o & Eo & _).
    { rewrite Hr; discriminate. } { rewrite Hr; discriminate. }
    { rewrite Hr. apply deg_modes_asym_lemma; auto. } { apply singles_part. } { apply comparable_R. }
    { fold n. lia. } { exact HN. } { intros _. exact Hd. }
    rewrite Eo in Er. cbn [obind] in Er. exists o. split; [exact Er|].
    intros N1 N2.
    assert (Z : forall i j a, (i < n)%nat -> (j < n)%nat ->
       zeta_of N lxm i j a = zeta_of N (fun a i => sqrt (m_w m (a / 3)%nat) * lx a i) i j a).
    { intros i j a Hi Hj.
      assert (L : forall a i, (a < 3 * N)%nat -> (i < n)%nat -> lxm a i = sqrt (m_w m (a / 3)%nat) * lx a i).
      { intros a' i' Ha' Hi'. unfold lx. rewrite make_lx_eq by lia. unfold make_sqm. rewrite nz_R.
        cbn [nmul ndiv nsqrt Rnum].
        assert (0 < sqrt (m_w m (a' / 3)%nat)).
        { apply sqrt_lt_R0, Hw. apply Nat.div_lt_upper_bound; lia. }
        field. lra. }
      unfold zeta_of. apply Rsum_ext. intros q Hq%in_seq.
      rewrite (L (3 * q)%nat i), (L (3 * q + 1)%nat i), (L (3 * q + 2)%nat i),
        (L (3 * q)%nat j), (L (3 * q + 1)%nat j), (L (3 * q + 2)%nat j) by lia. reflexivity. }
    set (F3 := cubic_spec (3 * N) (con3 (3 * N) (every_atom axes) f3x) lx w).
    set (F4 := quartic_spec (3 * N) (con4 (3 * N) (every_atom axes) f4x) lx w).
    set (zeta := zeta_of N (fun a i => sqrt (m_w m (a / 3)%nat) * lx a i)) in *.
    destruct (finish_second m freq f3l f4l irreps lxm lx o F3 F4) as (Q1 & Q2 & Q3 & Q4); try assumption.
    { intros i j k Hi Hj Hk. unfold F3. rewrite G3 by assumption. f_equal. unfold cubic_spec. f_equal.
      apply con3_g. intros. now apply rot3rd_lemma. }
    { intros i j k l Hi Hj Hk Hl. unfold F4. rewrite G4 by assumption. f_equal. unfold quartic_spec. f_equal.
      apply con4_g. intros. now apply rot4th_lemma. }
    split; [exact Q1|]. split; [exact Q2|]. split; [exact Q3|].
    intros us0 H0. destruct (Q4 us0 H0) as [Q5 Q6]. fold N n w B in Q5, Q6. split.
    - rewrite Q5. now rewrite (perturbed_zeta n w F3 F4 _ zeta), (angular_shift_ext n _ zeta) by exact Z.
    - intros p us Hp Hu. rewrite (Q6 p us Hp Hu).
      now rewrite !(perturbed_zeta n w F3 F4 (zeta_of N lxm) zeta) by exact Z.
  Qed.
End Second.

(** ** the other kinds of runs *)
Section Kinds.
  Context {F I : Type} `{Num F} `{Trig F}.
  Variables (eig2 : F -> F -> F -> F * F * (F * F))
    (eig : (nat -> nat -> F) -> list F * (nat -> nat -> F))
    (label : (nat -> F * F * F) -> (nat -> nat -> F) -> nat -> F -> option I) (A : I) (fuel : nat)
    (buddy : option nat).

  Lemma cubic_run_lemma polyad m axes iatom order fc2 f3x :
    run eig2 eig label A fuel buddy polyad m axes iatom order (Cubic fc2 f3x) = None.
  Proof.
    unfold run.
    destruct (harmonic _ _ _ _ _) as [[freql lxm]|]; [|reflexivity]. cbn [obind].
    destruct (is_sym_top _) as [sym|]; [|reflexivity]. cbn [obind].
    match goal with |- obind ?a _ = _ => destruct a as [[lxm' lx']|]; [|reflexivity] end. cbn [obind].
    destruct (compute_irreps_in _ _ _ _ _ _); reflexivity.
  Qed.
End Kinds.

Section Harm.
  Context {I : Type}.
  Variables (eig2 : R -> R -> R -> R * R * (R * R))
    (eig : (nat -> nat -> R) -> list R * (nat -> nat -> R))
    (label : (nat -> R * R * R) -> (nat -> nat -> R) -> nat -> R -> option I) (A : I)
    (buddy : option nat).
  Context `{Trig R}.

  Lemma storage_column n (a : nat -> nat -> R) i j : (i < n)%nat -> (j < n)%nat ->
    nth_error (storage n a) (i + j * n) = Some (a i j).
  Proof.
    intros Hi Hj. unfold storage, collect. rewrite !range_0.
    assert (Q : forall k s, (j < k)%nat ->
      nth_error (flat_map (fun j => map (fun i => a i j) (seq 0 n)) (seq s k)) (i + j * n) = Some (a i (s + j)%nat)).
    { clear Hj. induction j as [|j IH]; intros k s Hk; (destruct k as [|k]; [lia|]); cbn [seq flat_map].
      - rewrite nth_error_app1 by (rewrite map_length, seq_length; lia). rewrite Nat.add_0_r.
        rewrite nth_error_map_seq by lia. now rewrite Nat.add_0_r.
      - rewrite nth_error_app2 by (rewrite map_length, seq_length; lia). rewrite map_length, seq_length.
        replace (i + S j * n - n)%nat with (i + j * n)%nat by lia. rewrite IH by lia. f_equal. f_equal. lia. }
    now rewrite Q.
  Qed.

  Lemma to_vec_columns n (a : nat -> nat -> R) : (0 < n)%nat ->
    exists v, to_vec n n (storage n a) = Some v /\ length v = n /\
      forall i j, (i < n)%nat -> (j < n)%nat ->
        exists col, nth_error v j = Some col /\ length col = n /\ nth_error col i = Some (a i j).
  Proof.
    intros Hn. destruct (to_vec_spec n n (storage n a) (storage_length n a)) as [Q _].
    destruct (Q eq_refl) as (v & E & L & G); [lia|]. exists v. split; [exact E|]. split; [exact L|].
    intros i j Hi Hj. destruct (G i j Hi Hj) as (col & C1 & C2 & C3). exists col.
    split; [exact C1|]. split; [exact C2|]. rewrite C3, Nat.add_comm. now apply storage_column.
  Qed.

  Lemma harmonic_run_lemma m axes iatom order fc2 :
    let N := m_natom m in
    m_rotor m = AsymmTop \/ m_rotor m = Diatomic ->
    (0 < N)%nat -> (m_nvib m <= 3 * N)%nat ->
    (forall q, (q < N)%nat -> 0 < m_w m q) -> sym2 (3 * N) fc2 ->
    solves (3 * N) eig (secular N axes fc2 (m_w m)) ->
    exists fuel0 freq lxm,
      let lx := fun a i => lxm a i / sqrt (m_w m (a / 3)%nat) in
      let hess := fun a b => FACT2 * con2 (3 * N) (every_atom axes) fc2 a b in
      (forall i j, (i < 3 * N)%nat -> (j < 3 * N)%nat ->
         Sum (3 * N) (fun a => m_w m (a / 3)%nat * lx a i * lx a j) = (if Nat.eqb i j then 1 else 0)) /\
      (forall i j, (i < 3 * N)%nat -> (j < 3 * N)%nat -> i <> j -> con2 (3 * N) lx hess i j = 0) /\
      (forall i, (i < 3 * N)%nat -> nth_error freq i = Some (to_wavenumber (con2 (3 * N) lx hess i i))) /\
      StronglySorted Rge freq /\
      forall fuel polyad, (fuel0 <= fuel)%nat ->
      exists irreps vlxm vlx,
        run eig2 eig label A fuel buddy polyad m axes iatom order (Harmonic fc2)
        = Some (HarmonicResult (mk_lists (firstn (m_nvib m) freq) [] [] irreps) (m_rotcon m) vlxm vlx
                  (is_linear (m_rotor m))) /\
        length irreps = m_nvib m /\
        (forall i x, nth_error irreps i = Some x -> label_of (label (m_geom m) lxm) A i (/ 10000) x) /\
        length vlxm = (3 * N)%nat /\ length vlx = (3 * N)%nat /\
        forall a i, (a < 3 * N)%nat -> (i < 3 * N)%nat ->
          exists c d, nth_error vlxm i = Some c /\ nth_error c a = Some (lxm a i) /\
                      nth_error vlx i = Some d /\ nth_error d a = Some (lx a i).
  Proof.
    intros N Hr HN Hn Hw S2 Sv.
    destruct labels_end_R as (f0 & Hf0).
    destruct (normal_modes_lemma N axes fc2 (m_w m) eig S2 Hw Sv) as (freq & lxm & Eh & Lf & M1 & M2 & M3 & M4).
    exists f0, freq, lxm. cbv zeta.
    set (lx' := make_lx (3 * N) (make_sqm (m_w m)) lxm) in *.
    assert (L : forall a i, (a < 3 * N)%nat -> (i < 3 * N)%nat -> lx' a i = lxm a i / sqrt (m_w m (a / 3)%nat)).
    { intros a i Ha Hi. unfold lx'. rewrite make_lx_eq by lia. unfold make_sqm. rewrite nz_R.
      cbn [nmul ndiv nsqrt Rnum]. unfold Rdiv. ring. }
    assert (C : forall g i j, (i < 3 * N)%nat -> (j < 3 * N)%nat ->
      con2 (3 * N) (fun a i => lxm a i / sqrt (m_w m (a / 3)%nat)) g i j = con2 (3 * N) lx' g i j).
    { intros g i j Hi Hj. unfold con2. apply con1_ext.
      - intros r Hr'. symmetry. now apply L.
      - intros r Hr'. apply con1_ext; [|reflexivity]. intros s Hs. symmetry. now apply L. }
    split. { intros i j Hi Hj. rewrite <- (M1 i j Hi Hj). apply Rsum_ext. intros a Ha%in_seq. rewrite !L by lia. reflexivity. }
    split. { intros i j Hi Hj Ne. rewrite C by assumption. now apply M2. }
    split. { intros i Hi. rewrite C by assumption. now apply M3. }
    split; [exact M4|].
    intros fuel polyad Hfu.
    destruct (run_prefix eig2 eig label A fuel buddy polyad m axes iatom order (Harmonic fc2)
      freq lxm lxm lx') as (irreps & Li & Fi & Er).
    { intros Q; destruct Hr as [Hr|Hr]; rewrite Hr in Q; discriminate. }
    { intros Q; destruct Hr as [Hr|Hr]; rewrite Hr in Q; discriminate. }
    { now apply Hf0. } { exact Eh. }
    { unfold aligned. destruct Hr as [Hr|Hr]; rewrite Hr; split; reflexivity. }
    fold N in Er. unfold harmonic_lists, reported_harms in Er.
    destruct (Nat.ltb_spec (length freq) (m_nvib m)); [lia|]. cbn [obind] in Er.
    destruct (to_vec_columns (3 * N) lxm) as (v1 & T1 & L1 & G1); [lia|].
    destruct (to_vec_columns (3 * N) lx') as (v2 & T2 & L2 & G2); [lia|].
    rewrite T1, T2 in Er. cbn [obind] in Er.
    exists irreps, v1, v2. split; [exact Er|]. split; [fold N in Li; lia|].
    split. { intros i x Hx. replace (/ 10000) with (nlit 1 10000 : R) by (cbn; lra). apply found_R, Fi, Hx. }
    split; [exact L1|]. split; [exact L2|].
    intros a i Ha Hi. destruct (G1 a i Ha Hi) as (c & C1 & _ & C2). destruct (G2 a i Ha Hi) as (d & D1 & _ & D2).
    exists c, d. split; [exact C1|]. split; [exact C2|]. split; [exact D1|]. rewrite D2. f_equal. now apply L.
  Qed.
End Harm.
