(** From the texts of the input files to the levels in the report. *)
From Coq Require Import Reals Lra List ZArith NArith Arith Lia Bool Ascii String Permutation Sorted FunctionalExtensionality.
From Verif Require Import Num Loops ListFacts Index IndexFacts LoadFacts Text TextFacts SpacingFacts DummyFacts Modes ModesFacts ResFacts RangeFacts
  StatesFacts Anharm AnharmFacts VibRot VibRotFacts SymRotFacts Distort Transform TransformFacts RotFacts NormalFacts ModeFacts
  SymAnharm Polyads Report ReportFacts OutputFacts Geom IrrepFacts FermiFacts PerturbFacts PerturbSum PerturbLevels SymE0 HarmFacts DistortFacts InertiaFacts
  Finish FinishFacts RunFacts RunSecond RunFermi OutText OutFacts OutTables OutRun Program ProgramFacts BlankFacts FermiWitness.
Import ListNotations.
Open Scope list_scope.
Open Scope nat_scope.

(** ** the specification side *)

(** [d] lists the table [f]: the Hessian row by row, the others for indices in descending
    order, the last running fastest *)
Definition lists2 {F} (n : nat) (d : list F) (f : nat -> nat -> F) : Prop :=
  forall i j, i < n -> j < n -> nth_error d (i * n + j) = Some (f i j).
Definition lists3 {F} (n : nat) (d : list F) (f : nat -> nat -> nat -> F) : Prop :=
  forall i j k, k <= j -> j <= i -> i < n -> forall a b c, Permutation [a; b; c] [i; j; k] ->
  nth_error d (k + j * (j + 1) / 2 + i * (i + 1) * (i + 2) / 6) = Some (f a b c).
Definition lists4 {F} (n : nat) (d : list F) (f : nat -> nat -> nat -> nat -> F) : Prop :=
  forall i j k l, l <= k -> k <= j -> j <= i -> i < n -> forall a b c e, Permutation [a; b; c; e] [i; j; k; l] ->
  nth_error d (l + k * (k + 1) / 2 + j * (j + 1) * (j + 2) / 6 + i * (i + 1) * (i + 2) * (i + 3) / 24) = Some (f a b c e).

Lemma sorted_triple i j k : exists a b c, Permutation [i; j; k] [a; b; c] /\ c <= b /\ b <= a /\ a <= Nat.max i (Nat.max j k).
Proof.
  pose proof (sort_indices_perm [i; j; k]) as Hp. pose proof (sort_indices_sorted [i; j; k]) as Hs.
  pose proof (Permutation_length Hp) as Hl.
  destruct (sort_indices [i; j; k]) as [|c [|b [|a [|d t]]]]; try discriminate.
  exists a, b, c. split. { rewrite Hp. apply (Permutation_rev [c; b; a]). }
  inversion_clear Hs as [|? ? S1 F1]. inversion_clear S1 as [|? ? S2 F2].
  rewrite Forall_forall in F1, F2. split; [apply F1; cbn; auto|]. split; [apply F2; cbn; auto|].
  assert (In a [i; j; k]) by (rewrite Hp; cbn; auto). cbn in H. lia.
Qed.
Lemma sorted_quadruple i j k l : exists a b c d, Permutation [i; j; k; l] [a; b; c; d] /\ d <= c /\ c <= b /\ b <= a /\
  a <= Nat.max i (Nat.max j (Nat.max k l)).
Proof.
  pose proof (sort_indices_perm [i; j; k; l]) as Hp. pose proof (sort_indices_sorted [i; j; k; l]) as Hs.
  pose proof (Permutation_length Hp) as Hl.
  destruct (sort_indices [i; j; k; l]) as [|d [|c [|b [|a [|e t]]]]]; try discriminate.
  exists a, b, c, d. split. { rewrite Hp. apply (Permutation_rev [d; c; b; a]). }
  inversion_clear Hs as [|? ? S1 F1]. inversion_clear S1 as [|? ? S2 F2]. inversion_clear S2 as [|? ? S3 F3].
  rewrite Forall_forall in F1, F2, F3. split; [apply F1; cbn; auto|]. split; [apply F2; cbn; auto|]. split; [apply F3; cbn; auto|].
  assert (In a [i; j; k; l]) by (rewrite Hp; cbn; auto). cbn in H. lia.
Qed.

Lemma lists3_tsym n d f : lists3 n d f -> tsym3 n f.
Proof.
  intros L r s t Hr Hs Ht. destruct (sorted_triple r s t) as (a & b & c & P & H1 & H2 & H3).
  assert (Ha : a < n) by lia. pose proof (L a b c H1 H2 Ha _ _ _ P) as E.
  split; apply some_eq; rewrite <- E; apply (L a b c H1 H2 Ha); rewrite <- P.
  - apply perm_swap.
  - apply perm_skip, perm_swap.
Qed.
Lemma lists4_tsym n d f : lists4 n d f -> tsym4 n f.
Proof.
  intros L r s t u Hr Hs Ht Hu. destruct (sorted_quadruple r s t u) as (a & b & c & e & P & H1 & H2 & H3 & H4).
  assert (Ha : a < n) by lia. pose proof (L a b c e H1 H2 H3 Ha _ _ _ _ P) as E.
  split; [|split]; apply some_eq; rewrite <- E; apply (L a b c e H1 H2 H3 Ha); rewrite <- P.
  - apply perm_swap.
  - apply perm_skip, perm_swap.
  - apply perm_skip, perm_skip, perm_swap.
Qed.

Section Files.
  Context {F : Type} `{N0 : Num F} `{T0 : FText F}.

  Lemma read_fc2_listed n t (d : list F) : numbers t = Some d -> List.length d = n * n -> symmetric_list n d ->
    exists f, read_fc2 n t = Some f /\ lists2 n d f.
  Proof.
    intros E L Hs. unfold read_fc2. rewrite E. cbn [obind]. unfold load_fc2. rewrite <- L, Nat.eqb_refl. cbn [obind].
    eexists. split; [reflexivity|]. intros i j Hi Hj. unfold mat_from_iterator.
    rewrite (proj2 (Nat.ltb_lt i n) Hi), (proj2 (Nat.ltb_lt j n) Hj). cbn [andb].
    rewrite (Hs i j Hi Hj). destruct (nth_error d (j * n + i)) eqn:Q; [reflexivity|].
    apply nth_error_None in Q. nia.
  Qed.
  Lemma read_fc3_listed n t (d : list F) : load_vec t = Some d -> List.length d = n * (n + 1) * (n + 2) / 6 ->
    exists f, read_fc3 n t = Some f /\ lists3 n d f.
  Proof.
    intros E L. unfold read_fc3. rewrite E. cbn [obind]. destruct (new_fc3_main n d) as [Q _].
    destruct (Q [] d eq_refl (or_introl eq_refl) L) as (f & Ef & Lf). exists f. split; [exact Ef|exact Lf].
  Qed.
  Lemma read_fc4_listed n t (d : list F) : load_vec t = Some d -> List.length d = n * (n + 1) * (n + 2) * (n + 3) / 24 ->
    exists f, read_fc4 n t = Some f /\ lists4 n d f.
  Proof.
    intros E L. unfold read_fc4. rewrite E. cbn [obind]. destruct (new_fc4_main n d) as [Q _].
    destruct (Q [] d eq_refl (or_introl eq_refl) L) as (f & Ef & Lf). exists f. split; [exact Ef|exact Lf].
  Qed.
End Files.

(** the resonances of an asymmetric top are between vibrations *)
Section Short.
  Context {F : Type} `{N0 : Num F}.

  Lemma resonances_range n zm f3 (freq : nat -> F) r : restst_new AsymmTop n zm f3 freq = Some r ->
    deg_modes AsymmTop n freq = Some (singles n) ->
    (forall i j x, In (i, j, x) (rs_coriolis r) -> i < n /\ j < n) /\
    (forall i j, In (i, j) (rs_fermi1 r) -> i < n /\ j < n) /\
    (forall i j k, In (i, j, k) (rs_fermi2 r) -> i < n /\ j < n /\ k < n).
  Proof.
    intros E Ed. unfold restst_new in E. rewrite Ed in E. cbn [obind] in E.
    destruct (coriolis _ _ _ _) as [c|] eqn:Ec; [|discriminate]. cbn [obind] in E.
    destruct (fermi1 _ _ _ _) as [f1|] eqn:E1; [|discriminate]. cbn [obind] in E.
    destruct (fermi2 _ _ _ _) as [f2|] eqn:E2; [|discriminate]. cbn [obind] in E.
    do 2 (match type of E with obind ?a _ = _ => destruct a; [|discriminate] end; cbn [obind] in E).
    apply some_eq in E. subst r. cbn [rs_coriolis rs_fermi1 rs_fermi2].
    split; [|split].
    - intros i j x H. unfold coriolis in Ec. apply some_eq in Ec. subst c. rewrite n1dm_singles in H.
      apply in_flat_map in H as (a & Ha%in_range & H). apply in_flat_map in H as (b & Hb%in_range & H).
      rewrite !m1_sg in H by lia. apply in_flat_map in H as (z & _ & H). unfold cor_test in H.
      destruct (_ && _) in H; [|destruct H]. destruct H as [H|[]]. injection H as <- <- <-. lia.
    - intros i j H. unfold fermi1 in E1. apply some_eq in E1. subst f1. rewrite i1mode_singles in H.
      apply in_flat_map in H as (a & Ha%in_seq & H). apply in_flat_map in H as (b & Hb%in_seq & H).
      unfold ferm1_test in H. destruct (_ && _) in H; [|destruct H]. destruct H as [H|[]]. injection H as <- <-. lia.
    - intros i j k H. unfold fermi2 in E2. rewrite n1dm_singles in E2.
      apply (ocollect_in _ _ _ _ E2) in H as (a & r1 & Ha%in_range & H1 & H).
      apply (ocollect_in _ _ _ _ H1) in H as (b & r2 & Hb%in_range & H2 & H).
      apply (ocollect_in _ _ _ _ H2) in H as (d & r3 & Hd%in_range & H3 & H).
      rewrite !m1_sg in H3 by lia. unfold ferm2_test in H3. destruct (aminjm _ _ _); [|discriminate]. cbn [obind] in H3.
      apply some_eq in H3. subst r3. destruct (_ && _) in H; [|destruct H]. destruct H as [H|[]]. injection H as <- <- <-. lia.
  Qed.
End Short.

Open Scope R_scope.
Section EndToEnd.
  Context {I : Type}.
  Variables (sy : symm R I) (eig2 : R -> R -> R -> R * R * (R * R)) (eig : (nat -> nat -> R) -> list R * (nat -> nat -> R))
    (eprint : nat -> R -> text) (name : I -> text).
  Context `{G0 : Trig R} `{T0 : FText R}.
  Hypothesis Hc : forall a b c, eig_ok eig2 a b c.
  Hypothesis Pr : prints eprint (irrep_text sy) name.

  (** the result of a run of an asymmetric top can be printed *)
  Lemma run_prints label (A : I) fuel buddy m axes iatom order fc2 f3x f4x o :
    m_rotor m = AsymmTop -> (2 < nth 7 (m_header m) 4)%Z -> (0 < m_natom m)%nat -> (m_nvib m <= 3 * m_natom m)%nat ->
    labels_end (F := R) fuel ->
    solves (3 * m_natom m) eig (secular (m_natom m) axes fc2 (m_w m)) ->
    run eig2 eig label A fuel buddy false m axes iatom order (Quartic fc2 f3x f4x) = Some (FullResult o) ->
    ((N.of_nat (m_nvib m) <= 9999)%N -> short_resonances (out_resonances o)) /\
    out_linear o = false /\
    out_rots o <> [] /\ Forall (fun r => small_state (m_nvib m) (rot_state r)) (out_rots o) /\
    forall geo rotcon ogeo, write_output eprint (irrep_text sy) geo rotcon ogeo o <> None.
  Proof.
    clear Hc Pr name. intros Hr Hd HN Hn Hl Hs E.
    destruct (harmonic_run (m_natom m) axes fc2 (m_w m) eig Hs) as (h & lxm & Eh & (Lh & _) & _).
    destruct (run_prefix eig2 eig label A fuel buddy false m axes iatom order (Quartic fc2 f3x f4x)
      (map to_wavenumber h) lxm lxm (make_lx (3 * m_natom m) (make_sqm (m_w m)) lxm)) as (irreps & Li & _ & Er).
    { rewrite Hr; discriminate. } { rewrite Hr; discriminate. } { exact Hl. } { exact Eh. }
    { unfold aligned. rewrite Hr. split; reflexivity. }
    rewrite E in Er. symmetry in Er.
    match type of Er with obind ?a _ = _ => destruct a as [f3l|]; [|discriminate] end. cbn [obind] in Er.
    match type of Er with obind ?a _ = _ => destruct a as [f4l|]; [|discriminate] end. cbn [obind] in Er.
    set (lx := make_lx (3 * m_natom m) (make_sqm (m_w m)) lxm) in Er.
    destruct (finish_prints eig2 m (map to_wavenumber h) f3l f4l irreps lxm lx (singles (m_nvib m)))
      as (o' & Eo & P1 & P2 & P3).
    { rewrite Hr; discriminate. } { rewrite Hr; discriminate. }
    { rewrite Hr. apply deg_modes_asym_lemma; auto. } { apply singles_part. } { apply comparable_R. }
    { rewrite map_length. rewrite Lh. exact Hn. } { exact HN. } { intros _. exact Hd. }
    { rewrite n1dm_singles, n2dm_singles, Li. lia. }
    rewrite Eo in Er. cbn [obind] in Er. apply some_eq in Er. assert (o' = o) as -> by congruence.
    destruct (finish_inv eig2 m (map to_wavenumber h) f3l f4l irreps lxm lx o Eo)
      as (sym & x & g & e0 & lev & eng & rows & _ & Rr & _ & _ & _ & _ & _ & _ & _ & _ & _ & _ & _ & Rl & _).
    split; [|split; [rewrite Rl, Hr; reflexivity|split; [exact P1|split; [exact P2|exact (P3 T0 eprint (irrep_text sy))]]]]. intros Sh.
    rewrite Hr in Rr. destruct (resonances_range _ _ _ _ _ Rr) as (C1 & C2 & C3). { apply deg_modes_asym_lemma; auto. }
    unfold short_resonances, short. split; [|split]; apply Forall_forall.
    - intros [[i j] y] Hi. destruct (C1 _ _ _ Hi). lia.
    - intros [i j] Hi. destruct (C2 _ _ Hi). lia.
    - intros [[i j] k] Hi. destruct (C3 _ _ _ Hi) as (? & ? & ?). lia.
  Qed.

  (** ** from the files to the levels *)
  Lemma report_from_files_lemma infile t15 t30 t40 (l : loaded R) (d2 d3 d4 : list R) :
    load_input sy infile = Some l ->
    numbers t15 = Some d2 -> load_vec t30 = Some d3 -> load_vec t40 = Some d4 ->
    let N := List.length (atoms (l_input l)) in
    let mass q := nth q (masses sy (atoms (l_input l))) 0 in
    let n := (3 * N - 6)%nat in
    let B k := let J := comp (l_primat l) k in if Rlt_dec (1 / 100) J then ROTCONST / J else 0 in
    (2 < N)%nat -> l_rotor l = AsymmTop -> (2 < nth 7 (header (l_input l)) 4)%Z ->
    (forall q, (q < N)%nat -> 0 < mass q) ->
    Forall plain (molecule_lines sy (atoms (l_input l))) ->
    List.length d2 = (3 * N * (3 * N))%nat -> symmetric_list (3 * N) d2 ->
    List.length d3 = (3 * N * (3 * N + 1) * (3 * N + 2) / 6)%nat ->
    List.length d4 = (3 * N * (3 * N + 1) * (3 * N + 2) * (3 * N + 3) / 24)%nat ->
    (forall fc2, lists2 (3 * N) d2 fc2 -> solves (3 * N) eig (secular N (l_axes l) fc2 mass)) ->
    exists fc2 f3x f4x fuel0 freq lx,
      lists2 (3 * N) d2 fc2 /\ lists3 (3 * N) d3 f3x /\ lists4 (3 * N) d4 f4x /\
      let w := fun i => nth i freq 0 in
      let hess := fun a b => FACT2 * con2 (3 * N) (every_atom (l_axes l)) fc2 a b in
      let F3 := cubic_spec (3 * N) (con3 (3 * N) (every_atom (l_axes l)) f3x) lx w in
      let F4 := quartic_spec (3 * N) (con4 (3 * N) (every_atom (l_axes l)) f4x) lx w in
      let zeta := zeta_of N (fun a i => sqrt (mass (a / 3)%nat) * lx a i) in
      (forall i j, (i < 3 * N)%nat -> (j < 3 * N)%nat ->
         Sum (3 * N) (fun a => mass (a / 3)%nat * lx a i * lx a j) = (if Nat.eqb i j then 1 else 0)) /\
      (forall i j, (i < 3 * N)%nat -> (j < 3 * N)%nat -> i <> j -> con2 (3 * N) lx hess i j = 0) /\
      (forall i, (i < 3 * N)%nat -> nth_error freq i = Some (to_wavenumber (con2 (3 * N) lx hess i i))) /\
      StronglySorted Rge freq /\
      ((forall i, (i < n)%nat -> 0 < w i) ->
       forall fuel, (fuel0 <= fuel)%nat ->
       exists t irreps harms funds corrs zpt fm1 fm2,
       program sy eig2 eig fuel eprint false infile t15 t30 t40 = Some t /\
       (Forall (narrow 1 8) harms -> Forall (narrow 1 8) funds -> Forall (narrow 1 8) corrs ->
        exists head rows z after,
          block (lines t) (lit "Vibrational Frequencies (cm-1):") (head :: rows) (z :: after) /\
          words head = map lit ["Mode"; "Symm"; "Harm"; "Fund"; "Corr"]%string /\
          words z = [lit "ZPT"; lit "="; fprint 1 zpt] /\
          List.length rows = List.length harms /\
          forall k r, nth_error rows k = Some r -> exists i h f c,
            nth_error irreps k = Some i /\ nth_error harms k = Some h /\
            nth_error funds k = Some f /\ nth_error corrs k = Some c /\
            words r = [show (k + 1); name i; fprint 1 h; fprint 1 f; fprint 1 c]) /\
       (Forall (narrow 12 20) [B 0%nat; B 1%nat; B 2%nat] -> exists head row after,
          block (lines t) (lit "Equilibrium Rotational Constants (cm-1):") [head; row] after /\
          words head = map lit ["A"; "B"; "C"]%string /\
          words row = map (fprint 12) [B 0%nat; B 1%nat; B 2%nat]) /\
       ((N.of_nat (3 * N) <= 9999)%N -> exists f1 f2 after1 after2,
          block (lines t) (lit "Type 1 Fermi Resonances:") f1 after1 /\
          map words f1 = map (fun '(i, j) => [show i; show j]) fm1 /\
          block (lines t) (lit "Type 2 Fermi Resonances:") f2 after2 /\
          map words f2 = map (fun '(i, j, k) => [show i; show j; show k]) fm2) /\
       ((forall i, ~ In (i, i) fm1) -> isolated fm1 fm2 ->
        forall res, reported fm1 fm2 res ->
        (forall i j k, (i < n)%nat -> (j < n)%nat -> (k < n)%nat -> res i j k = false -> w i + w j <> w k) ->
        harms = map w (seq 0 n) /\ List.length funds = n /\ List.length corrs = n /\
        forall U, (forall v, intermediate n F3 v (U v)) ->
          let E v := perturbed n w F3 F4 zeta B res v (U v) in
          let T v := E v - E ground in
          zpt = E ground + angular_shift n zeta B + e0_excess n w F3 res /\
          (forall k, (k < n)%nat -> nth_error funds k = Some (T (one k))) /\
          (forall k, (k < n)%nat -> (forall i j, ~ resonant fm1 fm2 i j k) -> nth_error corrs k = Some (T (one k))) /\
          (forall i j k, resonant fm1 fm2 i j k -> exists c c', nth_error corrs k = Some c /\
             two_level (T (two i j)) (T (one k)) (cubic n F3 (ket n (two i j)) (one k)) c' c))).
  Proof.
    intros El E15 E30 E40 N mass n B HN Hr Hd Hm Hg L2 Hs L3 L4 Sv.
    destruct (read_fc2_listed (3 * N) t15 d2 E15 L2 Hs) as (fc2 & R2 & Q2).
    destruct (read_fc3_listed (3 * N) t30 d3 E30 L3) as (f3x & R3 & Q3).
    destruct (read_fc4_listed (3 * N) t40 d4 E40 L4) as (f4x & R4 & Q4).
    destruct (load_sizes sy infile l El) as (Z1 & Z2 & Z3). fold N in Z1, Z2, Z3. rewrite Hr in Z3. cbn [is_linear] in Z3.
    set (m := molecule_of sy l).
    assert (Mn : m_natom m = N) by reflexivity.
    assert (Mv : m_nvib m = n) by (unfold m, molecule_of, n; cbn [m_nvib]; lia).
    assert (Mw : m_w m = mass) by (unfold m, molecule_of, mass; cbn [m_w]; rewrite nz_R; reflexivity).
    assert (Mb : m_rotcon m = B).
    { unfold m, molecule_of, l_rotcon, rot_const, B, ngtb. cbn [m_rotcon nltb ndiv nlit Rnum]. extensionality k.
      replace (at3 (l_primat l) k) with (comp (l_primat l) k) by (destruct (l_primat l) as [[? ?] ?]; destruct k as [|[|k]]; reflexivity).
      rewrite nz_R. unfold Rltb. now destruct (Rlt_dec _ _). }
    destruct (run_fermi_lemma eig2 eig (fun _ => irrep_of sy (atoms (l_input l))) (irrep_A sy)
      (find_buddy sy (atoms (l_input l)) (l_axis l) (l_order l) (l_iatom l)) Hc m (l_axes l) (l_iatom l) (l_order l) fc2 f3x f4x)
      as (fuel0 & freq & lx & M1 & M2 & M3 & M4 & M5).
    { exact Hr. } { exact Hd. } { rewrite Mn; lia. } { rewrite Mn, Mv; unfold n; lia. }
    { rewrite Mn, Mw. exact Hm. }
    { rewrite Mn. intros i j Hi Hj. apply some_eq. rewrite <- (Q2 i j), <- (Q2 j i) by assumption. now apply Hs. }
    { rewrite Mn. exact (lists3_tsym _ _ _ Q3). } { rewrite Mn. exact (lists4_tsym _ _ _ Q4). }
    { rewrite Mn, Mw. now apply Sv. }
    destruct labels_end_R as (f0 & Hf0).
    exists fc2, f3x, f4x, (Nat.max fuel0 f0), freq, lx. rewrite Mn, Mv, Mw, Mb in *.
    split; [exact Q2|]. split; [exact Q3|]. split; [exact Q4|]. cbv zeta.
    split; [exact M1|]. split; [exact M2|]. split; [exact M3|]. split; [exact M4|].
    intros Pw fuel Hfu. destruct (M5 Pw fuel) as (o & Eo & Lev); [lia|].
    destruct (run_prints (fun _ => irrep_of sy (atoms (l_input l))) (irrep_A sy) fuel
      (find_buddy sy (atoms (l_input l)) (l_axis l) (l_order l) (l_iatom l)) m (l_axes l) (l_iatom l) (l_order l) fc2 f3x f4x o)
      as (Rs & Rl & _ & _ & Rw).
    { exact Hr. } { exact Hd. } { rewrite Mn; lia. } { rewrite Mn, Mv; unfold n; lia. } { apply Hf0; lia. }
    { rewrite Mn, Mw. now apply Sv. } { exact Eo. }
    set (geo := molecule_lines sy (atoms (l_input l))) in *.
    destruct (write_output eprint (irrep_text sy) geo (m_rotcon m) geo o) as [t|] eqn:Et; [|now elim (Rw geo (m_rotcon m) geo)].
    exists t, (o_irreps (out_lists o)), (o_harms (out_lists o)), (o_funds (out_lists o)), (o_corrs (out_lists o)),
      (out_zpt o), (rs_fermi1 (out_resonances o)), (rs_fermi2 (out_resonances o)).
    split; [|split; [|split; [|split]]].
    - unfold program. rewrite El. cbn [obind]. unfold run_files. rewrite Z1, R2, R3, R4. cbn [obind].
      fold m. rewrite Eo. cbn [obind]. exact Et.
    - intros N1 N2 N3. destruct (modes_block_lemma _ _ _ Pr _ _ _ _ _ Hg Hg Et) as (head & rows & z & after & B1 & B2 & B3 & B4).
      { intros x [<-|[<-|[<-|[]]]]; assumption. }
      exists head, rows, z, after. auto.
    - intros Hb. destruct (equil_block_lemma _ _ _ Pr _ _ _ _ _ Hg Hg Et) as (head & row & after & B1 & B2 & B3).
      { rewrite Mb. repeat match goal with H : Forall _ (_ :: _) |- _ => apply Forall_cons_iff in H as [? H] end.
        flist; assumption. }
      exists head, row, after. rewrite Rl in B2, B3. rewrite Mb in B3. auto.
    - intros Hs3. destruct (resonance_blocks_lemma _ _ _ Pr _ _ _ _ _ Hg Hg Et) as (cor & f1 & f2 & a1 & a2 & a3 & _ & _ & C1 & C2 & C3 & C4).
      { apply Rs. rewrite Mv. unfold n. lia. }
      exists f1, f2, a2, a3. auto.
    - intros Hii Iso res Hres Hdn. exact (Lev Hii Iso res Hres Hdn).
  Qed.
End EndToEnd.

Import Text.
Open Scope R_scope.
(** ** data for the examples: three atoms, a diagonal Hessian *)
Definition Rtext : FText R := {|
  fprint := fun p x => fprint p (Int_part x);
  fparse := fun t => option_map IZR (fparse t);
  f_of_N := fun n => IZR (Z.of_N n);
  f_to_N := fun x => Z.to_N (Int_part x) |}.
#[local] Existing Instance Rtext.

Definition sample_symm : symm R unit := {|
  to_angstrom := fun a => a;
  normalize := fun a => ((1, 2, 3), delta, AsymmTop, a);
  centre_of_mass := fun _ => (0, 0, 0);
  point_group := fun _ => OtherGroup;
  masses := map (fun _ => 1);
  find_buddy := fun _ _ _ _ => None;
  irrep_of := fun _ _ _ _ => Some tt;
  irrep_A := tt;
  axis_default := AX;
  molecule_lines := map (fun a => lit "atom " ++ show_N (number a));
  irrep_text := sample_label |}.
Definition sample_er (p : nat) (x : R) : text := fprint p x ++ lit "e0".
Definition sample_in : text := unlines (map lit
  ["# SPECTRO ####"; "1 1 1 1 1 1 1 4"; "# GEOM ####"; "3 0"; "8 0 0 0"; "1 0 1 1"; "1 0 -1 1"]%string).
Definition listing (l : list Z) : text := List.concat (map (fun z => show_Z z ++ [space]) l).
Definition sample_z2 : list Z :=
  flat_map (fun i => map (fun j => if (i =? j)%nat then Z.of_nat (i + 1) else 0%Z) (seq 0 9)) (seq 0 9).
Definition sample_z3 : list Z := map Z.of_nat (seq 0 165).
Definition sample_z4 : list Z := map Z.of_nat (seq 0 495).

Lemma Int_part_IZR z : Int_part (IZR z) = z.
Proof. unfold Int_part. rewrite <- (tech_up (IZR z) (z + 1)); [lia| |]; rewrite plus_IZR; lra. Qed.
Lemma number_R z : f_to_N (IZR z) = Z.to_N z.
Proof. cbn [f_to_N Rtext]. now rewrite Int_part_IZR. Qed.

Lemma read_line_geom (s : reading R) l n x y z vn vx vy vz :
  skip s = 0%nat -> Text.state s = InGeom -> ordinary l -> words l = [n; x; y; z] ->
  fparse n = Some vn -> fparse x = Some vx -> fparse y = Some vy -> fparse z = Some vz -> f_to_N vn <> 0%N ->
  exists s', read_line s l = Some s' /\ skip s' = 0%nat /\ Text.state s' = InGeom /\
    ret s' = {| header := header (ret s); atoms := atoms (ret s) ++ [{| number := f_to_N vn; ax := vx; ay := vy; az := vz; Text.weight := None |}];
                Text.weights := Text.weights (ret s); curvils := curvils (ret s); degmodes := degmodes (ret s); dummies := dummies (ret s) |}.
Proof.
  intros K S Ho W E1 E2 E3 E4 Hn. unfold read_line. rewrite K, S. cbn [Nat.ltb Nat.leb].
  repeat match goal with |- context [if contains ?k l then _ else _] => rewrite (Ho k) by (unfold keywords; cbn [map In]; tauto) end.
  unfold read_geom. rewrite W, E1. cbn [obind]. destruct (N.eqb_spec (f_to_N vn) 0); [contradiction|].
  rewrite E2, E3, E4. cbn [obind]. eexists. split; [reflexivity|]. cbn [skip Text.state ret]. rewrite K, S. auto.
Qed.

Lemma sample_read : exists a, read sample_in = Some {| header := [1; 1; 1; 1; 1; 1; 1; 4]%Z; atoms := a;
    Text.weights := []; curvils := []; degmodes := []; dummies := [] |} /\ map number a = [8; 1; 1]%N.
Proof.
  assert (L : lines sample_in = map lit
    ["# SPECTRO ####"; "1 1 1 1 1 1 1 4"; "# GEOM ####"; "3 0"; "8 0 0 0"; "1 0 1 1"; "1 0 -1 1"]%string) by (vm_compute; reflexivity).
  unfold read. rewrite L. cbn [map].
  assert (O : forall l, forallb (fun k => negb (contains k l)) keywords = true -> ordinary l).
  { intros l Q k Hk. rewrite forallb_forall in Q. specialize (Q k Hk). now apply negb_true_iff in Q. }
  set (l1 := lit "8 0 0 0"). set (l2 := lit "1 0 1 1"). set (l3 := lit "1 0 -1 1").
  assert (E0 : ofold read_line [lit "# SPECTRO ####"; lit "1 1 1 1 1 1 1 4"; lit "# GEOM ####"; lit "3 0"] (start (F := R)) =
    Some {| coord_map := []; Text.state := InGeom; skip := 0%nat; ret := {| header := [1; 1; 1; 1; 1; 1; 1; 4]%Z; atoms := []; Text.weights := [];
            curvils := []; degmodes := []; dummies := [] |} |}) by reflexivity.
  change [lit "# SPECTRO ####"; lit "1 1 1 1 1 1 1 4"; lit "# GEOM ####"; lit "3 0"; l1; l2; l3]
    with ([lit "# SPECTRO ####"; lit "1 1 1 1 1 1 1 4"; lit "# GEOM ####"; lit "3 0"] ++ [l1; l2; l3]).
  rewrite ofold_app, E0. cbn [obind].
  match goal with |- context [ofold _ _ ?s] => set (s0 := s) end. cbn [ofold].
  assert (NZ : forall z, (0 < z)%Z -> f_to_N (IZR z) <> 0%N) by (intros z Hz; rewrite number_R; lia).
  destruct (read_line_geom s0 l1 (lit "8") (lit "0") (lit "0") (lit "0") (IZR 8) (IZR 0) (IZR 0) (IZR 0)) as (s1 & E1 & K1 & S1 & R1);
    try reflexivity. { apply O. reflexivity. } { apply NZ. lia. }
  rewrite E1. cbn [obind].
  destruct (read_line_geom s1 l2 (lit "1") (lit "0") (lit "1") (lit "1") (IZR 1) (IZR 0) (IZR 1) (IZR 1)) as (s2 & E2 & K2 & S2 & R2);
    try reflexivity; try assumption. { apply O. reflexivity. } { apply NZ. lia. }
  rewrite E2. cbn [obind].
  destruct (read_line_geom s2 l3 (lit "1") (lit "0") (lit "-1") (lit "1") (IZR 1) (IZR 0) (IZR (-1)) (IZR 1)) as (s3 & E3 & K3 & S3 & R3);
    try reflexivity; try assumption. { apply O. reflexivity. } { apply NZ. lia. }
  rewrite E3. cbn [obind]. rewrite R3, R2, R1. unfold s0. cbn [ret header atoms Text.weights curvils degmodes dummies List.app].
  unfold apply_weights. cbn [header nth_error obind Z.eqb]. eexists. split; [reflexivity|].
  cbn [map number]. rewrite !number_R. reflexivity.
Qed.

Lemma sample_loaded : exists l, load_input sample_symm sample_in = Some l /\ l_rotor l = AsymmTop /\ l_axes l = delta /\
  header (l_input l) = [1; 1; 1; 1; 1; 1; 1; 4]%Z /\ List.length (atoms (l_input l)) = 3%nat.
Proof.
  destruct sample_read as (a & E & Ha). unfold load_input. rewrite E. cbn [obind]. unfold process_molecule.
  cbn [normalize to_angstrom sample_symm atoms is_sym_top obind orient_geom point_group is_linear andb].
  assert (La : List.length a = 3%nat) by (rewrite <- (map_length number), Ha; reflexivity).
  set (at_ := map _ (combine _ _)).
  assert (Ln : List.length at_ = 3%nat) by (unfold at_; rewrite map_length, combine_length, !map_length; lia).
  rewrite Ln. cbn [make_sizes Nat.mul Nat.add Nat.ltb Nat.leb obind]. eexists. split; [reflexivity|].
  cbn [l_rotor l_axes l_input header atoms]. auto.
Qed.

Lemma omap_opt {A B C} (f : A -> option B) (g : B -> C) l :
  omap (fun x => option_map g (f x)) l = option_map (map g) (omap f l).
Proof.
  unfold omap.
  assert (G : forall acc, ofold (fun acc a => let* b := option_map g (f a) in Some (acc ++ [b])) l (map g acc) =
    option_map (map g) (ofold (fun acc a => let* b := f a in Some (acc ++ [b])) l acc)); [|exact (G [])].
  induction l as [|a l IH]; intros acc; [reflexivity|].
  cbn [ofold]. destruct (f a) as [b|]; [|reflexivity]. cbn [option_map obind].
  change [g b] with (map g [b]). rewrite <- map_app. apply IH.
Qed.
Lemma sample_numbers :
  numbers (listing sample_z2) = Some (map IZR sample_z2) /\
  load_vec (listing sample_z3) = Some (map IZR sample_z3) /\ load_vec (listing sample_z4) = Some (map IZR sample_z4) /\
  numbers (listing (9 :: 9 :: sample_z2))%Z = Some (map IZR (9 :: 9 :: sample_z2))%Z.
Proof.
  unfold numbers, load_vec. cbn [fparse Rtext].
  split; [|split; [|split]]; rewrite omap_opt;
  match goal with |- option_map ?f ?a = Some (map _ ?b) => assert (Q : a = Some b) by (vm_compute; reflexivity); rewrite Q end; reflexivity.
Qed.

Definition sample_hess (i j : nat) : R := IZR (if (i =? j)%nat then Z.of_nat (i + 1) else 0%Z).
Lemma sample_listed : lists2 9 (map IZR sample_z2) sample_hess.
Proof.
  intros i j Hi Hj. rewrite nth_error_map. unfold sample_hess.
  assert (Q : forallb (fun i => forallb (fun j => match nth_error sample_z2 (i * 9 + j) with
    | Some z => (z =? (if (i =? j)%nat then Z.of_nat (i + 1) else 0))%Z | None => false end) (seq 0 9)) (seq 0 9) = true)
    by (vm_compute; reflexivity).
  rewrite forallb_forall in Q. specialize (Q i). rewrite forallb_forall in Q.
  assert (Q' := Q (proj2 (in_seq 9 0 i) (conj (Nat.le_0_l i) Hi)) j (proj2 (in_seq 9 0 j) (conj (Nat.le_0_l j) Hj))).
  cbn beta in Q'. destruct (nth_error sample_z2 (i * 9 + j)) as [z|]; [|discriminate].
  apply Z.eqb_eq in Q'. subst z. reflexivity.
Qed.
Lemma sample_symmetric : symmetric_list 9 (map IZR sample_z2).
Proof.
  intros i j Hi Hj. rewrite (sample_listed i j), (sample_listed j i) by assumption. unfold sample_hess.
  rewrite (Nat.eqb_sym j i). destruct (Nat.eqb_spec i j); [now subst|reflexivity].
Qed.
Lemma listed_same fc2 : lists2 9 (map IZR sample_z2) fc2 -> meq 9 fc2 sample_hess.
Proof. intros L i j Hi Hj. apply some_eq. now rewrite <- (L i j), <- (sample_listed i j). Qed.

Definition sample_vals : list R := map (fun k => FACT2 * IZR (Z.of_nat (k + 1))) (seq 0 9).
Definition sample_eig (A : nat -> nat -> R) : list R * (nat -> nat -> R) := (sample_vals, delta).
Lemma sample_solves fc2 w : lists2 9 (map IZR sample_z2) fc2 -> (forall q, (q < 3)%nat -> w q = 1) ->
  solves (3 * 3) sample_eig (secular 3 delta fc2 w).
Proof.
  intros L Hw. unfold solves, sample_eig. cbn [fst snd]. change (3 * 3)%nat with 9%nat.
  pose proof (listed_same fc2 L) as M.
  apply (eigen_system_ext 9 (fun a b => FACT2 * sample_hess a b)).
  { intros a b Ha Hb. symmetry. rewrite (secular_R 3); [| |intros q Hq; rewrite Hw by exact Hq; lra|exact Ha|exact Hb].
    - unfold weighted. rewrite !Hw, sqrt_1 by (apply Nat.div_lt_upper_bound; lia).
      rewrite (con2_mat _ _ delta) by (intros; apply every_atom_delta). change (3 * 3)%nat with 9%nat.
      rewrite con2_delta by assumption. rewrite M by assumption. field.
    - intros i j Hi Hj. change (3 * 3)%nat with 9%nat in Hi, Hj. apply some_eq. rewrite <- (L i j), <- (L j i) by assumption.
      now apply sample_symmetric. }
  split; [reflexivity|]. split.
  { split; intros a b Ha Hb.
    - now rewrite (sum_delta 9 (fun k => delta b k) a Ha), delta_sym.
    - rewrite (sum_g 9 _ (fun k => delta a k * delta k b)) by (intros; now rewrite (delta_sym i a)).
      now rewrite (sum_delta 9 (fun k => delta k b) a Ha). }
  intros a i x Ha Ex. unfold sample_vals in Ex. rewrite nth_error_map in Ex.
  destruct (nth_error (seq 0 9) i) as [k|] eqn:Ek; [|discriminate]. apply some_eq in Ex.
  assert (Hi : (i < 9)%nat) by (rewrite <- (seq_length 9 0); apply nth_error_Some; congruence).
  rewrite nth_error_seq in Ek by lia. apply some_eq in Ek. subst k x.
  rewrite (sum_g 9 _ (fun b => delta i b * (FACT2 * sample_hess a b))) by (intros; rewrite (delta_sym i0 i); ring).
  rewrite (sum_delta 9 (fun b => FACT2 * sample_hess a b) i Hi). unfold sample_hess, delta.
  destruct (Nat.eqb_spec a i); [subst; cbn [Nat.add]; ring|ring].
Qed.

(** its frequencies are positive *)
Lemma sample_positive fc2 lx : lists2 9 (map IZR sample_z2) fc2 -> forall i,
  Sum 9 (fun a => 1 * lx a i * lx a i) = 1 ->
  0 < to_wavenumber (con2 9 lx (fun a b => FACT2 * con2 9 (every_atom delta) fc2 a b) i i).
Proof.
  intros L i Hn. pose proof (listed_same fc2 L) as M. pose proof FACT2_pos as FP.
  assert (E : con2 9 lx (fun a b => FACT2 * con2 9 (every_atom delta) fc2 a b) i i =
    FACT2 * Sum 9 (fun a => IZR (Z.of_nat (a + 1)) * (lx a i * lx a i))).
  { rewrite (con2_g 9 lx _ (fun a b => FACT2 * sample_hess a b)).
    2:{ intros a b Ha Hb. rewrite (con2_mat _ _ delta) by (intros; apply every_atom_delta).
        rewrite con2_delta by assumption. now rewrite M. }
    unfold con2, con1. rewrite <- Rsum_scal. apply sum_g. intros a Ha.
    rewrite (sum_g 9 _ (fun b => delta a b * (FACT2 * IZR (Z.of_nat (a + 1)) * lx b i))).
    - rewrite (sum_delta 9 (fun b => FACT2 * IZR (Z.of_nat (a + 1)) * lx b i) a Ha). ring.
    - intros b Hb. unfold sample_hess, delta. destruct (Nat.eqb_spec a b); [subst|]; ring. }
  assert (P : 1 <= Sum 9 (fun a => IZR (Z.of_nat (a + 1)) * (lx a i * lx a i))).
  { rewrite <- Hn. apply Rsum_le. intros a _. rewrite Rmult_1_l.
    assert (1 <= IZR (Z.of_nat (a + 1))) by (apply IZR_le; lia).
    assert (0 <= lx a i * lx a i) by (apply Rle_0_sqr). nra. }
  rewrite E, wavenumber_R. destruct (Rlt_dec _ 0) as [H|H]; [nra|].
  apply Rmult_lt_0_compat; [apply WAVE_pos|]. apply sqrt_lt_R0. nra.
Qed.

Lemma sample_prints_R : prints sample_er (irrep_text sample_symm) sample_name.
Proof.
  constructor.
  - intros p x. apply (fprint_chars Ztext_ok).
  - intros p x. unfold sample_er. destruct (fprint_chars Ztext_ok p (Int_part x)) as [_ Q]. split.
    + intros Z. apply app_eq_nil in Z as [_ Z]. discriminate.
    + apply Forall_app. split; [eapply Forall_impl; [|exact Q]; cbn; tauto|].
      change (lit "e0") with ["e"%char; "0"%char]. flist; [right; reflexivity|left; unfold number_char; cbn; tauto].
  - intros i. exact (print_i _ _ _ sample_prints i).
Qed.

(** everything that [report_from_files] asks for *)
Lemma sample_meets : exists l, load_input sample_symm sample_in = Some l /\
  l_rotor l = AsymmTop /\ (2 < nth 7 (header (l_input l)) 4)%Z /\ List.length (atoms (l_input l)) = 3%nat /\
  (forall q, (q < 3)%nat -> nth q (masses sample_symm (atoms (l_input l))) 0 = 1) /\
  Forall plain (molecule_lines sample_symm (atoms (l_input l))) /\ l_axes l = delta /\
  (forall fc2, lists2 9 (map IZR sample_z2) fc2 ->
     solves (3 * 3) sample_eig (secular 3 (l_axes l) fc2 (fun q => nth q (masses sample_symm (atoms (l_input l))) 0))).
Proof.
  destruct sample_loaded as (l & El & E1 & E2 & E3 & E4). exists l.
  assert (M : forall q, (q < 3)%nat -> nth q (masses sample_symm (atoms (l_input l))) 0 = 1).
  { intros q Hq. cbn [masses sample_symm]. rewrite (nth_indep _ _ 1) by (rewrite map_length; lia).
    apply (map_nth (fun _ : atom R => 1) (atoms (l_input l)) {| number := 0%N; ax := 0; ay := 0; az := 0; weight := None |} q). }
  split; [exact El|]. split; [exact E1|]. split; [rewrite E3; reflexivity|]. split; [exact E4|]. split; [exact M|].
  split.
  { cbn [molecule_lines sample_symm]. apply Forall_forall. intros x Hx. apply in_map_iff in Hx as (a & <- & _).
    apply plain_app; [|apply plain_show]. split; [repeat constructor|cbn; intuition discriminate]. }
  split; [exact E2|]. intros fc2 L. rewrite E2. now apply sample_solves.
Qed.

Lemma sample_program : exists fuel t,
  program sample_symm eig_solve sample_eig fuel sample_er false sample_in (listing sample_z2) (listing sample_z3) (listing sample_z4)
  = Some t.
Proof.
  destruct sample_meets as (l & El & H1 & H2 & H3 & H4 & H5 & H6 & H7). destruct sample_numbers as (N1 & N2 & N3 & _).
  destruct (report_from_files_lemma sample_symm eig_solve sample_eig sample_er sample_name eig_solve_ok sample_prints_R
    _ _ _ _ _ _ _ _ El N1 N2 N3) as (fc2 & f3x & f4x & fuel0 & freq & lx & L2 & _ & _ & M1 & _ & M3 & _ & M5).
  { rewrite H3. lia. } { exact H1. } { exact H2. } { rewrite H3. intros q Hq. rewrite H4 by exact Hq. lra. } { exact H5. }
  { rewrite H3. reflexivity. } { rewrite H3. exact sample_symmetric. } { rewrite H3. vm_compute. reflexivity. }
  { rewrite H3. vm_compute. reflexivity. } { rewrite H3. exact H7. }
  rewrite H3, H6 in *. change (3 * 3)%nat with 9%nat in *.
  destruct (M5) with (fuel := fuel0) as (t & _ & _ & _ & _ & _ & _ & _ & Et & _); [|lia|eauto].
  intros i Hi. rewrite (nth_error_nth _ _ _ (M3 i ltac:(lia))). apply (sample_positive fc2 lx L2).
  pose proof (M1 i i ltac:(lia) ltac:(lia)) as Q. rewrite Nat.eqb_refl in Q. etransitivity; [|exact Q]. apply sum_g. intros a Ha.
  rewrite H4; [reflexivity|]. apply Nat.div_lt_upper_bound; lia.
Qed.
