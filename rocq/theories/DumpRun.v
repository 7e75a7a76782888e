(** What a run with --dump-fcs writes. *)
From Coq Require Import FunctionalExtensionality Reals Lra List ZArith NArith Arith Lia Bool Ascii String Permutation Sorted.
From Verif Require Import Num Loops ListFacts Index IndexFacts LoadFacts Modes ModesFacts ResFacts StatesFacts
  Anharm AnharmFacts VibRot VibRotFacts Distort Transform TransformFacts RotFacts NormalFacts HarmFacts ModeFacts
  SymAnharm Polyads Report ReportFacts Geom GeomFacts Finish FinishFacts RunFacts RunSecond OutText OutFacts OutTables OutRun
  Text TextFacts Program ProgramFacts ProgramRun DumpFacts DumpText FermiWitness.
Import ListNotations.
Open Scope list_scope.
Open Scope nat_scope.

(** ** the tables have the expected lengths *)
Lemma flat_map_same {A B C} (l : list A) (f : A -> list B) (g : A -> list C) :
  (forall x, In x l -> List.length (f x) = List.length (g x)) -> List.length (flat_map f l) = List.length (flat_map g l).
Proof.
  induction l as [|a l IH]; intros Hx; [reflexivity|]. cbn [flat_map]. rewrite !app_length, (Hx a) by now left.
  rewrite IH; [reflexivity|]. intros; apply Hx; now right.
Qed.
Lemma force3_length {F} `{Num F} n f3 lx nvib (w : nat -> F) v : force3 n f3 lx nvib w = Some v ->
  List.length v = nvib * (nvib + 1) * (nvib + 2) / 6.
Proof.
  unfold force3. destruct (Nat.eqb_spec nvib 0); [discriminate|]. intros E. apply some_eq in E. rewrite <- E.
  rewrite t3_div, <- tri_indices_length. unfold collect, tri_indices.
  apply flat_map_same. intros i _. apply flat_map_same. intros j _. rewrite map_length.
  induction (range 0 (j + 1)) as [|k r IH]; [reflexivity|]. cbn [flat_map List.app List.length]. now rewrite IH.
Qed.
Lemma set_nth_length {A} (l l' : list A) i x : set_nth l i x = Some l' -> List.length l' = List.length l.
Proof.
  revert i l'. induction l as [|a l IH]; intros i l' E; [destruct i; discriminate|]. destruct i as [|i]; cbn in E.
  - apply some_eq in E. now rewrite <- E.
  - destruct (set_nth l i x) as [r|] eqn:Er; [|discriminate]. apply some_eq in E. rewrite <- E. cbn. f_equal. now apply (IH i).
Qed.
Lemma force4_length {F} `{Num F} n f4 lx nvib (w : nat -> F) v : force4 n f4 lx nvib w = Some v ->
  List.length v = nvib * (nvib + 1) * (nvib + 2) * (nvib + 3) / 24.
Proof.
  unfold force4. destruct (Nat.eqb_spec nvib 0); [discriminate|]. intros E. rewrite t4_div. revert E.
  set (n1 := nvib - 1).
  assert (G : forall A (f : list F -> A -> option (list F)) l N s u,
    (forall v a v', f v a = Some v' -> List.length v = N -> List.length v' = N) ->
    ofold f l s = Some u -> List.length s = N -> List.length u = N).
  { clear. intros A f l N s u Hf. revert s. induction l as [|a l IH]; intros s E L; cbn [ofold] in E; [congruence|].
    destruct (f s a) as [s'|] eqn:Es; [|discriminate]. apply (IH s' E). now apply (Hf s a). }
  intros E. refine (G _ _ _ _ _ _ _ E _).
  - intros s1 i u1 E1. refine (G _ _ _ _ _ _ _ E1). intros s2 j u2 E2. refine (G _ _ _ _ _ _ _ E2).
    intros s3 k u3 E3. refine (G _ _ _ _ _ _ _ E3). intros s4 l u4 E4 L4.
    unfold f4qcm_set in E4. apply set_nth_length in E4. congruence.
  - rewrite repeat_length. rewrite find4_sorted by lia. replace nvib with (S n1) by (unfold n1; lia). cbn [t4 t3 t2]. lia.
Qed.

(** ** the rows *)
Section Rows.
  Context {F : Type} `{Num F}.
  Lemma rows_of_map {A} (l : list A) (f : A -> option (list (list nat * F))) g :
    (forall x, In x l -> f x = Some [g x]) -> rows_of l f = Some (map g l).
  Proof.
    intros Hf. unfold rows_of. change (map g l) with ([] ++ map g l).
    assert (Q : forall acc, ofold (fun acc a => let* r := f a in Some (acc ++ r)) l acc = Some (acc ++ map g l)).
    { induction l as [|a l IH]; intros acc; cbn [ofold map]; [now rewrite app_nil_r|].
      rewrite Hf by now left. cbn [obind]. rewrite IH by (intros; apply Hf; now right). now rewrite <- app_assoc. }
    apply Q.
  Qed.

  (** the blocks, when the tables hold the values of [F3] and [F4] *)
  Lemma dump_values r r2 (fc2 : nat -> nat -> F) a b lxm f3 f4 F3 F4 : r < r2 ->
    (forall i j k, i < r -> j < r -> k < r -> f3qcm_get f3 i j k = Some (F3 i j k)) ->
    (forall i j k l, i < r -> j < r -> k < r -> l < r -> f4qcm_get f4 i j k l = Some (F4 i j k l)) ->
    dump_fcs r r2 r2 fc2 a b lxm f3 f4 = Some
      (flat_map (fun i => map (fun j => ([i + 1; j + 1; 0; 0], fc2 i j)) (seq 0 (i + 1))) (seq 0 r2),
       flat_map (fun i => map (fun j => ([i + 1; j + 1; 0; 0], lxm i j)) (seq 0 b)) (seq 0 a),
       map (fun '(i, j, k) => ([i + 1; j + 1; k + 1; 0], F3 i j k)) (tri_indices r),
       map (fun '(i, j, k, l) => ([i + 1; j + 1; k + 1; l + 1], F4 i j k l)) (tetra_indices r)).
  Proof.
    intros Hr H3 H4. unfold dump_fcs. rewrite Nat.eqb_refl. destruct (Nat.ltb_spec r r2); [|lia]. cbn [negb].
    unfold dump_cubic, dump_quartic.
    rewrite (rows_of_map _ _ (fun '(i, j, k) => ([i + 1; j + 1; k + 1; 0], F3 i j k))).
    2: { intros [[i j] k] Hin. apply tri_indices_in in Hin. rewrite H3 by lia. reflexivity. }
    cbn [obind].
    rewrite (rows_of_map _ _ (fun '(i, j, k, l) => ([i + 1; j + 1; k + 1; l + 1], F4 i j k l))).
    2: { intros [[[i j] k] l] Hin. apply tetra_indices_in in Hin. rewrite H4 by lia. reflexivity. }
    cbn [obind]. unfold dump_hessian, dump_modes, collect. rewrite !range_0.
    repeat f_equal; extensionality i; now rewrite range_0.
  Qed.
End Rows.

(** ** the option only adds to the report *)
Section Adds.
  Context {F I : Type} `{Num F} `{Trig F} `{FText F}.
  Variable sy : symm F I.
  Variables (eig2 : F -> F -> F -> F * F * (F * F)) (eig : (nat -> nat -> F) -> list F * (nat -> nat -> F))
    (fuel : nat) (eprint : nat -> F -> text) (polyad : bool).

  Lemma run_dump_total label (A : I) buddy m axes iatom order fc2 f3x f4x o :
    m_nvib m < 3 * m_natom m ->
    run eig2 eig label A fuel buddy polyad m axes iatom order (Quartic fc2 f3x f4x) = Some (FullResult o) ->
    exists d, run_dump eig fuel label A buddy m axes iatom order fc2 f3x f4x = Some d.
  Proof.
    intros Hn E. unfold run in E. unfold run_dump. cbn [derivative_fc2] in E. cbv zeta in *.
    destruct (harmonic (m_natom m) axes fc2 (m_w m) eig) as [[freql lxm]|]; [|discriminate]. cbn [obind] in *.
    destruct (is_sym_top (m_rotor m)) as [sym|]; [|discriminate]. cbn [obind] in *.
    match type of E with obind ?a _ = _ => destruct a as [[lxm' lx']|]; [|discriminate] end. cbn [obind] in *.
    match type of E with obind ?a _ = _ => destruct a as [irreps|]; [|discriminate] end. cbn [obind] in *.
    match type of E with obind ?a _ = _ => destruct a as [f3l|] eqn:E3; [|discriminate] end. cbn [obind] in *.
    match type of E with obind ?a _ = _ => destruct a as [f4l|] eqn:E4; [|discriminate] end. cbn [obind] in *.
    apply force3_length in E3. apply force4_length in E4.
    destruct (dump_lemma (m_nvib m) (3 * m_natom m) (fun a b => nmul FACT2 (rot2nd (m_natom m) axes fc2 a b))
      (3 * m_natom m) (3 * m_natom m) lxm' f3l f4l Hn E3 E4) as (h & q & c & x & Ed & _). eauto.
  Qed.

  Lemma dump_adds_lemma infile t15 t30 t40 :
    (forall t, program sy eig2 eig fuel eprint polyad infile t15 t30 t40 = Some t ->
       exists d, program_dump sy eig2 eig fuel eprint polyad infile t15 t30 t40 = Some (unlines (dump_lines d) ++ t)) /\
    (program sy eig2 eig fuel eprint polyad infile t15 t30 t40 = None ->
       program_dump sy eig2 eig fuel eprint polyad infile t15 t30 t40 = None).
  Proof.
    split.
    - intros t E. pose proof E as Et. unfold program in E. unfold program_dump.
      destruct (load_input sy infile) as [l|] eqn:El; [|discriminate]. cbn [obind] in *. cbv zeta.
      unfold run_files in E. cbv zeta in E.
      destruct (read_fc2 (sz_n3n (l_sizes l)) t15) as [fc2|]; [|discriminate]. cbn [obind] in *.
      destruct (read_fc3 (sz_n3n (l_sizes l)) t30) as [f3x|]; [|discriminate]. cbn [obind] in *.
      destruct (read_fc4 (sz_n3n (l_sizes l)) t40) as [f4x|]; [|discriminate]. cbn [obind] in *.
      match type of E with obind ?a _ = _ => destruct a as [r|] eqn:Er; [|discriminate] end. cbn [obind] in E.
      destruct r as [|o]; [discriminate|].
      destruct (load_sizes sy infile l El) as (_ & Z2 & Z3).
      assert (Hn : m_nvib (molecule_of sy l) < 3 * m_natom (molecule_of sy l)).
      { unfold molecule_of. cbn [m_nvib m_natom]. rewrite Z3. destruct (is_linear (l_rotor l)); lia. }
      destruct (run_dump_total _ _ _ _ _ _ _ _ _ _ _ Hn Er) as (d & Ed).
      exists d. rewrite Ed. cbn [obind]. rewrite Et. reflexivity.
    - intros E. unfold program_dump. rewrite E.
      destruct (load_input sy infile) as [l|]; [|reflexivity]. cbn [obind]. cbv zeta.
      destruct (read_fc2 _ t15) as [fc2|]; [|reflexivity]. cbn [obind].
      destruct (read_fc3 _ t30) as [f3x|]; [|reflexivity]. cbn [obind].
      destruct (read_fc4 _ t40) as [f4x|]; [|reflexivity]. cbn [obind].
      destruct (run_dump _ _ _ _ _ _ _ _ _ _ _ _) as [d'|]; reflexivity.
  Qed.
End Adds.

Lemma flat_map_in {A B} (f g : A -> list B) l : (forall x, In x l -> f x = g x) -> flat_map f l = flat_map g l.
Proof.
  induction l as [|a l IH]; intros Hx; [reflexivity|]. cbn [flat_map]. rewrite (Hx a) by now left. f_equal.
  apply IH. intros; apply Hx; now right.
Qed.

(** ** the dump of an asymmetric top *)
Open Scope R_scope.
Section Dumped.
  Context {I : Type}.
  Variables (sy : symm R I) (eig2 : R -> R -> R -> R * R * (R * R)) (eig : (nat -> nat -> R) -> list R * (nat -> nat -> R))
    (eprint : nat -> R -> text) (name : I -> text).
  Context `{G0 : Trig R} `{T0 : FText R}.
  Hypothesis Pr : prints eprint (irrep_text sy) name.

  (** a reader sees the indices and the value of a row *)
  Lemma words_dump idx x : Forall short idx -> narrow 12 20 x -> words (dump_line (idx, x)) = map show idx ++ [fprint 12 x].
  Proof.
    intros Hi Hx. destruct (words_row (map (fun i => (5%nat, show i)) idx ++ [(20%nat, fprint 12 x)])) as [W _].
    { apply Forall_app. split.
      - apply Forall_forall. intros [w u] Hw. apply in_map_iff in Hw as (y & Q & Hy). injection Q as <- <-.
        split; [apply show_solid|]. rewrite Forall_forall in Hi. apply show_short, Hi, Hy.
      - apply Forall_cons; [|apply Forall_nil]. split; [apply (f_solid _ _ _ Pr)|exact Hx]. }
    unfold dump_line. cbn [fst snd]. rewrite map_app, concat_app in W. cbn [map List.concat] in W. rewrite app_nil_r in W.
    rewrite !map_map in W. rewrite map_app, map_map in W. unfold int5. unfold show in W at 1. exact W.
  Qed.

  Lemma words_rows (l : list (list nat * R)) :
    (forall idx x, In (idx, x) l -> Forall short idx /\ narrow 12 20 x) ->
    map words (map dump_line l) = map (fun '(idx, x) => map show idx ++ [fprint 12 x]) l.
  Proof.
    intros Hl. rewrite map_map. apply map_ext_in. intros [idx x] Hi. destruct (Hl idx x Hi). now apply words_dump.
  Qed.

  Lemma dump_from_files_lemma infile t15 t30 t40 (l : loaded R) (d2 d3 d4 : list R) :
    load_input sy infile = Some l ->
    numbers t15 = Some d2 -> load_vec t30 = Some d3 -> load_vec t40 = Some d4 ->
    let N := List.length (atoms (l_input l)) in
    let mass q := nth q (masses sy (atoms (l_input l))) 0 in
    let n := (3 * N - 6)%nat in
    (2 < N)%nat -> l_rotor l = AsymmTop -> (2 < nth 7 (header (l_input l)) 4)%Z ->
    (forall q, (q < N)%nat -> 0 < mass q) ->
    List.length d2 = (3 * N * (3 * N))%nat -> symmetric_list (3 * N) d2 ->
    List.length d3 = (3 * N * (3 * N + 1) * (3 * N + 2) / 6)%nat ->
    List.length d4 = (3 * N * (3 * N + 1) * (3 * N + 2) * (3 * N + 3) / 24)%nat ->
    (forall fc2, lists2 (3 * N) d2 fc2 -> solves (3 * N) eig (secular N (l_axes l) fc2 mass)) ->
    exists fc2 f3x f4x fuel0 freq lx,
      lists2 (3 * N) d2 fc2 /\ lists3 (3 * N) d3 f3x /\ lists4 (3 * N) d4 f4x /\
      let w := fun i => nth i freq 0 in
      let hess := fun a b => FACT2 * con2 (3 * N) (every_atom (l_axes l)) fc2 a b in
      let mode := fun a i => sqrt (mass (a / 3)%nat) * lx a i in
      let F3 := cubic_spec (3 * N) (con3 (3 * N) (every_atom (l_axes l)) f3x) lx w in
      let F4 := quartic_spec (3 * N) (con4 (3 * N) (every_atom (l_axes l)) f4x) lx w in
      (forall i j, (i < 3 * N)%nat -> (j < 3 * N)%nat ->
         Sum (3 * N) (fun a => mass (a / 3)%nat * lx a i * lx a j) = (if Nat.eqb i j then 1 else 0)) /\
      (forall i j, (i < 3 * N)%nat -> (j < 3 * N)%nat -> i <> j -> con2 (3 * N) lx hess i j = 0) /\
      (forall i, (i < 3 * N)%nat -> nth_error freq i = Some (to_wavenumber (con2 (3 * N) lx hess i i))) /\
      StronglySorted Rge freq /\
      ((forall i, (i < n)%nat -> 0 < w i) ->
       forall fuel, (fuel0 <= fuel)%nat ->
       exists t H M C Q,
       program sy eig2 eig fuel eprint false infile t15 t30 t40 = Some t /\
       program_dump sy eig2 eig fuel eprint false infile t15 t30 t40 = Some (unlines (
         lit "Cartesian Hessian (mdyne/Å)" :: H ++
         [] :: lit "Normal coordinates" :: M ++
         [] :: lit "Normal coordinate cubic force constants (mdyne/Å²)" :: C ++
         [] :: lit "Normal coordinate quartic force constants (mdyne/Å³)" :: Q) ++ t) /\
       (short (3 * N) ->
        ((forall i j, (i < 3 * N)%nat -> (j < 3 * N)%nat -> narrow 12 20 (hess i j)) ->
         map words H = flat_map (fun i => map (fun j => map show [i + 1; j + 1; 0; 0]%nat ++ [fprint 12 (hess i j)])
           (seq 0 (i + 1))) (seq 0 (3 * N))) /\
        ((forall i j, (i < 3 * N)%nat -> (j < 3 * N)%nat -> narrow 12 20 (mode i j)) ->
         map words M = flat_map (fun i => map (fun j => map show [i + 1; j + 1; 0; 0]%nat ++ [fprint 12 (mode i j)])
           (seq 0 (3 * N))) (seq 0 (3 * N))) /\
        ((forall i j k, (k <= j <= i)%nat -> (i < n)%nat -> narrow 12 20 (F3 i j k)) ->
         map words C = flat_map (fun i => flat_map (fun j => map (fun k =>
             map show [i + 1; j + 1; k + 1; 0]%nat ++ [fprint 12 (F3 i j k)])
           (seq 0 (j + 1))) (seq 0 (i + 1))) (seq 0 n)) /\
        ((forall i j k m, (m <= k <= j)%nat -> (j <= i)%nat -> (i < n)%nat -> narrow 12 20 (F4 i j k m)) ->
         map words Q = flat_map (fun i => flat_map (fun j => flat_map (fun k => map (fun m =>
             map show [i + 1; j + 1; k + 1; m + 1]%nat ++ [fprint 12 (F4 i j k m)])
           (seq 0 (k + 1))) (seq 0 (j + 1))) (seq 0 (i + 1))) (seq 0 n)))).
  Proof.
    intros El E15 E30 E40 N mass n HN Hr Hd Hm L2 Hs L3 L4 Sv.
    destruct (read_fc2_listed (3 * N) t15 d2 E15 L2 Hs) as (fc2 & R2 & Q2).
    destruct (read_fc3_listed (3 * N) t30 d3 E30 L3) as (f3x & R3 & Q3).
    destruct (read_fc4_listed (3 * N) t40 d4 E40 L4) as (f4x & R4 & Q4).
    destruct (load_sizes sy infile l El) as (Z1 & Z2 & Z3). fold N in Z1, Z2, Z3. rewrite Hr in Z3. cbn [is_linear] in Z3.
    set (m := molecule_of sy l).
    assert (Mn : m_natom m = N) by reflexivity.
    assert (Mv : m_nvib m = n) by (unfold m, molecule_of, n; cbn [m_nvib]; lia).
    assert (Mw : m_w m = mass) by (unfold m, molecule_of, mass; cbn [m_w]; rewrite nz_R; reflexivity).
    assert (Hn : (0 < n <= 3 * N)%nat) by (unfold n; lia).
    assert (S2 : sym2 (3 * N) fc2).
    { intros i j Hi Hj. apply some_eq. rewrite <- (Q2 i j), <- (Q2 j i) by assumption. now apply Hs. }
    pose proof (lists3_tsym _ _ _ Q3) as S3. pose proof (lists4_tsym _ _ _ Q4) as S4.
    destruct (normal_modes_lemma N (l_axes l) fc2 mass eig S2 Hm (Sv fc2 Q2)) as (freq & lxm & Eh & Lf & M1 & M2 & M3 & M4).
    set (lx := make_lx (3 * N) (make_sqm mass) lxm) in *.
    destruct labels_end_R as (f0 & Hf0).
    exists fc2, f3x, f4x, f0, freq, lx. split; [exact Q2|]. split; [exact Q3|]. split; [exact Q4|]. cbv zeta.
    split; [exact M1|]. split; [exact M2|]. split; [exact M3|]. split; [exact M4|].
    intros Pw fuel Hfu. set (w := fun i => nth i freq 0) in *.
    assert (Wf : (fun i => nth i freq (nz 0)) = w) by (unfold w; rewrite nz_R; reflexivity).
    set (at_ := atoms (l_input l)) in *.
    set (label := fun _ : nat -> R * R * R => irrep_of sy at_).
    set (buddy := find_buddy sy at_ (l_axis l) (l_order l) (l_iatom l)).
    destruct (force3_lemma (3 * N) (rot3rd N (3 * N) (l_axes l) f3x) lx n w (proj1 Hn) (proj1 (proj2 (rot_sym_lemma N (l_axes l))) f3x S3))
      as (f3l & E3 & _ & G3).
    destruct (force4_lemma (3 * N) (rot4th N (3 * N) (l_axes l) f4x) lx n w (proj1 Hn) (proj2 (proj2 (rot_sym_lemma N (l_axes l))) f4x S4))
      as (f4l & E4 & _ & G4).
    set (hess := fun a b => FACT2 * con2 (3 * N) (every_atom (l_axes l)) fc2 a b) in *.
    set (mode := fun a i => sqrt (mass (a / 3)%nat) * lx a i).
    set (F3 := cubic_spec (3 * N) (con3 (3 * N) (every_atom (l_axes l)) f3x) lx w).
    set (F4 := quartic_spec (3 * N) (con4 (3 * N) (every_atom (l_axes l)) f4x) lx w).
    assert (V3 : forall i j k, (i < n)%nat -> (j < n)%nat -> (k < n)%nat -> f3qcm_get f3l i j k = Some (F3 i j k)).
    { intros i j k Hi Hj Hk. unfold F3. rewrite G3 by assumption. f_equal. unfold cubic_spec. f_equal.
      apply con3_g. intros. now apply rot3rd_lemma. }
    assert (V4 : forall i j k p, (i < n)%nat -> (j < n)%nat -> (k < n)%nat -> (p < n)%nat -> f4qcm_get f4l i j k p = Some (F4 i j k p)).
    { intros i j k p Hi Hj Hk Hp. unfold F4. rewrite G4 by assumption. f_equal. unfold quartic_spec. f_equal.
      apply con4_g. intros. now apply rot4th_lemma. }
    assert (Lm : forall a i, (a < 3 * N)%nat -> (i < 3 * N)%nat -> lxm a i = mode a i).
    { intros a i Ha Hi. unfold mode, lx. rewrite make_lx_eq by assumption. unfold make_sqm. rewrite nz_R. cbn [nmul ndiv nsqrt Rnum].
      assert (0 < sqrt (mass (a / 3)%nat)) by (apply sqrt_lt_R0, Hm; apply Nat.div_lt_upper_bound; lia). field. lra. }
    assert (Hv : forall a b, (a < 3 * N)%nat -> (b < 3 * N)%nat -> FACT2 * rot2nd N (l_axes l) fc2 a b = hess a b).
    { intros a b Ha Hb. unfold hess. now rewrite rot2nd_lemma. }
    (* the run ends *)
    assert (Al : RunFacts.aligned buddy m (l_iatom l) (l_order l) freq lxm lx lxm lx).
    { unfold RunFacts.aligned. replace (m_rotor m) with AsymmTop by (symmetry; exact Hr). split; reflexivity. }
    destruct (run_total_lemma eig2 eig label (irrep_A sy) fuel buddy m (l_axes l) (l_iatom l) (l_order l) fc2 f3x f4x freq lxm lxm lx (singles n))
      as (o & _ & Eo & _).
    { change (l_rotor l <> SphericalTop). rewrite Hr; discriminate. } { change (l_rotor l <> NoRotor). rewrite Hr; discriminate. }
    { now apply Hf0. } { intros _. exact Hd. } { rewrite Mn; lia. } { rewrite Mn, Mv. exact Hn. } { rewrite Mn, Mw. exact Eh. }
    { rewrite Mv, Lf. exact (proj2 Hn). } { rewrite Mn, Mw. exact Al. }
    { rewrite Mv. change (m_rotor m) with (l_rotor l). rewrite Hr. apply deg_modes_asym_lemma; auto. }
    { rewrite Mv. apply singles_part. } { apply comparable_R. }
    destruct (run_prints sy eig2 eig eprint label (irrep_A sy) fuel buddy m (l_axes l) (l_iatom l) (l_order l) fc2 f3x f4x o)
      as (_ & _ & _ & _ & Rw).
    { exact Hr. } { exact Hd. } { rewrite Mn; lia. } { rewrite Mn, Mv. exact (proj2 Hn). } { now apply Hf0. }
    { rewrite Mn, Mw. exact (Sv fc2 Q2). } { exact Eo. }
    set (geo := molecule_lines sy at_) in *.
    destruct (write_output eprint (irrep_text sy) geo (m_rotcon m) geo o) as [t|] eqn:Et; [|now elim (Rw geo (m_rotcon m) geo)].
    assert (Pt : program sy eig2 eig fuel eprint false infile t15 t30 t40 = Some t).
    { unfold program. rewrite El. cbn [obind]. unfold run_files. rewrite Z1, R2, R3, R4. cbn [obind].
      fold m at_ label buddy. rewrite Eo. cbn [obind]. exact Et. }
    (* the rows *)
    assert (Hnn : (n < 3 * N)%nat) by (unfold n; lia).
    pose proof (dump_values n (3 * N) (fun a b => nmul FACT2 (rot2nd N (l_axes l) fc2 a b)) (3 * N) (3 * N) lxm f3l f4l F3 F4 Hnn V3 V4) as Ed.
    match type of Ed with _ = Some (?h, ?q, ?c, ?x) => set (rh := h) in *; set (rm := q) in *; set (rc := c) in *; set (rq := x) in * end.
    assert (Er : run_dump eig fuel label (irrep_A sy) buddy m (l_axes l) (l_iatom l) (l_order l) fc2 f3x f4x = Some (rh, rm, rc, rq)).
    { unfold run_dump. cbv zeta. rewrite Mn, Mv, Mw, Eh. cbn [obind]. change (m_rotor m) with (l_rotor l). rewrite Hr. cbn [is_sym_top obind].
      unfold run in Eo. cbv zeta in Eo. cbn [derivative_fc2] in Eo. rewrite Mn, Mv, Mw, Eh in Eo. cbn [obind] in Eo.
      change (m_rotor m) with (l_rotor l) in Eo. rewrite Hr in Eo. cbn [is_sym_top obind] in Eo.
      match type of Eo with obind ?a _ = _ => destruct a as [irreps|]; [|discriminate] end. cbn [obind].
      fold lx. rewrite Wf, E3. cbn [obind]. rewrite E4. cbn [obind]. exact Ed. }
    exists t, (map dump_line rh), (map dump_line rm), (map dump_line rc), (map dump_line rq).
    split; [exact Pt|]. split.
    { unfold program_dump. rewrite El. cbn [obind]. cbv zeta. rewrite Z1, R2, R3, R4. cbn [obind].
      fold m at_ label buddy. rewrite Er. cbn [obind]. rewrite Pt. reflexivity. }
    intros Sh. assert (S1 : forall i, (i < 3 * N)%nat -> short (i + 1)) by (intros i Hi; unfold short in *; lia).
    assert (S0 : short 0) by (unfold short; lia).
    split; [|split; [|split]].
    - intros Nw. rewrite words_rows.
      + unfold rh. rewrite flat_map_concat_map, concat_map, map_map, <- flat_map_concat_map. apply flat_map_in. intros i Hi%in_seq.
        rewrite map_map. apply map_ext_in. intros j Hj%in_seq. cbn [map List.app]. change (nmul ?a ?b) with (a * b). rewrite Hv by lia. reflexivity.
      + intros idx x Hin. apply in_flat_map in Hin as (i & Hi%in_seq & Hin). apply in_map_iff in Hin as (j & Q & Hj%in_seq).
        injection Q as <- <-. split; [repeat (apply Forall_cons || apply Forall_nil); auto; apply S1; lia|].
        change (nmul ?a ?b) with (a * b). rewrite Hv by lia. apply Nw; lia.
    - intros Nw. rewrite words_rows.
      + unfold rm. rewrite flat_map_concat_map, concat_map, map_map, <- flat_map_concat_map. apply flat_map_in. intros i Hi%in_seq.
        rewrite map_map. apply map_ext_in. intros j Hj%in_seq. cbn [map List.app]. rewrite Lm by lia. reflexivity.
      + intros idx x Hin. apply in_flat_map in Hin as (i & Hi%in_seq & Hin). apply in_map_iff in Hin as (j & Q & Hj%in_seq).
        injection Q as <- <-. split; [repeat (apply Forall_cons || apply Forall_nil); auto; apply S1; lia|].
        rewrite Lm by lia. apply Nw; lia.
    - intros Nw. rewrite words_rows.
      + unfold rc. rewrite map_map. unfold tri_indices. rewrite range_0.
        rewrite flat_map_concat_map, concat_map, map_map, <- flat_map_concat_map. apply flat_map_in. intros i Hi%in_seq.
        rewrite range_0, flat_map_concat_map, concat_map, map_map, <- flat_map_concat_map. apply flat_map_in. intros j Hj%in_seq.
        rewrite range_0, map_map. reflexivity.
      + intros idx x Hin. apply in_map_iff in Hin as ([[i j] k] & Q & Hin). apply tri_indices_in in Hin.
        injection Q as <- <-. split; [repeat (apply Forall_cons || apply Forall_nil); auto; apply S1; unfold n in *; lia|].
        apply Nw; lia.
    - intros Nw. rewrite words_rows.
      + unfold rq. rewrite map_map. unfold tetra_indices. rewrite range_0.
        rewrite flat_map_concat_map, concat_map, map_map, <- flat_map_concat_map. apply flat_map_in. intros i Hi%in_seq.
        rewrite range_0, flat_map_concat_map, concat_map, map_map, <- flat_map_concat_map. apply flat_map_in. intros j Hj%in_seq.
        rewrite range_0, flat_map_concat_map, concat_map, map_map, <- flat_map_concat_map. apply flat_map_in. intros k Hk%in_seq.
        rewrite range_0, map_map. reflexivity.
      + intros idx x Hin. apply in_map_iff in Hin as ([[[i j] k] p] & Q & Hin). apply tetra_indices_in in Hin.
        injection Q as <- <-. split; [repeat (apply Forall_cons || apply Forall_nil); auto; apply S1; unfold n in *; lia|].
        apply Nw; lia.
  Qed.
End Dumped.
