(** The lines that --to-gauss writes. *)
From Coq Require Import Reals Lra List ZArith NArith Arith Lia Bool Ascii String Sorted.
From Verif Require Import Num Loops ListFacts Index IndexFacts LoadFacts Modes ModesFacts ResFacts StatesFacts
  Anharm AnharmFacts VibRot VibRotFacts Distort Transform TransformFacts RotFacts NormalFacts HarmFacts ModeFacts
  SymAnharm Polyads Report ReportFacts Geom GeomFacts Finish FinishFacts RunFacts RunSecond OutText OutFacts OutTables OutRun
  Text TextFacts Program ProgramFacts ProgramRun DumpFacts DumpText DumpRun SavedText SavedRun FermiWitness.
Import ListNotations.
Open Scope list_scope.
Open Scope nat_scope.
Local Open Scope R_scope.

Section GaussText.
  Context {I : Type}.
  Variables (sy : symm R I) (eprint : nat -> R -> text) (name : I -> text).
  Context `{T0 : FText R}.
  Hypothesis Pr : prints eprint (irrep_text sy) name.

  Definition large (x : R) : bool := ngtb (nabs x) (nlit 1 1000000).
  Lemma large_spec x : large x = if Rlt_dec (1 / 1000000) (Rabs x) then true else false.
  Proof. unfold large, ngtb. cbn [nltb nabs nlit Rnum]. unfold Rltb. destruct (Rlt_dec _ _); reflexivity. Qed.

  Lemma gauss_text_lemma (s : saved R I) (V3 : nat -> nat -> nat -> R) (V4 : nat -> nat -> nat -> nat -> R) :
    let r := List.length (s_freq s) in
    (forall i j k, (k <= j <= i)%nat -> (i < r)%nat -> f3qcm_get (s_f3qcm s) i j k = Some (V3 i j k)) ->
    (forall i j k l, (l <= k <= j)%nat -> (j <= i)%nat -> (i < r)%nat -> f4qcm_get (s_f4qcm s) i j k l = Some (V4 i j k l)) ->
    exists C Q,
      main_gauss s = Some (unlines (
        lit "CUBIC FORCE CONSTANTS IN NORMAL MODES" :: C ++ lit "QUARTIC FORCE CONSTANTS IN NORMAL MODES" :: Q)) /\
      (short r ->
       ((forall i j k, (k <= j <= i)%nat -> (i < r)%nat -> narrow 12 20 (V3 i j k)) ->
        map words C = flat_map (fun i => flat_map (fun j => flat_map (fun k =>
            if Rlt_dec (1 / 1000000) (Rabs (V3 i j k))
            then [map show [i + 1; j + 1; k + 1]%nat ++ [fprint 12 (V3 i j k)]] else [])
          (seq 0 (j + 1))) (seq 0 (i + 1))) (seq 0 r)) /\
       ((forall i j k l, (l <= k <= j)%nat -> (j <= i)%nat -> (i < r)%nat -> narrow 12 20 (V4 i j k l)) ->
        map words Q = flat_map (fun i => flat_map (fun j => flat_map (fun k => flat_map (fun l =>
            if Rlt_dec (1 / 1000000) (Rabs (V4 i j k l))
            then [map show [i + 1; j + 1; k + 1; l + 1]%nat ++ [fprint 12 (V4 i j k l)]] else [])
          (seq 0 (k + 1))) (seq 0 (j + 1))) (seq 0 (i + 1))) (seq 0 r))).
  Proof.
    intros r H3 H4.
    set (g3 := fun '(i, j, k) => if large (V3 i j k) then [([i + 1; j + 1; k + 1]%nat, V3 i j k)] else []).
    set (g4 := fun '(i, j, k, l) => if large (V4 i j k l) then [([i + 1; j + 1; k + 1; l + 1]%nat, V4 i j k l)] else []).
    assert (E3 : gauss_cubic r (s_f3qcm s) = Some (flat_map g3 (tri_indices r))).
    { unfold gauss_cubic, rows_of. rewrite (rows_of_eq _ _ g3 []); [reflexivity|].
      intros [[i j] k] Hi. apply tri_indices_in in Hi. rewrite H3 by lia. reflexivity. }
    assert (E4 : gauss_quartic r (s_f4qcm s) = Some (flat_map g4 (tetra_indices r))).
    { unfold gauss_quartic, rows_of. rewrite (rows_of_eq _ _ g4 []); [reflexivity|].
      intros [[[i j] k] l] Hi. apply tetra_indices_in in Hi. rewrite H4 by lia. reflexivity. }
    exists (map dump_line (flat_map g3 (tri_indices r))), (map dump_line (flat_map g4 (tetra_indices r))).
    split.
    { unfold main_gauss, to_gauss. fold r. rewrite E3. cbn [obind]. rewrite E4. reflexivity. }
    assert (FF : forall {A B C} (f : B -> list C) (h : A -> list B) l, flat_map f (flat_map h l) = flat_map (fun x => flat_map f (h x)) l).
    { intros A B C f h l. induction l as [|a l IH]; [reflexivity|]. cbn [flat_map]. now rewrite flat_map_app, IH. }
    assert (FM : forall {A B C} (f : B -> list C) (h : A -> B) l, flat_map f (map h l) = flat_map (fun x => f (h x)) l).
    { intros A B C f h l. induction l as [|a l IH]; [reflexivity|]. cbn [flat_map map]. now rewrite IH. }
    assert (MF : forall {A B C} (f : B -> C) (h : A -> list B) l, map f (flat_map h l) = flat_map (fun x => map f (h x)) l).
    { intros A B C f h l. induction l as [|a l IH]; [reflexivity|]. cbn [flat_map]. now rewrite map_app, IH. }
    intros Sh. assert (S1 : forall i, (i < r)%nat -> short (i + 1)) by (intros i Hi; unfold short in *; lia).
    split; intros Nw.
    - rewrite (words_rows sy eprint name Pr).
      + rewrite MF. unfold tri_indices. rewrite range_0, FF. apply flat_map_in. intros i _.
        rewrite range_0, FF. apply flat_map_in. intros j _. rewrite range_0, FM. apply flat_map_in. intros k _.
        unfold g3. rewrite large_spec. destruct (Rlt_dec _ _); reflexivity.
      + intros idx x Hin. apply in_flat_map in Hin as ([[i j] k] & Hi & Hin). apply tri_indices_in in Hi. unfold g3 in Hin.
        destruct (large _); [|destruct Hin]. destruct Hin as [Q|[]]. injection Q as <- <-.
        split; [repeat (apply Forall_cons || apply Forall_nil); apply S1; lia|apply Nw; lia].
    - rewrite (words_rows sy eprint name Pr).
      + rewrite MF. unfold tetra_indices. rewrite range_0, FF. apply flat_map_in. intros i _.
        rewrite range_0, FF. apply flat_map_in. intros j _. rewrite range_0, FF. apply flat_map_in. intros k _.
        rewrite range_0, FM. apply flat_map_in. intros l _.
        unfold g4. rewrite large_spec. destruct (Rlt_dec _ _); reflexivity.
      + intros idx x Hin. apply in_flat_map in Hin as ([[[i j] k] l] & Hi & Hin). apply tetra_indices_in in Hi. unfold g4 in Hin.
        destruct (large _); [|destruct Hin]. destruct Hin as [Q|[]]. injection Q as <- <-.
        split; [repeat (apply Forall_cons || apply Forall_nil); apply S1; lia|apply Nw; lia].
  Qed.
End GaussText.

(** ** the saved data of a run, cut to the frequencies of the vibrations *)
Section Cut.
  Context {I : Type}.
  Variables (sy : symm R I) (eig : (nat -> nat -> R) -> list R * (nat -> nat -> R)) (eprint : nat -> R -> text) (name : I -> text).
  Context `{G0 : Trig R} `{T0 : FText R}.
  Hypothesis Pr : prints eprint (irrep_text sy) name.

  Lemma gauss_cut_lemma infile t15 t30 t40 (l : loaded R) (d2 d3 d4 : list R) fuel s :
    load_input sy infile = Some l ->
    numbers t15 = Some d2 -> load_vec t30 = Some d3 -> load_vec t40 = Some d4 ->
    let N := List.length (atoms (l_input l)) in
    let mass q := nth q (masses sy (atoms (l_input l))) 0 in
    let n := (3 * N - 6)%nat in
    (2 < N)%nat -> l_rotor l = AsymmTop ->
    (forall q, (q < N)%nat -> 0 < mass q) ->
    List.length d2 = (3 * N * (3 * N))%nat -> symmetric_list (3 * N) d2 ->
    List.length d3 = (3 * N * (3 * N + 1) * (3 * N + 2) / 6)%nat ->
    List.length d4 = (3 * N * (3 * N + 1) * (3 * N + 2) * (3 * N + 3) / 24)%nat ->
    (forall fc2, lists2 (3 * N) d2 fc2 -> solves (3 * N) eig (secular N (l_axes l) fc2 mass)) ->
    run_saved sy eig fuel l t15 t30 t40 = Some s ->
    exists fc2 f3x f4x lx C Q,
      lists2 (3 * N) d2 fc2 /\ lists3 (3 * N) d3 f3x /\ lists4 (3 * N) d4 f4x /\
      let w := fun i => nth i (s_freq s) 0 in
      let hess := fun a b => FACT2 * con2 (3 * N) (every_atom (l_axes l)) fc2 a b in
      let F3 := cubic_spec (3 * N) (con3 (3 * N) (every_atom (l_axes l)) f3x) lx w in
      let F4 := quartic_spec (3 * N) (con4 (3 * N) (every_atom (l_axes l)) f4x) lx w in
      (forall i j, (i < 3 * N)%nat -> (j < 3 * N)%nat ->
         Sum (3 * N) (fun a => mass (a / 3)%nat * lx a i * lx a j) = (if Nat.eqb i j then 1 else 0)) /\
      (forall i j, (i < 3 * N)%nat -> (j < 3 * N)%nat -> i <> j -> con2 (3 * N) lx hess i j = 0) /\
      (forall i, (i < 3 * N)%nat -> nth_error (s_freq s) i = Some (to_wavenumber (con2 (3 * N) lx hess i i))) /\
      StronglySorted Rge (s_freq s) /\
      main_gauss (mk_saved (s_spectro s) (firstn n (s_freq s)) (s_f3qcm s) (s_f4qcm s) (s_irreps s) (s_lxm s) (s_lx s)) =
        Some (unlines (
          lit "CUBIC FORCE CONSTANTS IN NORMAL MODES" :: C ++ lit "QUARTIC FORCE CONSTANTS IN NORMAL MODES" :: Q)) /\
      (short n ->
       ((forall i j k, (k <= j <= i)%nat -> (i < n)%nat -> narrow 12 20 (F3 i j k)) ->
        map words C = flat_map (fun i => flat_map (fun j => flat_map (fun k =>
            if Rlt_dec (1 / 1000000) (Rabs (F3 i j k))
            then [map show [i + 1; j + 1; k + 1]%nat ++ [fprint 12 (F3 i j k)]] else [])
          (seq 0 (j + 1))) (seq 0 (i + 1))) (seq 0 n)) /\
       ((forall i j k p, (p <= k <= j)%nat -> (j <= i)%nat -> (i < n)%nat -> narrow 12 20 (F4 i j k p)) ->
        map words Q = flat_map (fun i => flat_map (fun j => flat_map (fun k => flat_map (fun p =>
            if Rlt_dec (1 / 1000000) (Rabs (F4 i j k p))
            then [map show [i + 1; j + 1; k + 1; p + 1]%nat ++ [fprint 12 (F4 i j k p)]] else [])
          (seq 0 (k + 1))) (seq 0 (j + 1))) (seq 0 (i + 1))) (seq 0 n))).
  Proof.
    intros El E15 E30 E40 N mass n HN Hr Hm L2 Hs L3 L4 Sv Es.
    destruct (read_fc2_listed (3 * N) t15 d2 E15 L2 Hs) as (fc2 & R2 & Q2).
    destruct (read_fc3_listed (3 * N) t30 d3 E30 L3) as (f3x & R3 & Q3).
    destruct (read_fc4_listed (3 * N) t40 d4 E40 L4) as (f4x & R4 & Q4).
    destruct (load_sizes sy infile l El) as (Z1 & Z2 & Z3). fold N in Z1, Z2, Z3. rewrite Hr in Z3. cbn [is_linear] in Z3.
    assert (Hn : (0 < n <= 3 * N)%nat) by (unfold n; lia).
    assert (S2 : sym2 (3 * N) fc2).
    { intros i j Hi Hj. apply some_eq. rewrite <- (Q2 i j), <- (Q2 j i) by assumption. now apply Hs. }
    pose proof (lists3_tsym _ _ _ Q3) as S3. pose proof (lists4_tsym _ _ _ Q4) as S4.
    destruct (normal_modes_lemma N (l_axes l) fc2 mass eig S2 Hm (Sv fc2 Q2)) as (freq & lxm & Eh & Lf & M1 & M2 & M3 & M4).
    set (lx := make_lx (3 * N) (make_sqm mass) lxm) in *.
    set (w := fun i => nth i freq 0).
    assert (Wf : (fun i => nth i freq (nz 0)) = w) by (unfold w; rewrite nz_R; reflexivity).
    destruct (force3_lemma (3 * N) (rot3rd N (3 * N) (l_axes l) f3x) lx n w (proj1 Hn) (proj1 (proj2 (rot_sym_lemma N (l_axes l))) f3x S3))
      as (f3l & E3 & _ & G3).
    destruct (force4_lemma (3 * N) (rot4th N (3 * N) (l_axes l) f4x) lx n w (proj1 Hn) (proj2 (proj2 (rot_sym_lemma N (l_axes l))) f4x S4))
      as (f4l & E4 & _ & G4).
    set (F3 := cubic_spec (3 * N) (con3 (3 * N) (every_atom (l_axes l)) f3x) lx w).
    set (F4 := quartic_spec (3 * N) (con4 (3 * N) (every_atom (l_axes l)) f4x) lx w).
    assert (V3 : forall i j k, (i < n)%nat -> (j < n)%nat -> (k < n)%nat -> f3qcm_get f3l i j k = Some (F3 i j k)).
    { intros i j k Hi Hj Hk. unfold F3. rewrite G3 by assumption. f_equal. unfold cubic_spec. f_equal.
      apply con3_g. intros. now apply rot3rd_lemma. }
    assert (V4 : forall i j k p, (i < n)%nat -> (j < n)%nat -> (k < n)%nat -> (p < n)%nat -> f4qcm_get f4l i j k p = Some (F4 i j k p)).
    { intros i j k p Hi Hj Hk Hp. unfold F4. rewrite G4 by assumption. f_equal. unfold quartic_spec. f_equal.
      apply con4_g. intros. now apply rot4th_lemma. }
    assert (Ss : s_freq s = freq /\ s_f3qcm s = f3l /\ s_f4qcm s = f4l).
    { unfold run_saved in Es. cbv zeta in Es. rewrite Z1, R2, R3, R4 in Es. cbn [obind] in Es.
      assert (Mn : m_natom (molecule_of sy l) = N) by reflexivity.
      assert (Mv : m_nvib (molecule_of sy l) = n) by (unfold molecule_of, n; cbn [m_nvib]; lia).
      assert (Mw : m_w (molecule_of sy l) = mass) by (unfold molecule_of, mass; cbn [m_w]; rewrite nz_R; reflexivity).
      rewrite Mn, Mv, Mw, Eh in Es. cbn [obind] in Es.
      change (m_rotor (molecule_of sy l)) with (l_rotor l) in Es. rewrite Hr in Es. cbn [is_sym_top obind] in Es.
      match type of Es with obind ?a _ = _ => destruct a as [irreps|]; [|discriminate] end. cbn [obind] in Es.
      fold lx in Es. rewrite Wf, E3 in Es. cbn [obind] in Es. rewrite E4 in Es. cbn [obind] in Es.
      apply some_eq in Es. rewrite <- Es. auto. }
    destruct Ss as (Sf & Sc & Sq). rewrite Sf, Sc, Sq.
    set (s' := mk_saved (s_spectro s) (firstn n freq) f3l f4l (s_irreps s) (s_lxm s) (s_lx s)).
    assert (Lr : List.length (s_freq s') = n) by (unfold s'; cbn [s_freq]; rewrite firstn_length, Lf; lia).
    destruct (gauss_text_lemma sy eprint name Pr s' F3 F4) as (C & Q & T1 & T2).
    { rewrite Lr. intros. apply V3; lia. } { rewrite Lr. intros. apply V4; lia. }
    rewrite Lr in T2.
    exists fc2, f3x, f4x, lx, C, Q. split; [exact Q2|]. split; [exact Q3|]. split; [exact Q4|]. cbv zeta.
    split; [exact M1|]. split; [exact M2|]. split; [exact M3|]. split; [exact M4|]. split; [exact T1|]. exact T2.
  Qed.
End Cut.
