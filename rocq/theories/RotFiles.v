(** From the texts of the input files to the rotational and distortion constants in the report. *)
From Coq Require Import Reals Lra List ZArith NArith Arith Lia Bool Ascii String Permutation Sorted FunctionalExtensionality.
From Verif Require Import Num Loops ListFacts Index IndexFacts LoadFacts Text TextFacts SpacingFacts DummyFacts Modes ModesFacts ResFacts RangeFacts
  StatesFacts Anharm AnharmFacts VibRot VibRotFacts SymRotFacts Distort Transform TransformFacts RotFacts NormalFacts ModeFacts ZeroFacts InertiaFacts EckartFacts
  SymAnharm Polyads Report ReportFacts OutputFacts Geom GeomFacts IrrepFacts FermiFacts PerturbFacts PerturbSum PerturbLevels VanVleck VibPerturb SymE0 HarmFacts DistortFacts
  Finish FinishFacts RunFacts RunSecond RunFermi RunRot OutText OutFacts OutTables OutRun Program ProgramFacts BlankFacts ProgramRun FrameFacts.
Import ListNotations.
Import Text.
Open Scope list_scope.
Open Scope nat_scope.
Open Scope R_scope.

(** ** the specification side *)

(** a quarter of tau-prime, from the derivatives [a] of the inertia tensor along the modes; the
    factor is the code's *)
Definition centrifugal (n : nat) (w J : nat -> R) (a : nat -> nat -> nat -> R) (i j : nat) : R :=
  let tau i j k l := - / 2 * (3833384078 / 100000) *
    Sum n (fun v => a v i j * a v k l / (w v ^ 2 * J i * J j * J k * J l)) in
  (if (i =? j)%nat then tau i i i i else tau i i j j + 2 * tau i j i j) / 4.

Lemma slope_exists N n mw geom lx : exists a, inertia_slope N n mw geom lx a.
Proof.
  exists (fun k y z => Sum N (fun i => mw i * (kron y z * (2 * (comp (geom i) 0 * lx (3 * i)%nat k
      + comp (geom i) 1 * lx (3 * i + 1)%nat k + comp (geom i) 2 * lx (3 * i + 2)%nat k))
    - (comp (geom i) y * lx (3 * i + z)%nat k + lx (3 * i + y)%nat k * comp (geom i) z)))).
  intros k y z Hk Hy Hz.
  assert (Q : (fun t => inertia N mw (displaced geom lx k t) y z) = (fun t => inertia N mw geom y z
    + t * Sum N (fun i => mw i * (kron y z * (2 * (comp (geom i) 0 * lx (3 * i)%nat k
      + comp (geom i) 1 * lx (3 * i + 1)%nat k + comp (geom i) 2 * lx (3 * i + 2)%nat k))
    - (comp (geom i) y * lx (3 * i + z)%nat k + lx (3 * i + y)%nat k * comp (geom i) z)))
    + t ^ 2 * Sum N (fun i => mw i * (kron y z * (lx (3 * i)%nat k ^ 2 + lx (3 * i + 1)%nat k ^ 2 + lx (3 * i + 2)%nat k ^ 2)
    - lx (3 * i + y)%nat k * lx (3 * i + z)%nat k)))).
  { extensionality t. unfold inertia. rewrite <- !Rsum_scal, <- !Rsum_plus. apply Rsum_ext. intros i _. unfold displaced.
    destruct y as [|[|[|y]]]; [| | |lia]; (destruct z as [|[|[|z]]]; [| | |lia]); cbn [comp fst snd]; rewrite ?Nat.add_0_r; ring. }
  rewrite Q. apply parabola_slope.
Qed.

Lemma centrifugal_taup n w J wl a i j : (i < 3)%nat -> (j < 3)%nat ->
  (forall k y z, (k < n)%nat -> (y < 3)%nat -> (z < 3)%nat -> wl k (acol y z) = a k y z) ->
  taup_spec n w J wl i j / 4 = centrifugal n w J a i j.
Proof.
  intros Hi Hj E. unfold centrifugal, taup_spec, tau_spec.
  assert (S : forall i j k l, (i < 3)%nat -> (j < 3)%nat -> (k < 3)%nat -> (l < 3)%nat ->
    Rsum (seq 0 n) (fun v => wl v (acol i j) * wl v (acol k l) / (w v ^ 2 * J i * J j * J k * J l)) =
    Sum n (fun v => a v i j * a v k l / (w v ^ 2 * J i * J j * J k * J l))).
  { intros. apply sum_g. intros v Hv. now rewrite !E. }
  destruct (i =? j)%nat; rewrite !S by assumption; reflexivity.
Qed.

(** the reported quartic constants of both reductions; x, y, z are the axes 1, 2, 0 *)
Definition quartic_values (B : nat -> R) (T : nat -> nat -> R) : list (string * R) :=
  let s := (2 * B 0%nat - B 1%nat - B 2%nat) / (B 1%nat - B 2%nat) in
  let Txx := T 1%nat 1%nat in let Tyy := T 2%nat 2%nat in let Tzz := T 0%nat 0%nat in
  let Txy := T 1%nat 2%nat in let Txz := T 1%nat 0%nat in let Tyz := T 2%nat 0%nat in
  let DJ := - (Txx + Tyy) / 2 in
  let DJK := 3 * (Txx + Tyy) / 2 - (Txy + Txz + Tyz) in
  let DK := - Tzz - DJ - DJK in
  let dJ := (Tyy - Txx) / 4 in
  let dK := (Tyz - Txz) / 2 + (Txx - Tyy) / 4 - s * (Txx + Tyy - 2 * Txy) / 4 in
  let d2 := - dK / (4 * s) in
  [("Delta  J", DJ); ("Delta JK", DJK); ("Delta  K", DK); ("delta  J", dJ); ("delta  k", dK);
   ("D J ", DJ + 2 * d2); ("D JK", DJK - 12 * d2); ("D K ", DK + 10 * d2); ("d 1 ", - dJ); ("d 2 ", d2)]%string.
(** the equilibrium constants of the A reduction *)
Definition reduced_B (B : nat -> R) (T : nat -> nat -> R) (x : nat) : R :=
  let s := (2 * B 0%nat - B 1%nat - B 2%nat) / (B 1%nat - B 2%nat) in
  let D := T 1%nat 1%nat + T 2%nat 2%nat - 2 * T 1%nat 2%nat in
  match x with 0%nat => B 0%nat + D | 1%nat => B 1%nat - (s + 1) * D / 2 | _ => B 2%nat + (s - 1) * D / 2 end.

Lemma quartic_a n B J w wl a q : B 1%nat <> B 2%nat -> 2 * B 0%nat <> B 1%nat + B 2%nat ->
  quartic_new AsymmTop n B J w wl = Some q ->
  (forall k y z, (k < n)%nat -> (y < 3)%nat -> (z < 3)%nat -> wl k (acol y z) = a k y z) ->
  let T := centrifugal n w J a in
  [("Delta  J", delj q); ("Delta JK", deljk q); ("Delta  K", delk q); ("delta  J", sdelj q); ("delta  k", sdelk q);
   ("D J ", dj q); ("D JK", djk q); ("D K ", dk q); ("d 1 ", sd1 q); ("d 2 ", sd2 q)]%string = quartic_values B T /\
  forall x, (x < 3)%nat -> nth x [bza q; bxa q; bya q] 0 = reduced_B B T x.
Proof.
  intros N1 N2 Eq Ha T. destruct (watson_lemma n B J w wl N1 N2) as (q' & Eq' & W).
  assert (q' = q) as -> by congruence. clear Eq'. rewrite !(centrifugal_taup n w J wl a) in W by (lia || exact Ha).
  fold T in W. assert (Sy : forall i j, (i < 3)%nat -> (j < 3)%nat -> T i j = T j i).
  { intros i j Hi Hj. unfold T. rewrite <- !(centrifugal_taup n w J wl a) by (lia || exact Ha). f_equal.
    rewrite <- !taup_R by assumption. now apply taup_sym_lemma. }
  rewrite ?(Sy 0%nat 1%nat), ?(Sy 0%nat 2%nat) in W by lia.
  set (s := (2 * B 0%nat - B 1%nat - B 2%nat) / (B 1%nat - B 2%nat)) in *.
  assert (Hs : s <> 0).
  { unfold s. intros E. apply Rmult_integral in E as [E|E]; [lra|]. revert E. apply Rinv_neq_0_compat. lra. }
  destruct W as (W1 & W2 & W3 & W4 & W5 & W6 & W7 & W8 & W9 & W10 & W11 & W12 & W13 & W14 & W15 & W16 & _).
  assert (D2 : sd2 q = - sdelk q / (4 * s)) by (rewrite W5; field; exact Hs).
  split.
  - unfold quartic_values. fold s. rewrite <- W13, <- D2.
    assert (A1 : delj q = - (T 1%nat 1%nat + T 2%nat 2%nat) / 2) by lra.
    assert (A2 : deljk q = 3 * (T 1%nat 1%nat + T 2%nat 2%nat) / 2 - (T 1%nat 2%nat + T 1%nat 0%nat + T 2%nat 0%nat)) by lra.
    assert (A3 : sdelj q = (T 2%nat 2%nat - T 1%nat 1%nat) / 4) by lra.
    rewrite <- A1, <- A2, <- A3.
    assert (A4 : delk q = - T 0%nat 0%nat - delj q - deljk q) by lra. rewrite <- A4.
    assert (A5 : dj q = delj q + 2 * sd2 q) by lra. assert (A6 : djk q = deljk q - 12 * sd2 q) by lra.
    assert (A7 : dk q = delk q + 10 * sd2 q) by lra. assert (A8 : sd1 q = - sdelj q) by lra.
    now rewrite <- A5, <- A6, <- A7, <- A8.
  - intros x Hx. unfold reduced_B. fold s. destruct x as [|[|[|x]]]; [| | |lia]; cbn [nth]; assumption.
Qed.

Lemma input_of_frame axes (geom : nat -> R * R * R) u q m : orth 3 axes -> (m < 3)%nat -> geom q = in_frame axes u ->
  input_position axes geom q m = comp u m.
Proof.
  intros [O _] Hm E. unfold input_position. rewrite E. rewrite sum3. destruct u as [[a b] c]. cbn [in_frame comp fst snd].
  pose proof (O m 0%nat Hm ltac:(lia)) as O0. pose proof (O m 1%nat Hm ltac:(lia)) as O1. pose proof (O m 2%nat Hm ltac:(lia)) as O2.
  rewrite sum3 in O0, O1, O2.
  transitivity (a * (axes m 0%nat * axes 0%nat 0%nat + axes m 1%nat * axes 0%nat 1%nat + axes m 2%nat * axes 0%nat 2%nat)
    + b * (axes m 0%nat * axes 1%nat 0%nat + axes m 1%nat * axes 1%nat 1%nat + axes m 2%nat * axes 1%nat 2%nat)
    + c * (axes m 0%nat * axes 2%nat 0%nat + axes m 1%nat * axes 2%nat 1%nat + axes m 2%nat * axes 2%nat 2%nat)); [ring|].
  rewrite O0, O1, O2. unfold delta. destruct m as [|[|[|m]]]; [| | |lia]; cbn [Nat.eqb comp fst snd]; ring.
Qed.

Lemma rotation_free_shift N f (p p' : nat -> nat -> R) s (c : nat -> R) :
  translation_free N f -> rotation_free N f p ->
  (forall q m, (q < N)%nat -> (m < 3)%nat -> p' q m = s * p q m - c m) -> rotation_free N f p'.
Proof.
  intros Ht Hf E W HW a Ha.
  assert (S : Sum (3 * N) (fun b => f a b * Sum 3 (fun k => W (b mod 3)%nat k * c k)) = 0).
  { exact (translation_null N f (fun _ => 1) (fun _ _ => Rlt_0_1) (fun m => Sum 3 (fun k => W m k * c k)) Ht a Ha). }
  transitivity (s * Sum (3 * N) (fun b => f a b * Sum 3 (fun k => W (b mod 3)%nat k * p (b / 3)%nat k))
    - Sum (3 * N) (fun b => f a b * Sum 3 (fun k => W (b mod 3)%nat k * c k))).
  - rewrite <- Rsum_scal, <- Rsum_minus. apply sum_g. intros b Hb.
    assert (Hq : (b / 3 < N)%nat) by (apply Nat.div_lt_upper_bound; lia).
    rewrite !sum3, !E by (assumption || lia). ring.
  - rewrite S, (Hf W HW a Ha). ring.
Qed.

Section RotFiles.
  Context {I : Type}.
  Variables (sy : symm R I) (s : R) (mu : N -> option R -> R)
    (eig2 : R -> R -> R -> R * R * (R * R)) (eig : (nat -> nat -> R) -> list R * (nat -> nat -> R))
    (eprint : nat -> R -> text) (name : I -> text).
  Context `{G0 : Trig R} `{T0 : FText R}.
  Hypothesis Pr : prints eprint (irrep_text sy) name.

  Lemma rotation_files_full infile t15 t30 t40 (s0 : spectro R) (l : loaded R) (d2 d3 d4 : list R) lam :
    read infile = Some s0 -> load_input sy infile = Some l ->
    numbers t15 = Some d2 -> load_vec t30 = Some d3 -> load_vec t40 = Some d4 ->
    symm_ok sy s mu (atoms s0) ->
    let N := List.length (atoms s0) in
    let mass q := nth q (masses sy (atoms s0)) 0 in
    let n := (3 * N - 6)%nat in
    let geom := place_of (atoms (l_input l)) in
    let J x := inertia N mass geom x x in
    let B x := ROTCONST / J x in
    (2 < N)%nat -> l_rotor l = AsymmTop -> (2 < nth 7 (header s0) 4)%Z ->
    (forall q, (q < N)%nat -> 0 < mass q) ->
    Forall plain (molecule_lines sy (atoms (l_input l))) ->
    List.length d2 = (3 * N * (3 * N))%nat -> symmetric_list (3 * N) d2 ->
    List.length d3 = (3 * N * (3 * N + 1) * (3 * N + 2) / 6)%nat ->
    List.length d4 = (3 * N * (3 * N + 1) * (3 * N + 2) * (3 * N + 3) / 24)%nat ->
    (forall fc2, lists2 (3 * N) d2 fc2 -> solves (3 * N) eig (secular N (l_axes l) fc2 mass)) ->
    (forall fc2, lists2 (3 * N) d2 fc2 ->
       translation_free N fc2 /\ rotation_free N fc2 (fun q x => comp (place_of (atoms s0) q) x)) ->
    (forall x, (x < 3)%nat -> 1 / 100 < J x) -> B 1%nat <> B 2%nat -> 2 * B 0%nat <> B 1%nat + B 2%nat ->
    2 * ROTCONST * lam ^ 2 = 1 ->
    exists fc2 f3x f4x fuel0 freq lx a,
      lists2 (3 * N) d2 fc2 /\ lists3 (3 * N) d3 f3x /\ lists4 (3 * N) d4 f4x /\
      let w := fun i => nth i freq 0 in
      let hess := fun a b => FACT2 * con2 (3 * N) (every_atom (l_axes l)) fc2 a b in
      let F3 := cubic_spec (3 * N) (con3 (3 * N) (every_atom (l_axes l)) f3x) lx w in
      let zeta := zeta_of N (fun a i => sqrt (mass (a / 3)%nat) * lx a i) in
      (forall i j, (i < 3 * N)%nat -> (j < 3 * N)%nat ->
         Sum (3 * N) (fun a => mass (a / 3)%nat * lx a i * lx a j) = (if Nat.eqb i j then 1 else 0)) /\
      (forall i j, (i < 3 * N)%nat -> (j < 3 * N)%nat -> i <> j -> con2 (3 * N) lx hess i j = 0) /\
      (forall i, (i < 3 * N)%nat -> nth_error freq i = Some (to_wavenumber (con2 (3 * N) lx hess i i))) /\
      StronglySorted Rge freq /\
      inertia_slope N n mass geom lx a /\
      ((forall i, (i < n)%nat -> 0 < w i) ->
       forall fuel, (fuel0 <= fuel)%nat ->
       exists t cor head rows after,
       program sy eig2 eig fuel eprint false infile t15 t30 t40 = Some t /\
       ((N.of_nat (3 * N) <= 9999)%N -> exists cs after,
          block (lines t) (lit "Coriolis Resonances:") cs after /\
          map words cs = map (fun '(i, j, x) => [show i; show j; nth x (map lit ["A"; "B"; "C"]%string) []]) cor) /\
       (forall c v, In (c, v) (quartic_values B (centrifugal n w J a)) ->
          exists line, filter (starts (lit c ++ [colon])) (lines t) = [line] /\
            words (skipn (List.length (lit c) + 1) line) = [fprint 12 v]) /\
       (exists q sx, (forall c v, In (c, v) (labelled eprint q sx) ->
            exists line, filter (starts (c ++ [colon])) (lines t) = [line] /\
              words (skipn (List.length c + 1) line) = [v]) /\
          exists wl zm f3, quartic_new AsymmTop n B J w wl = Some q /\ sextic_new AsymmTop n (3 * N) B J w wl zm f3 = Some sx /\
            (forall k y z, (k < n)%nat -> (y < 3)%nat -> (z < 3)%nat -> wl k (acol y z) = a k y z) /\
            (forall i j b, (i < n)%nat -> (j < n)%nat -> zm i j b = zeta i j b) /\
            (forall u v k, f3 u v k = f3 v u k /\ f3 u v k = f3 u k v) /\
            forall u v k, (u < n)%nat -> (v < n)%nat -> (k < n)%nat -> f3 u v k = F3 u v k) /\
       block (lines t) (lit "Rotational Constants (cm-1):") (head :: rows) after /\
       words head = map lit ["State"; "A"; "B"; "C"]%string /\
       List.length rows = (n + 1)%nat /\
       forall rep, (forall i j, (i < n)%nat -> (j < n)%nat -> one_axis cor i j) ->
         (forall x i j, rep x i j = true <-> VibRotFacts.listed cor i j x) ->
         (forall x i j, (x < 3)%nat -> (i < n)%nat -> (j < n)%nat -> i <> j -> rep x i j = false -> w i <> w j) ->
         let const k x := reduced_B B (centrifugal n w J a) x
           + (VibPerturb.rot_const n w F3 zeta a J ROTCONST lam (rep x) x (reported_state k) - B x)
           + rounding_term n B w a F3 lam x (reported_state k) in
         forall k line, nth_error rows k = Some line ->
         Forall (narrow 7 12) [const k 0%nat; const k 1%nat; const k 2%nat] ->
         words line = map (fun i => show (reported_state k i)) (seq 0 n)
           ++ map (fprint 7) [const k 0%nat; const k 1%nat; const k 2%nat]).
  Proof.
    intros Ei El E15 E30 E40 Ok N mass n geom J B HN Hr Hd Hm Hg L2 Hs L3 L4 Sv Fr PJ B1 B2 HK.
    assert (Tm : total sy (atoms s0) <> 0).
    { rewrite (total_sum sy s mu (atoms s0) Ok). fold N mass.
      apply Rgt_not_eq. apply (sum_pos N mass); [lia|exact Hm]. }
    destruct (load_frame_lemma sy s mu infile l El) as (s1 & Ei' & Hh & Fl).
    assert (s1 = s0) as -> by congruence. clear Ei'. destruct (Fl Ok Tm) as (Ho & Em & Ex & _ & In_).
    destruct (Ex ltac:(intros Dia; rewrite Hr in Dia; discriminate)) as (c & Ec). clear Ex.
    assert (Ln : List.length (atoms (l_input l)) = N) by (rewrite Ec, map_length; reflexivity).
    rewrite Ln, Em in In_. fold mass geom in In_. specialize (In_ ltac:(right; left; rewrite Hr; reflexivity)).
    assert (Jl : forall x, (x < 3)%nat -> J x = comp (l_primat l) x).
    { intros x Hx. unfold J. rewrite In_ by assumption. unfold kron. rewrite Nat.eqb_refl. ring. }
    destruct (read_fc2_listed (3 * N) t15 d2 E15 L2 Hs) as (fc2 & R2 & Q2).
    destruct (read_fc3_listed (3 * N) t30 d3 E30 L3) as (f3x & R3 & Q3).
    destruct (read_fc4_listed (3 * N) t40 d4 E40 L4) as (f4x & R4 & Q4).
    destruct (load_sizes sy infile l El) as (Z1 & Z2 & Z3). rewrite Ln in Z1, Z2, Z3. rewrite Hr in Z3. cbn [is_linear] in Z3.
    destruct (Fr fc2 Q2) as [Ft Fo].
    assert (Fi : rotation_free N fc2 (input_position (l_axes l) geom)).
    { apply (rotation_free_shift N fc2 (fun q x => comp (place_of (atoms s0) q) x) _ s (comp c) Ft Fo).
      intros q x Hq Hx.
      assert (G : geom q = in_frame (l_axes l) (vsub (vscale s (place_of (atoms s0) q)) c)).
      { unfold geom. rewrite Ec. apply (place_moved (fun a => in_frame (l_axes l) (vsub (vscale s (where_ a)) c))
          (fun v => in_frame (l_axes l) (vsub (vscale s v) c))); [exact Hq|reflexivity]. }
      rewrite (input_of_frame _ _ _ q x Ho Hx G). rewrite vsub_comp.
      destruct (place_of (atoms s0) q) as [[u v] z]. destruct x as [|[|[|x]]]; [| | |lia]; reflexivity. }
    set (m := molecule_of sy l).
    assert (Mn : m_natom m = N) by exact Ln.
    assert (Mv : m_nvib m = n) by (unfold m, molecule_of, n; cbn [m_nvib]; lia).
    assert (Mw : m_w m = mass) by (unfold m, molecule_of, mass; cbn [m_w]; rewrite nz_R, Em; reflexivity).
    assert (Mg : m_geom m = geom) by (unfold m, molecule_of, geom, place_of; cbn [m_geom]; rewrite nz_R; reflexivity).
    assert (At : forall k, at3 (l_primat l) k = J k).
    { intros k. assert (E : J k = J (Nat.min k 2)).
      { unfold J, inertia. apply Rsum_ext. intros q _. unfold kron. rewrite !Nat.eqb_refl. destruct k as [|[|[|k]]]; reflexivity. }
      rewrite E, Jl by lia. destruct (l_primat l) as [[? ?] ?]. destruct k as [|[|[|k]]]; reflexivity. }
    assert (PJ' : forall k, 1 / 100 < J k).
    { intros k. rewrite <- At. specialize (PJ (Nat.min k 2) ltac:(lia)). rewrite <- At in PJ.
      destruct (l_primat l) as [[? ?] ?]. destruct k as [|[|[|k]]]; exact PJ. }
    assert (Mj : m_primat m = J) by (extensionality y; apply At).
    assert (Mb : m_rotcon m = B).
    { extensionality y. unfold m, molecule_of, l_rotcon, Geom.rot_const, B, ngtb. cbn [m_rotcon nltb ndiv nlit Rnum].
      rewrite At. unfold Rltb. destruct (Rlt_dec _ _) as [|Q]; [reflexivity|]. elim Q. apply PJ'. }
    destruct (run_rot_full eig2 eig (fun _ => irrep_of sy (atoms (l_input l))) (irrep_A sy)
      (find_buddy sy (atoms (l_input l)) (l_axis l) (l_order l) (l_iatom l)) m (l_axes l) (l_iatom l) (l_order l) fc2 f3x f4x
      ROTCONST lam)
      as (fuel0 & freq & lx & M1 & M2 & M3 & M4 & M5).
    { exact Hr. } { unfold m, molecule_of. cbn [m_header]. rewrite Hh. exact Hd. } { rewrite Mn; lia. } { rewrite Mn, Mv; unfold n; lia. }
    { rewrite Mn, Mw. exact Hm. }
    { rewrite Mn. intros i j Hi Hj. apply some_eq. rewrite <- (Q2 i j), <- (Q2 j i) by assumption. now apply Hs. }
    { rewrite Mn. exact (lists3_tsym _ _ _ Q3). } { rewrite Mn. exact (lists4_tsym _ _ _ Q4). }
    { exact Ho. } { rewrite Mn, Mg. exact Fi. }
    { rewrite Mn, Mw. now apply Sv. }
    { intros y Hy. rewrite Mj. pose proof (PJ y Hy). lra. }
    { intros y Hy. rewrite Mj, Mb. reflexivity. } { exact HK. }
    destruct labels_end_R as (f0 & Hf0).
    destruct (slope_exists N n mass geom lx) as (a & Ha).
    exists fc2, f3x, f4x, (Nat.max fuel0 f0), freq, lx, a.
    split; [exact Q2|]. split; [exact Q3|]. split; [exact Q4|]. cbv zeta.
    rewrite Mn, Mv, Mw, Mg, Mj, Mb in *.
    split; [exact M1|]. split; [exact M2|]. split; [exact M3|]. split; [exact M4|]. split; [exact Ha|].
    intros Pw fuel Hfu. destruct (M5 Pw fuel) as (o & Eo & Lo & (wl & zm & f3 & Eq & Es & Hwl & Hzm & Hsy & Hf3) & Q); [lia|].
    destruct (run_prints sy eig2 eig eprint (fun _ => irrep_of sy (atoms (l_input l))) (irrep_A sy) fuel
      (find_buddy sy (atoms (l_input l)) (l_axis l) (l_order l) (l_iatom l)) m (l_axes l) (l_iatom l) (l_order l) fc2 f3x f4x o)
      as (Rs & Rl & Rn & Rt & Rw).
    { exact Hr. } { unfold m, molecule_of. cbn [m_header]. rewrite Hh. exact Hd. }
    { rewrite Mn; lia. } { rewrite Mn, Mv; unfold n; lia. } { apply Hf0; lia. }
    { rewrite Mn, Mw. now apply Sv. } { exact Eo. }
    set (geo := molecule_lines sy (atoms (l_input l))) in *.
    destruct (write_output eprint (irrep_text sy) geo (m_rotcon m) geo o) as [t|] eqn:Et; [|now elim (Rw geo (m_rotcon m) geo)].
    destruct (rots_block_lemma _ _ _ Pr _ _ _ _ _ Hg Hg Et (m_nvib m) Rn Rt) as (head & rows & after & T1 & T2 & T3 & T4).
    exists t, (rs_coriolis (out_resonances o)), head, rows, after.
    destruct (quartic_a n B J _ wl a (out_quartic o) B1 B2 Eq (Hwl a Ha)) as (V1 & V2).
    split; [|split; [|split; [|split; [|split; [exact T1|split; [|split]]]]]].
    - unfold program. rewrite El. cbn [obind]. unfold run_files. rewrite Z1, R2, R3, R4. cbn [obind].
      fold m. rewrite Eo. cbn [obind]. exact Et.
    - intros Hs3. destruct (resonance_blocks_lemma _ _ _ Pr _ _ _ _ _ Hg Hg Et) as (cs & f1 & f2 & a1 & a2 & a3 & C1 & C2 & _).
      { apply Rs. rewrite Mv. unfold n. lia. }
      exists cs, a1. auto.
    - intros c0 v Hv. apply (labelled_lemma _ _ _ Pr _ _ _ _ _ Hg Hg Et). unfold labelled. apply in_app_iff. left.
      rewrite <- V1 in Hv. apply in_map_iff. exists (c0, v). split; [reflexivity|].
      cbn [In] in Hv |- *. tauto.
    - exists (out_quartic o), (out_sextic o). split; [exact (labelled_lemma _ _ _ Pr _ _ _ _ _ Hg Hg Et)|].
      exists wl, zm, f3. specialize (Hwl a Ha). auto 10.
    - rewrite T3. unfold constant_names. rewrite Rl. reflexivity.
    - rewrite T2. exact Lo.
    - intros rep O1 O2 O3 k line Hk Nk.
      set (const := fun x => reduced_B B (centrifugal n (fun i => nth i freq 0) J a) x
        + (VibPerturb.rot_const n (fun i => nth i freq 0)
             (cubic_spec (3 * N) (con3 (3 * N) (every_atom (l_axes l)) f3x) lx (fun i => nth i freq 0))
             (zeta_of N (fun a i => sqrt (mass (a / 3)%nat) * lx a i)) a J ROTCONST lam (rep x) x (reported_state k) - B x)
        + rounding_term n B (fun i => nth i freq 0) a
             (cubic_spec (3 * N) (con3 (3 * N) (every_atom (l_axes l)) f3x) lx (fun i => nth i freq 0)) lam x (reported_state k)).
      change (Forall (narrow 7 12) [const 0%nat; const 1%nat; const 2%nat]) in Nk.
      change (words line = map (fun i => show (reported_state k i)) (seq 0 n) ++ map (fprint 7) [const 0%nat; const 1%nat; const 2%nat]).
      destruct (nth_error (out_rots o) k) as [r|] eqn:Er.
      2: { apply nth_error_None in Er. assert (nth_error rows k <> None) as Z by congruence. apply nth_error_Some in Z. lia. }
      assert (Cr : forall x, (x < 3)%nat -> nth x [rot_a r; rot_b r; rot_c r] 0 = const x).
      { intros x Hx. destruct (Q a Ha x (rep x) Hx O1 (O2 x) (fun i j => O3 x i j Hx) k r Er) as [_ Qx].
        rewrite Qx. unfold const. rewrite V2 by exact Hx. reflexivity. }
      destruct (Q a Ha 0%nat (rep 0%nat) ltac:(lia) O1 (O2 0%nat) (fun i j => O3 0%nat i j ltac:(lia)) k r Er) as [(v & Sv1 & Sv2 & Sv3) _].
      destruct (T4 k line r Hk Er) as [T5 _]. unfold printed_constants in T5. rewrite Rl in T5.
      pose proof (Cr 0%nat ltac:(lia)) as Ca. pose proof (Cr 1%nat ltac:(lia)) as Cb. pose proof (Cr 2%nat ltac:(lia)) as Cc.
      cbn [nth] in Ca, Cb, Cc. rewrite Ca, Cb, Cc in T5. rewrite (T5 Nk), Sv1. cbn [state_words]. f_equal.
      rewrite <- Sv3. rewrite <- Sv2. clear. induction v as [|x v IH]; [reflexivity|]. cbn [List.length seq map nth]. f_equal.
      rewrite <- seq_shift, map_map. exact IH.
  Qed.

  Lemma rotation_from_files_lemma infile t15 t30 t40 (s0 : spectro R) (l : loaded R) (d2 d3 d4 : list R) lam :
    read infile = Some s0 -> load_input sy infile = Some l ->
    numbers t15 = Some d2 -> load_vec t30 = Some d3 -> load_vec t40 = Some d4 ->
    symm_ok sy s mu (atoms s0) ->
    let N := List.length (atoms s0) in
    let mass q := nth q (masses sy (atoms s0)) 0 in
    let n := (3 * N - 6)%nat in
    let geom := place_of (atoms (l_input l)) in
    let J x := inertia N mass geom x x in
    let B x := ROTCONST / J x in
    (2 < N)%nat -> l_rotor l = AsymmTop -> (2 < nth 7 (header s0) 4)%Z ->
    (forall q, (q < N)%nat -> 0 < mass q) ->
    Forall plain (molecule_lines sy (atoms (l_input l))) ->
    List.length d2 = (3 * N * (3 * N))%nat -> symmetric_list (3 * N) d2 ->
    List.length d3 = (3 * N * (3 * N + 1) * (3 * N + 2) / 6)%nat ->
    List.length d4 = (3 * N * (3 * N + 1) * (3 * N + 2) * (3 * N + 3) / 24)%nat ->
    (forall fc2, lists2 (3 * N) d2 fc2 -> solves (3 * N) eig (secular N (l_axes l) fc2 mass)) ->
    (forall fc2, lists2 (3 * N) d2 fc2 ->
       translation_free N fc2 /\ rotation_free N fc2 (fun q x => comp (place_of (atoms s0) q) x)) ->
    (forall x, (x < 3)%nat -> 1 / 100 < J x) -> B 1%nat <> B 2%nat -> 2 * B 0%nat <> B 1%nat + B 2%nat ->
    2 * ROTCONST * lam ^ 2 = 1 ->
    exists fc2 f3x f4x fuel0 freq lx a,
      lists2 (3 * N) d2 fc2 /\ lists3 (3 * N) d3 f3x /\ lists4 (3 * N) d4 f4x /\
      let w := fun i => nth i freq 0 in
      let hess := fun a b => FACT2 * con2 (3 * N) (every_atom (l_axes l)) fc2 a b in
      let F3 := cubic_spec (3 * N) (con3 (3 * N) (every_atom (l_axes l)) f3x) lx w in
      let zeta := zeta_of N (fun a i => sqrt (mass (a / 3)%nat) * lx a i) in
      (forall i j, (i < 3 * N)%nat -> (j < 3 * N)%nat ->
         Sum (3 * N) (fun a => mass (a / 3)%nat * lx a i * lx a j) = (if Nat.eqb i j then 1 else 0)) /\
      (forall i j, (i < 3 * N)%nat -> (j < 3 * N)%nat -> i <> j -> con2 (3 * N) lx hess i j = 0) /\
      (forall i, (i < 3 * N)%nat -> nth_error freq i = Some (to_wavenumber (con2 (3 * N) lx hess i i))) /\
      StronglySorted Rge freq /\
      inertia_slope N n mass geom lx a /\
      ((forall i, (i < n)%nat -> 0 < w i) ->
       forall fuel, (fuel0 <= fuel)%nat ->
       exists t cor head rows after,
       program sy eig2 eig fuel eprint false infile t15 t30 t40 = Some t /\
       ((N.of_nat (3 * N) <= 9999)%N -> exists cs after,
          block (lines t) (lit "Coriolis Resonances:") cs after /\
          map words cs = map (fun '(i, j, x) => [show i; show j; nth x (map lit ["A"; "B"; "C"]%string) []]) cor) /\
       (forall c v, In (c, v) (quartic_values B (centrifugal n w J a)) ->
          exists line, filter (starts (lit c ++ [colon])) (lines t) = [line] /\
            words (skipn (List.length (lit c) + 1) line) = [fprint 12 v]) /\
       block (lines t) (lit "Rotational Constants (cm-1):") (head :: rows) after /\
       words head = map lit ["State"; "A"; "B"; "C"]%string /\
       List.length rows = (n + 1)%nat /\
       forall rep, (forall i j, (i < n)%nat -> (j < n)%nat -> one_axis cor i j) ->
         (forall x i j, rep x i j = true <-> VibRotFacts.listed cor i j x) ->
         (forall x i j, (x < 3)%nat -> (i < n)%nat -> (j < n)%nat -> i <> j -> rep x i j = false -> w i <> w j) ->
         let const k x := reduced_B B (centrifugal n w J a) x
           + (VibPerturb.rot_const n w F3 zeta a J ROTCONST lam (rep x) x (reported_state k) - B x)
           + rounding_term n B w a F3 lam x (reported_state k) in
         forall k line, nth_error rows k = Some line ->
         Forall (narrow 7 12) [const k 0%nat; const k 1%nat; const k 2%nat] ->
         words line = map (fun i => show (reported_state k i)) (seq 0 n)
           ++ map (fprint 7) [const k 0%nat; const k 1%nat; const k 2%nat]).
  Proof.
    intros Ei El E15 E30 E40 Ok N mass n geom J B HN Hr Hd Hm Hg L2 Hs L3 L4 Sv Fr PJ B1 B2 HK.
    destruct (rotation_files_full infile t15 t30 t40 s0 l d2 d3 d4 lam Ei El E15 E30 E40 Ok HN Hr Hd Hm Hg L2 Hs L3 L4 Sv Fr PJ B1 B2 HK)
      as (fc2 & f3x & f4x & fuel0 & freq & lx & a & Q2 & Q3 & Q4 & M1 & M2 & M3 & M4 & Ha & M5).
    exists fc2, f3x, f4x, fuel0, freq, lx, a. split; [exact Q2|]. split; [exact Q3|]. split; [exact Q4|]. cbv zeta.
    split; [exact M1|]. split; [exact M2|]. split; [exact M3|]. split; [exact M4|]. split; [exact Ha|].
    intros Pw fuel Hfu. destruct (M5 Pw fuel Hfu) as (t & cor & head & rows & after & P1 & P2 & P3 & _ & P4).
    exists t, cor, head, rows, after. split; [exact P1|]. split; [exact P2|]. split; [exact P3|exact P4].
  Qed.
End RotFiles.
