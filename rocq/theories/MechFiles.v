(** From the texts of the input files to the energy of the rotating atoms and the constants in the report. *)
From Coq Require Import Reals Lra List ZArith NArith Arith Lia Bool Ascii String Permutation Sorted FunctionalExtensionality.
From Verif Require Import Num Loops ListFacts Index IndexFacts LoadFacts Text TextFacts SpacingFacts DummyFacts Modes ModesFacts ResFacts RangeFacts
  StatesFacts Anharm AnharmFacts VibRot VibRotFacts SymRotFacts Distort Transform TransformFacts RotFacts NormalFacts ModeFacts ZeroFacts InertiaFacts EckartFacts
  SymAnharm Polyads Report ReportFacts OutputFacts Geom GeomFacts IrrepFacts FermiFacts PerturbFacts PerturbSum PerturbLevels VanVleck VibPerturb SymE0 HarmFacts DistortFacts
  SexticFacts FormFacts TensorFacts ReductionFacts
  Finish FinishFacts RunFacts RunSecond RunFermi RunRot OutText OutFacts OutTables OutRun Program ProgramFacts BlankFacts ProgramRun FrameFacts RotFiles TriangleWitness SumRule RotorMech SexticFiles DunhamFacts.
Import ListNotations.
Import Text.
Open Scope list_scope.
Open Scope nat_scope.
Open Scope R_scope.


(** a motion that costs no energy has no overlap with a mode that does *)
Lemma mode_overlap N (m : nat -> R) lx (H : nat -> nat -> R) (t : nat -> R) i :
  (forall q, (q < N)%nat -> 0 < m q) ->
  (forall i j, (i < 3 * N)%nat -> (j < 3 * N)%nat ->
     Sum (3 * N) (fun a => m (a / 3)%nat * lx a i * lx a j) = (if Nat.eqb i j then 1 else 0)) ->
  (forall i j, (i < 3 * N)%nat -> (j < 3 * N)%nat -> i <> j -> con2 (3 * N) lx H i j = 0) ->
  con2 (3 * N) lx H i i <> 0 -> null (3 * N) H t -> (i < 3 * N)%nat ->
  Sum (3 * N) (fun a => m (a / 3)%nat * t a * lx a i) = 0.
Proof.
  intros Hm M1 M2 Ni Ht Hi.
  set (s := fun a : nat => sqrt (m (a / 3)%nat)).
  assert (Sp : forall a, (a < 3 * N)%nat -> 0 < s a /\ s a * s a = m (a / 3)%nat).
  { intros a Ha. assert (a / 3 < N)%nat by (apply Nat.div_lt_upper_bound; lia).
    split; [apply sqrt_lt_R0; auto|apply sqrt_sqrt, Rlt_le; auto]. }
  destruct (square_orth (3 * N) (fun a k => s a * lx a k)) as [O _].
  { intros j k Hj Hk. unfold delta. rewrite <- (M1 j k Hj Hk). apply sum_g. intros a Ha. rewrite <- (proj2 (Sp a Ha)). ring. }
  set (tk := fun k => Sum (3 * N) (fun a => m (a / 3)%nat * t a * lx a k)).
  assert (E : forall b, (b < 3 * N)%nat -> t b = Sum (3 * N) (fun k => lx b k * tk k)).
  { intros b Hb. symmetry. unfold tk.
    rewrite (sum_g (3 * N) _ (fun k => Sum (3 * N) (fun a => lx b k * (m (a / 3)%nat * t a * lx a k)))) by (intros; now rewrite Rsum_scal).
    rewrite Rsum_swap. destruct (Sp b Hb) as [Pb Qb].
    rewrite (sum_g (3 * N) _ (fun a => delta b a * (s a * t a / s b))).
    - rewrite sum_delta by exact Hb. field. lra.
    - intros a Ha. destruct (Sp a Ha) as [Pa Qa]. rewrite <- (O b a Hb Ha). rewrite <- Rsum_scal_r. apply sum_g. intros k _.
      rewrite <- Qa. field. lra. }
  apply (Rmult_eq_reg_l (con2 (3 * N) lx H i i)); [|exact Ni]. rewrite Rmult_0_r. fold (tk i).
  transitivity (Sum (3 * N) (fun k => delta i k * (con2 (3 * N) lx H i k * tk k))); [now rewrite sum_delta|].
  transitivity (Sum (3 * N) (fun k => con2 (3 * N) lx H i k * tk k)).
  { apply sum_g. intros k Hk. unfold delta. destruct (Nat.eqb_spec i k) as [|Ne]; [ring|]. rewrite (M2 i k Hi Hk Ne). ring. }
  unfold con2, con1.
  rewrite (sum_g (3 * N) _ (fun k => Sum (3 * N) (fun r => lx r i * Sum (3 * N) (fun s => H r s * (lx s k * tk k))))).
  - rewrite Rsum_swap. apply Rsum_0. intros r Hr%in_seq. rewrite Rsum_scal, Rsum_swap.
    rewrite (sum_g (3 * N) _ (fun b => H r b * t b)).
    + rewrite Ht by lia. ring.
    + intros b Hb. rewrite (E b Hb), Rsum_scal. reflexivity.
  - intros k _. rewrite <- Rsum_scal_r. apply sum_g. intros r _. rewrite Rmult_assoc, <- Rsum_scal_r. f_equal. apply sum_g. intros; ring.
Qed.

(** the force constants in the rotated frame *)
Lemma null_frame N axes f k (e : nat -> nat -> R) : null (3 * N) f (EckartFacts.moved axes e) ->
  null (3 * N) (fun a b => k * con2 (3 * N) (every_atom axes) f a b) (fun b => e (b / 3)%nat (b mod 3)%nat).
Proof.
  intros H a Ha.
  transitivity (k * con1 (3 * N) (every_atom axes) (fun r => Sum (3 * N) (fun s => f r s * EckartFacts.moved axes e s)) a).
  - unfold con2, con1. rewrite <- Rsum_scal.
    transitivity (Sum (3 * N) (fun b => Sum (3 * N) (fun r => k * (every_atom axes r a * (Sum (3 * N) (fun s => every_atom axes s b * f r s) * e (b / 3)%nat (b mod 3)%nat))))).
    { apply sum_g. intros b _. rewrite Rmult_comm, Rmult_comm, Rmult_assoc, <- Rsum_scal_r, <- Rsum_scal. apply sum_g. intros; ring. }
    rewrite Rsum_swap. apply sum_g. intros r _. rewrite Rsum_scal, Rsum_scal. f_equal. f_equal.
    rewrite (sum_g (3 * N) _ (fun b => Sum (3 * N) (fun s => f r s * (every_atom axes s b * e (b / 3)%nat (b mod 3)%nat))))
      by (intros; rewrite <- Rsum_scal_r; apply sum_g; intros; ring).
    rewrite Rsum_swap. apply sum_g. intros s Hs. rewrite Rsum_scal. f_equal.
    assert (Q : (s / 3 < N)%nat) by (apply Nat.div_lt_upper_bound; lia).
    rewrite sum_blocks. unfold EckartFacts.moved. rewrite (Rsum_only _ N (s / 3)%nat Q).
    + apply sum_g. intros x Hx. unfold every_atom. rewrite div_block, mod_block, Nat.eqb_refl by exact Hx. reflexivity.
    + intros q Hq Ne. apply Rsum_0. intros x Hx%in_seq. unfold every_atom. rewrite div_block by lia.
      destruct (Nat.eqb_spec (s / 3) q); [congruence|ring].
  - unfold con1. rewrite (Rsum_0 _ (seq 0 (3 * N))); [ring|]. intros r Hr%in_seq. rewrite H by lia. ring.
Qed.

Lemma modes_free N n axes fc2 (mass : nat -> R) geom (J : nat -> R) lx freq :
  let hess := fun a b => FACT2 * con2 (3 * N) (every_atom axes) fc2 a b in
  (n <= 3 * N)%nat -> (forall q, (q < N)%nat -> 0 < mass q) -> orth 3 axes ->
  translation_free N fc2 -> rotation_free N fc2 (input_position axes geom) ->
  (forall x, (x < 3)%nat -> Sum N (fun q => mass q * comp (geom q) x) = 0) ->
  (forall x y, (x < 3)%nat -> (y < 3)%nat -> inertia N mass geom x y = kron x y * J x) ->
  (forall i j, (i < 3 * N)%nat -> (j < 3 * N)%nat ->
     Sum (3 * N) (fun a => mass (a / 3)%nat * lx a i * lx a j) = (if Nat.eqb i j then 1 else 0)) ->
  (forall i j, (i < 3 * N)%nat -> (j < 3 * N)%nat -> i <> j -> con2 (3 * N) lx hess i j = 0) ->
  (forall i, (i < 3 * N)%nat -> nth_error freq i = Some (to_wavenumber (con2 (3 * N) lx hess i i))) ->
  (forall i, (i < n)%nat -> 0 < nth i freq 0) ->
  free_modes N n mass geom J lx.
Proof.
  intros hess Hn Hm Ho Ft Fr C In_ M1 M2 M3 Pw.
  assert (Nz : forall i, (i < n)%nat -> con2 (3 * N) lx hess i i <> 0).
  { intros i Hi Z. specialize (Pw i Hi). rewrite (nth_error_nth freq i 0 (M3 i ltac:(lia))) in Pw.
    rewrite (proj2 (wavenumber_0 _) Z) in Pw. lra. }
  assert (Ov : forall i e, (i < n)%nat -> null (3 * N) fc2 (EckartFacts.moved axes e) ->
    Sum N (fun q => mass q * Sum 3 (fun x => e q x * lx (3 * q + x)%nat i)) = 0).
  { intros i e Hi He. rewrite <- (mode_overlap N mass lx hess (fun b => e (b / 3)%nat (b mod 3)%nat) i Hm M1 M2 (Nz i Hi)
      (null_frame N axes fc2 FACT2 e He) ltac:(lia)).
    rewrite sum_blocks. apply sum_g. intros q _. rewrite <- Rsum_scal. apply sum_g. intros x Hx. rewrite div_block, mod_block by exact Hx. ring. }
  split; [exact C|]. split; [exact In_|]. split; [intros; apply M1; lia|]. split.
  - intros k x Hk Hx. rewrite <- (Ov k (fun _ y => kron y x) Hk).
    + apply sum_g. intros q _. f_equal. rewrite sum_3. unfold kron. destruct x as [|[|[|x]]]; [| | |lia]; cbn [Nat.eqb]; ring.
    + exact (shift_null N axes fc2 mass Hm (fun y => kron y x) Ft).
  - intros k x y Hk Hx Hy.
    set (G := fun c b : nat => kron c y * kron b x - kron c x * kron b y).
    rewrite <- (Ov k (fun q c => Sum 3 (fun b => G c b * comp (geom q) b)) Hk).
    + apply sum_g. intros q _. f_equal. rewrite !sum_3. unfold G, kron.
      destruct x as [|[|[|x]]]; [| | |lia]; (destruct y as [|[|[|y]]]; [| | |lia]); cbn [Nat.eqb]; ring.
    + apply turn_null; try assumption. intros j l. unfold G. ring.
Qed.

Section MechFiles.
  Context {I : Type}.
  Variables (sy : symm R I) (s : R) (mu : N -> option R -> R)
    (eig2 : R -> R -> R -> R * R * (R * R)) (eig : (nat -> nat -> R) -> list R * (nat -> nat -> R))
    (eprint : nat -> R -> text) (name : I -> text).
  Context `{G0 : Trig R} `{T0 : FText R}.
  Hypothesis Pr : prints eprint (irrep_text sy) name.

  Lemma energy_from_files_lemma infile t15 t30 t40 (s0 : spectro R) (l : loaded R) (d2 d3 d4 : list R) :
    read infile = Some s0 -> load_input sy infile = Some l ->
    numbers t15 = Some d2 -> load_vec t30 = Some d3 -> load_vec t40 = Some d4 ->
    symm_ok sy s mu (atoms s0) ->
    let N := List.length (atoms s0) in
    let mass q := nth q (masses sy (atoms s0)) 0 in
    let n := (3 * N - 6)%nat in
    let geom := place_of (atoms (l_input l)) in
    let J x := inertia N mass geom x x in
    let B x := ROTCONST / J x in
    (2 < N)%nat -> l_rotor l = AsymmTop -> (2 < nth 7 (header s0) 4)%Z ->
    (forall q, (q < N)%nat -> 0 < mass q) ->
    Forall plain (molecule_lines sy (atoms (l_input l))) ->
    List.length d2 = (3 * N * (3 * N))%nat -> symmetric_list (3 * N) d2 ->
    List.length d3 = (3 * N * (3 * N + 1) * (3 * N + 2) / 6)%nat ->
    List.length d4 = (3 * N * (3 * N + 1) * (3 * N + 2) * (3 * N + 3) / 24)%nat ->
    (forall fc2, lists2 (3 * N) d2 fc2 -> solves (3 * N) eig (secular N (l_axes l) fc2 mass)) ->
    (forall fc2, lists2 (3 * N) d2 fc2 ->
       translation_free N fc2 /\ rotation_free N fc2 (fun q x => comp (place_of (atoms s0) q) x)) ->
    (forall x, (x < 3)%nat -> 1 / 100 < J x) ->
    B 1%nat <> B 2%nat -> B 2%nat <> B 0%nat -> 2 * B 0%nat <> B 1%nat + B 2%nat ->
    exists lam K kappa, Rabs (ROTCONST / K - 1) < 1 / 10 ^ 15 /\ 2 * K * lam ^ 2 = 1 /\ 1000236 / 10 ^ 6 < kappa < 1000237 / 10 ^ 6 /\
    exists fc2 f3x fuel0 freq lx a,
      lists2 (3 * N) d2 fc2 /\ lists3 (3 * N) d3 f3x /\
      let w := fun i => nth i freq 0 in
      let hess := fun a b => FACT2 * con2 (3 * N) (every_atom (l_axes l)) fc2 a b in
      let F3 := cubic_spec (3 * N) (con3 (3 * N) (every_atom (l_axes l)) f3x) lx w in
      let zeta := zeta_of N (fun a i => sqrt (mass (a / 3)%nat) * lx a i) in
      let tau := tau_of n w J a in
      let tau0 := tau_cl n K w J a in
      (forall i j, (i < 3 * N)%nat -> (j < 3 * N)%nat ->
         Sum (3 * N) (fun a => mass (a / 3)%nat * lx a i * lx a j) = (if Nat.eqb i j then 1 else 0)) /\
      (forall i j, (i < 3 * N)%nat -> (j < 3 * N)%nat -> i <> j -> con2 (3 * N) lx hess i j = 0) /\
      (forall i, (i < 3 * N)%nat -> nth_error freq i = Some (to_wavenumber (con2 (3 * N) lx hess i i))) /\
      StronglySorted Rge freq /\
      inertia_slope N n mass geom lx a /\
      ((forall i, (i < n)%nat -> 0 < w i) -> rotor_energy N n mass geom J lx w F3 K lam tau0 (shift_of w J a)) /\
      (forall i j k l, tau i j k l = kappa * tau0 i j k l) /\
      ((forall i, (i < n)%nat -> 0 < w i) ->
       (forall a b, (a < 3)%nat -> (b < 3)%nat -> a <> b -> / 200 < Rabs (B a - B b) \/ odd_free tau a b) ->
       forall fuel, (fuel0 <= fuel)%nat ->
       exists t q sx S O k400 k220 k040 k202 k022 k004,
       program sy eig2 eig fuel eprint false infile t15 t30 t40 = Some t /\
       (forall c v, In (c, v) (labelled eprint q sx) ->
          exists line, filter (starts (c ++ [colon])) (lines t) = [line] /\
            words (skipn (List.length c + 1) line) = [v]) /\
       (forall x y z, quartic_form tau x y z - even (quartic_form tau) x y z = ev O x y z) /\
       (forall x y z, bracket S (rigid B) x y z = - ev O x y z) /\
       let H2 := rigid3 (B 1%nat) (B 2%nat) (B 0%nat) in
       let H4 x y z := even (quartic_form tau) z x y in
       let H6 x y z := even (fun x y z => sextic_form n B w tau (shift_of w J a) zeta F3 x y z
                                          + / 2 * bracket S O x y z) z x y in
       (forall x y z, H4 x y z = cyl4 k400 k220 k040 k202 k022 k004 x y z) /\
       (exists S3 S5 P4 Q4 : poly, forall x y z,
          ev P4 x y z = H4 x y z /\ ev Q4 x y z = A4 q x y z /\
          bracket S3 H2 x y z = A4 q x y z - H4 x y z /\
          bracket S5 H2 x y z + / 2 * bracket S3 (P4 ++ Q4) x y z = A6 sx x y z - H6 x y z) /\
       (exists S3 S5 P4 Q4 : poly, forall x y z,
          ev P4 x y z = H4 x y z /\ ev Q4 x y z = S4 q x y z /\
          bracket S3 H2 x y z = S4 q x y z - H4 x y z /\
          bracket S5 H2 x y z + / 2 * bracket S3 (P4 ++ Q4) x y z = S6 sx x y z - H6 x y z
            - (/ (B 0%nat - (B 1%nat + B 2%nat) / 2 + 10 * k004) - / (B 0%nat - (B 1%nat + B 2%nat) / 2))
              * late ((2 * B 0%nat - B 1%nat - B 2%nat) / (B 1%nat - B 2%nat)) k220 k040 k202 k022 k004 x y z)).
  Proof.
    intros Ei El E15 E30 E40 Ok N mass n geom J B HN Hr Hd Hm Hg L2 Hs L3 L4 Sv Fr PJ B1 B3 B2.
    destruct (distortion_from_files_lemma sy s mu eig2 eig eprint name Pr infile t15 t30 t40 s0 l d2 d3 d4 Ei El E15 E30 E40 Ok
      HN Hr Hd Hm Hg L2 Hs L3 L4 Sv Fr PJ B1 B3 B2)
      as (fc2 & f3x & fuel0 & freq & lx & a & Q2 & Q3 & M1 & M2 & M3 & M4 & Ha & M5).
    set (lam := 1722212503791076 / 10000000000000000).
    assert (Pl : 0 < lam) by (unfold lam; lra).
    exists lam, (/ (2 * lam ^ 2)), (3833384078 / 100000 * lam ^ 6).
    assert (HK : 2 * / (2 * lam ^ 2) * lam ^ 2 = 1) by (field; lra).
    split. { replace (ROTCONST / / (2 * lam ^ 2)) with k_u by (unfold k_u; fold lam; field; lra). pose proof k_u_bounds. apply Rabs_def1; lra. }
    split; [exact HK|]. split; [unfold lam; lra|].
    exists fc2, f3x, fuel0, freq, lx, a. split; [exact Q2|]. split; [exact Q3|]. cbv zeta.
    split; [exact M1|]. split; [exact M2|]. split; [exact M3|]. split; [exact M4|]. split; [exact Ha|]. split; [|split].
    - intros Pw. fold N in Pw. fold n in Pw.
      assert (Tm : total sy (atoms s0) <> 0).
      { rewrite (total_sum sy s mu _ Ok). apply Rgt_not_eq. apply (sum_pos N mass); [lia|exact Hm]. }
      destruct (load_frame_lemma sy s mu infile l El) as (s1 & Ei' & Hh & Fl).
      assert (s1 = s0) as -> by congruence. clear Ei'. destruct (Fl Ok Tm) as (Ho & Em & Ex & Cm & In_).
      destruct (Ex ltac:(intros Dia; rewrite Hr in Dia; discriminate)) as (c & Ec). clear Ex.
      assert (Ln : List.length (atoms (l_input l)) = N) by (rewrite Ec, map_length; reflexivity).
      rewrite Ln, Em in In_, Cm. fold mass geom in In_, Cm. specialize (In_ ltac:(right; left; rewrite Hr; reflexivity)).
      assert (Jl : forall x, (x < 3)%nat -> J x = comp (l_primat l) x).
      { intros x Hx. unfold J. rewrite In_ by assumption. unfold kron. rewrite Nat.eqb_refl. ring. }
      destruct (Fr fc2 Q2) as [Ft Fo].
      assert (Fi : rotation_free N fc2 (input_position (l_axes l) geom)).
      { apply (rotation_free_shift N fc2 (fun q x => comp (place_of (atoms s0) q) x) _ s (comp c) Ft Fo).
        intros q x Hq Hx.
        assert (G : geom q = in_frame (l_axes l) (vsub (vscale s (place_of (atoms s0) q)) c)).
        { unfold geom. rewrite Ec. apply (place_moved (fun a => in_frame (l_axes l) (vsub (vscale s (where_ a)) c))
            (fun v => in_frame (l_axes l) (vsub (vscale s v) c))); [exact Hq|reflexivity]. }
        rewrite (input_of_frame _ _ _ q x Ho Hx G). rewrite vsub_comp.
        destruct (place_of (atoms s0) q) as [[u v] z]. destruct x as [|[|[|x]]]; [| | |lia]; reflexivity. }
      apply rotating_lemma; [unfold n; lia|exact Hm|intros x Hx; specialize (PJ x Hx); fold J in PJ; lra| |exact Ha|exact Pw|exact Pl|exact HK].
      apply (modes_free N n (l_axes l) fc2 mass geom J lx freq); try assumption; [unfold n; lia|].
      intros x y Hx Hy. rewrite In_ by assumption. now rewrite Jl.
    - intros i j k v. unfold tau_of, tau_cl.
      set (S := Sum _ _). field. lra.
    - exact M5.
  Qed.
End MechFiles.
