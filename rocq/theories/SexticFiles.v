(** From the texts of the input files to the quartic and sextic constants in the report. *)
From Coq Require Import Reals Lra List ZArith NArith Arith Lia Bool Ascii String Permutation Sorted FunctionalExtensionality.
From Verif Require Import Num Loops ListFacts Index IndexFacts LoadFacts Text TextFacts SpacingFacts DummyFacts Modes ModesFacts ResFacts RangeFacts
  StatesFacts Anharm AnharmFacts VibRot VibRotFacts SymRotFacts Distort Transform TransformFacts RotFacts NormalFacts ModeFacts ZeroFacts InertiaFacts EckartFacts
  SymAnharm Polyads Report ReportFacts OutputFacts Geom GeomFacts IrrepFacts FermiFacts PerturbFacts PerturbSum PerturbLevels VanVleck VibPerturb SymE0 HarmFacts DistortFacts
  SexticFacts FormFacts TensorFacts ReductionFacts
  Finish FinishFacts RunFacts RunSecond RunFermi RunRot OutText OutFacts OutTables OutRun Program ProgramFacts BlankFacts ProgramRun FrameFacts RotFiles.
Import ListNotations.
Import Text.
Open Scope list_scope.
Open Scope nat_scope.
Open Scope R_scope.

(** ** the specification side *)

(** the quartic tensor and the displacements by rotation, from the derivatives [a] of the inertia
    tensor along the modes; the factors are the code's *)
Definition tau_of (n : nat) (w J : nat -> R) (a : nat -> nat -> nat -> R) (i j k l : nat) : R :=
  - / 2 * (3833384078 / 100000) * Sum n (fun v => a v i j * a v k l / (w v ^ 2 * J i * J j * J k * J l)).
Definition shift_of (w J : nat -> R) (a : nat -> nat -> nat -> R) (v x y : nat) : R :=
  a v x y / (2 * J x * J y * p32 ((1722212503791076 / 10000000000000000) ^ 2 * w v)).

(** ** equal on the indices in range *)
Lemma sum3_g f g : (forall i, (i < 3)%nat -> f i = g i) -> FormFacts.sum3 f = FormFacts.sum3 g.
Proof. intros E. rewrite !sum3_eq, !E by lia. reflexivity. Qed.

Lemma tau_of_spec n w J wl a i j k l : (i < 3)%nat -> (j < 3)%nat -> (k < 3)%nat -> (l < 3)%nat ->
  (forall k y z, (k < n)%nat -> (y < 3)%nat -> (z < 3)%nat -> wl k (acol y z) = a k y z) ->
  tau_spec n w J wl i j k l = tau_of n w J a i j k l.
Proof. intros Hi Hj Hk Hl E. unfold tau_spec, tau_of. f_equal. apply sum_g. intros v Hv. now rewrite !E. Qed.

Lemma quartic_form_g t t' : (forall i j k l, (i < 3)%nat -> (j < 3)%nat -> (k < 3)%nat -> (l < 3)%nat -> t i j k l = t' i j k l) ->
  quartic_form t = quartic_form t'.
Proof.
  intros E. extensionality x. extensionality y. extensionality z. unfold quartic_form. f_equal.
  repeat (apply sum3_g; intros). now rewrite E.
Qed.

Lemma sextic_form_g n B w t t' c c' zm zm' f3 f3' :
  (forall i j k l, (i < 3)%nat -> (j < 3)%nat -> (k < 3)%nat -> (l < 3)%nat -> t i j k l = t' i j k l) ->
  (forall v a b, (v < n)%nat -> (a < 3)%nat -> (b < 3)%nat -> c v a b = c' v a b) ->
  (forall i j b, (i < n)%nat -> (j < n)%nat -> zm i j b = zm' i j b) ->
  (forall u v k, (u < n)%nat -> (v < n)%nat -> (k < n)%nat -> f3 u v k = f3' u v k) ->
  sextic_form n B w t c zm f3 = sextic_form n B w t' c' zm' f3'.
Proof.
  intros Et Ec Ez Ef. extensionality x. extensionality y. extensionality z.
  assert (C : forall v, (v < n)%nat -> c_form c v x y z = c_form c' v x y z).
  { intros v Hv. unfold c_form. repeat (apply sum3_g; intros). now rewrite Ec. }
  unfold sextic_form. f_equal; [f_equal|].
  - f_equal. apply sum3_g. intros. f_equal. f_equal. unfold tau_form. repeat (apply sum3_g; intros). now rewrite Et.
  - f_equal. apply sum_g. intros v Hv. f_equal. f_equal. unfold cor_form. f_equal. apply sum_g. intros u Hu.
    rewrite C by exact Hu. f_equal. apply sum3_g. intros. now rewrite Ez.
  - f_equal. apply sum_g. intros u Hu. apply sum_g. intros v Hv. apply sum_g. intros k Hk. now rewrite Ef, !C.
Qed.

Section SexticFiles.
  Context {I : Type}.
  Variables (sy : symm R I) (s : R) (mu : N -> option R -> R)
    (eig2 : R -> R -> R -> R * R * (R * R)) (eig : (nat -> nat -> R) -> list R * (nat -> nat -> R))
    (eprint : nat -> R -> text) (name : I -> text).
  Context `{G0 : Trig R} `{T0 : FText R}.
  Hypothesis Pr : prints eprint (irrep_text sy) name.

  Lemma distortion_from_files_lemma infile t15 t30 t40 (s0 : spectro R) (l : loaded R) (d2 d3 d4 : list R) :
    read infile = Some s0 -> load_input sy infile = Some l ->
    numbers t15 = Some d2 -> load_vec t30 = Some d3 -> load_vec t40 = Some d4 ->
    symm_ok sy s mu (atoms s0) ->
    let N := List.length (atoms s0) in
    let mass q := nth q (masses sy (atoms s0)) 0 in
    let n := (3 * N - 6)%nat in
    let geom := place_of (atoms (l_input l)) in
    let J x := inertia N mass geom x x in
    let B x := ROTCONST / J x in
    (2 < N)%nat -> l_rotor l = AsymmTop -> (2 < nth 7 (header s0) 4)%Z ->
    (forall q, (q < N)%nat -> 0 < mass q) ->
    Forall plain (molecule_lines sy (atoms (l_input l))) ->
    List.length d2 = (3 * N * (3 * N))%nat -> symmetric_list (3 * N) d2 ->
    List.length d3 = (3 * N * (3 * N + 1) * (3 * N + 2) / 6)%nat ->
    List.length d4 = (3 * N * (3 * N + 1) * (3 * N + 2) * (3 * N + 3) / 24)%nat ->
    (forall fc2, lists2 (3 * N) d2 fc2 -> solves (3 * N) eig (secular N (l_axes l) fc2 mass)) ->
    (forall fc2, lists2 (3 * N) d2 fc2 ->
       translation_free N fc2 /\ rotation_free N fc2 (fun q x => comp (place_of (atoms s0) q) x)) ->
    (forall x, (x < 3)%nat -> 1 / 100 < J x) ->
    B 1%nat <> B 2%nat -> B 2%nat <> B 0%nat -> 2 * B 0%nat <> B 1%nat + B 2%nat ->
    exists fc2 f3x fuel0 freq lx a,
      lists2 (3 * N) d2 fc2 /\ lists3 (3 * N) d3 f3x /\
      let w := fun i => nth i freq 0 in
      let hess := fun a b => FACT2 * con2 (3 * N) (every_atom (l_axes l)) fc2 a b in
      let F3 := cubic_spec (3 * N) (con3 (3 * N) (every_atom (l_axes l)) f3x) lx w in
      let zeta := zeta_of N (fun a i => sqrt (mass (a / 3)%nat) * lx a i) in
      let tau := tau_of n w J a in
      (forall i j, (i < 3 * N)%nat -> (j < 3 * N)%nat ->
         Sum (3 * N) (fun a => mass (a / 3)%nat * lx a i * lx a j) = (if Nat.eqb i j then 1 else 0)) /\
      (forall i j, (i < 3 * N)%nat -> (j < 3 * N)%nat -> i <> j -> con2 (3 * N) lx hess i j = 0) /\
      (forall i, (i < 3 * N)%nat -> nth_error freq i = Some (to_wavenumber (con2 (3 * N) lx hess i i))) /\
      StronglySorted Rge freq /\
      inertia_slope N n mass geom lx a /\
      ((forall i, (i < n)%nat -> 0 < w i) ->
       (forall a b, (a < 3)%nat -> (b < 3)%nat -> a <> b -> / 200 < Rabs (B a - B b) \/ odd_free tau a b) ->
       forall fuel, (fuel0 <= fuel)%nat ->
       exists t q sx S O k400 k220 k040 k202 k022 k004,
       program sy eig2 eig fuel eprint false infile t15 t30 t40 = Some t /\
       (forall c v, In (c, v) (labelled eprint q sx) ->
          exists line, filter (starts (c ++ [colon])) (lines t) = [line] /\
            words (skipn (List.length c + 1) line) = [v]) /\
       (forall x y z, quartic_form tau x y z - even (quartic_form tau) x y z = ev O x y z) /\
       (forall x y z, bracket S (rigid B) x y z = - ev O x y z) /\
       let H2 := rigid3 (B 1%nat) (B 2%nat) (B 0%nat) in
       let H4 x y z := even (quartic_form tau) z x y in
       let H6 x y z := even (fun x y z => sextic_form n B w tau (shift_of w J a) zeta F3 x y z
                                          + / 2 * bracket S O x y z) z x y in
       (forall x y z, H4 x y z = cyl4 k400 k220 k040 k202 k022 k004 x y z) /\
       (exists S3 S5 P4 Q4 : poly, forall x y z,
          ev P4 x y z = H4 x y z /\ ev Q4 x y z = A4 q x y z /\
          bracket S3 H2 x y z = A4 q x y z - H4 x y z /\
          bracket S5 H2 x y z + / 2 * bracket S3 (P4 ++ Q4) x y z = A6 sx x y z - H6 x y z) /\
       (exists S3 S5 P4 Q4 : poly, forall x y z,
          ev P4 x y z = H4 x y z /\ ev Q4 x y z = S4 q x y z /\
          bracket S3 H2 x y z = S4 q x y z - H4 x y z /\
          bracket S5 H2 x y z + / 2 * bracket S3 (P4 ++ Q4) x y z = S6 sx x y z - H6 x y z
            - (/ (B 0%nat - (B 1%nat + B 2%nat) / 2 + 10 * k004) - / (B 0%nat - (B 1%nat + B 2%nat) / 2))
              * late ((2 * B 0%nat - B 1%nat - B 2%nat) / (B 1%nat - B 2%nat)) k220 k040 k202 k022 k004 x y z)).
  Proof.
    intros Ei El E15 E30 E40 Ok N mass n geom J B HN Hr Hd Hm Hg L2 Hs L3 L4 Sv Fr PJ B1 B3 B2.
    assert (RC : 0 < ROTCONST) by (unfold ROTCONST; cbn; lra).
    assert (HK : 2 * ROTCONST * sqrt (/ (2 * ROTCONST)) ^ 2 = 1).
    { rewrite pow2_sqrt; [field; lra|]. left. apply Rinv_0_lt_compat. lra. }
    destruct (rotation_files_full sy s mu eig2 eig eprint name Pr infile t15 t30 t40 s0 l d2 d3 d4 _ Ei El E15 E30 E40 Ok
      HN Hr Hd Hm Hg L2 Hs L3 L4 Sv Fr PJ B1 B2 HK)
      as (fc2 & f3x & f4x & fuel0 & freq & lx & a & Q2 & Q3 & Q4 & M1 & M2 & M3 & M4 & Ha & M5).
    exists fc2, f3x, fuel0, freq, lx, a. split; [exact Q2|]. split; [exact Q3|]. cbv zeta.
    split; [exact M1|]. split; [exact M2|]. split; [exact M3|]. split; [exact M4|]. split; [exact Ha|].
    intros Pw Gap fuel Hfu.
    destruct (M5 Pw fuel Hfu) as (t & cor & head & rows & after & P1 & _ & _ & (q & sx & P3 & wl & zm & f3 & Eq & Es & Hw & Hz & Hy & Hf) & _).
    clear M5 M1 M2 M3 M4 Q4 f4x HK.
    set (w := fun i => nth i freq 0) in *.
    set (F3 := cubic_spec _ _ lx w) in *. set (zeta := zeta_of N _) in *.
    fold N in Eq, Es. fold n in Eq, Es, Hw, Hz, Hf. fold mass in Eq, Es. fold geom in Eq, Es. fold J in Eq, Es. fold B in Eq, Es.
    assert (Ta : forall i j k l, (i < 3)%nat -> (j < 3)%nat -> (k < 3)%nat -> (l < 3)%nat ->
      tau_spec n w J wl i j k l = tau_of n w J a i j k l) by (intros; now apply tau_of_spec).
    destruct (sextic_tensor_lemma n (3 * N) B J w wl zm f3) as (S & O & O1 & O2 & O3).
    { lia. } { exact Hy. }
    { intros x y Hx Hy' Ne. destruct (Gap x y Hx Hy' Ne) as [G|G]; [now left|right].
      unfold odd_free in *. cbv zeta in *. rewrite !Ta by lia. exact G. }
    cbv zeta in O1, O2, O3.
    destruct (canonical_lemma n (3 * N) B J w wl zm f3 B1 B3 B2)
      as (q' & sx' & k400 & k220 & k040 & k202 & k022 & k004 & Eq' & Es' & K & KA & KS).
    assert (q' = q) as -> by (apply some_eq; rewrite <- Eq'; exact Eq).
    assert (sx' = sx) as -> by (apply some_eq; rewrite <- Es'; exact Es).
    rewrite (quartic_form_g _ _ Ta) in O1, K, KA, KS.
    rewrite (sextic_form_g n B w _ _ (c_spec J w wl) (shift_of w J a) zm zeta f3 F3 Ta) in O3.
    2: { intros v x y Hv Hx Hy'. unfold c_spec, shift_of. now rewrite Hw. }
    2: { exact Hz. } 2: { exact Hf. }
    exists t, q, sx, S, O, k400, k220, k040, k202, k022, k004.
    split; [exact P1|]. split; [exact P3|]. split; [exact O1|]. split; [exact O2|]. split; [exact K|].
    split.
    - destruct KA as (S3 & S5 & P4 & Q4 & KA). exists S3, S5, P4, Q4. intros x y z.
      destruct (KA x y z) as (A1 & A2 & A3 & A4'). rewrite <- O3 in A4'. auto.
    - destruct KS as (S3 & S5 & P4 & Q4 & KS). exists S3, S5, P4, Q4. intros x y z.
      destruct (KS x y z) as (A1 & A2 & A3 & A4'). rewrite <- O3 in A4'. auto.
  Qed.
End SexticFiles.
