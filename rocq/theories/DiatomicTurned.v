(** A diatomic molecule whose force constants are not in the frame of its geometry. *)
From Coq Require Import Reals Lra List ZArith Arith Lia Bool Permutation Sorted.
From Verif Require Import Num Loops ListFacts Index LoadFacts Modes ModesFacts ResFacts ResWitness
  StatesFacts IndexFacts Anharm AnharmFacts EnergyFacts VibRot Distort Transform TransformFacts
  RotFacts NormalFacts HarmFacts ModeFacts DistortFacts GeomFacts ZeroFacts SymAnharm InertiaFacts
  Polyads Report OutputFacts VibRotFacts SymRotFacts Geom AlignFacts AlignExact IrrepFacts Finish FinishFacts
  SexticFacts SameRun RunFacts RunSecond ThreeRun DunhamFacts DiatomicRun.
Import ListNotations.
Open Scope nat_scope.
Local Open Scope R_scope.

(** the coordinate with x and y of every atom exchanged *)
Definition swap_xy (a : nat) : nat := (3 * (a / 3) + match a mod 3 with 0 => 1 | 1 => 0 | _ => 2 end)%nat.

Lemma swap_6 a : (a < 6)%nat -> swap_xy a = nth a [1; 0; 2; 4; 3; 5]%nat 0%nat.
Proof. intros Ha. do 6 (destruct a as [|a]; [reflexivity|]). lia. Qed.
Lemma swap_lt a : (a < 6)%nat -> (swap_xy a < 6)%nat.
Proof. intros Ha. rewrite swap_6 by exact Ha. do 6 (destruct a as [|a]; [cbn; lia|]). lia. Qed.
Lemma swap_div a : (a < 6)%nat -> (swap_xy a / 3 = a / 3)%nat.
Proof. intros Ha. rewrite swap_6 by exact Ha. do 6 (destruct a as [|a]; [reflexivity|]). lia. Qed.
Lemma swap_swap a : (a < 6)%nat -> swap_xy (swap_xy a) = a.
Proof. intros Ha. do 6 (destruct a as [|a]; [reflexivity|]). lia. Qed.
Lemma sum_swap F : Sum 6 (fun a => F (swap_xy a)) = Sum 6 F.
Proof. rewrite !sum6. rewrite !swap_6 by lia. cbn [nth]. ring. Qed.

Lemma swap_eigen A h V : eigen_system 6 A h V ->
  eigen_system 6 (fun a b => A (swap_xy a) (swap_xy b)) h (fun a i => V (swap_xy a) i).
Proof.
  intros (L & [O1 O2] & E). split; [exact L|]. split; [split|].
  - intros a b Ha Hb. rewrite O1 by (now apply swap_lt). unfold delta.
    destruct (Nat.eqb_spec a b) as [->|N]; [now rewrite Nat.eqb_refl|].
    destruct (Nat.eqb_spec (swap_xy a) (swap_xy b)) as [Q|]; [|reflexivity].
    elim N. rewrite <- (swap_swap a Ha), <- (swap_swap b Hb). now rewrite Q.
  - intros i j Hi Hj. rewrite (sum_swap (fun a => V a i * V a j)). now apply O2.
  - intros a i v Ha Hv. rewrite (sum_swap (fun b => A (swap_xy a) b * V b i)). apply E; [now apply swap_lt|exact Hv].
Qed.

Lemma de_zero B I w wl q : quartic_new Diatomic 1 B I w wl = Some q -> (forall c, c <> 1%nat -> wl 0%nat c = 0) -> de q = 0.
Proof.
  intros E Hwl. unfold quartic_new in E. cbn [is_linear is_diatomic princ_cart obind IPTOC ICTOP nth_error make_t range seq Nat.sub
    ofold at3 fst snd Nat.ltb Nat.leb andb] in E.
  apply some_eq3 in E. subst q. cbn [quartic_linear de]. cbn [upd2 Nat.eqb andb].
  rewrite taup_R by lia. unfold taup_spec, tau_spec. cbn [Nat.eqb Rsum fold_right seq acol Nat.max Nat.min].
  cbn [nopp ndiv Rnum]. rewrite nz_R. rewrite !Hwl by discriminate. unfold Rdiv. ring.
Qed.

Section Turned.
  Context {I : Type}.
  Variables (eig2 : R -> R -> R -> R * R * (R * R))
    (eig : (nat -> nat -> R) -> list R * (nat -> nat -> R))
    (label : (nat -> R * R * R) -> (nat -> nat -> R) -> nat -> R -> option I) (A : I).

  Lemma run_turned m axes iatom order buddy fc2 f3x f4x x k2 k3 k4 :
    let g2 := fun a b => con2 6 (every_atom axes) fc2 (swap_xy a) (swap_xy b) in
    let g3 := fun a b c => con3 6 (every_atom axes) f3x (swap_xy a) (swap_xy b) (swap_xy c) in
    let g4 := fun a b c d => con4 6 (every_atom axes) f4x (swap_xy a) (swap_xy b) (swap_xy c) (swap_xy d) in
    m_rotor m = Diatomic -> m_natom m = 2%nat -> m_nvib m = 1%nat ->
    0 < m_w m 0%nat -> 0 < m_w m 1%nat ->
    (forall q, (q < 2)%nat -> m_geom m q = (x q, 0, 0)) -> x 0%nat <> x 1%nat ->
    sym2 6 fc2 -> tsym3 6 f3x -> tsym4 6 f4x ->
    bond_field x g2 g3 g4 k2 k3 k4 -> 0 < k2 ->
    solves 6 eig (secular 2 axes fc2 (m_w m)) ->
    exists fuel0, forall fuel, (fuel0 <= fuel)%nat ->
    exists o,
      run eig2 eig label A fuel buddy false m axes iatom order (Quartic fc2 f3x f4x) = Some (FullResult o) /\
      de (out_quartic o) = 0.
  Proof.
    intros g2 g3 g4 Hr HN Hn P0 P1 Hg Nx S2 S3 S4 (Z & Q2 & _) K Sv.
    destruct labels_end_R as (f0 & Hf0). exists f0. intros fuel Hfu.
    assert (Hw : forall q, (q < 2)%nat -> 0 < m_w m q) by (intros [|[|q]] Hq; (assumption || lia)).
    destruct (harmonic_run 2 axes fc2 (m_w m) eig Sv) as (h & V & Eh & ES & So).
    assert (Sg : forall a c, (a < 6)%nat -> (c < 6)%nat -> g2 a c = g2 c a) by (intros a c Ha Hc; unfold g2; now apply con2_sym).
    destruct (top_value x (m_w m) g2 (fun a b => secular 2 axes fc2 (m_w m) (swap_xy a) (swap_xy b)) k2 h (fun a i => V (swap_xy a) i) Nx P0 P1 K Z Q2 (Sg 0%nat 3%nat ltac:(lia) ltac:(lia)))
      as (h' & Hh & V1 & V2 & V4 & V5 & _); try assumption.
    { intros a c Ha Hc. rewrite (secular_R 2) by (assumption || now apply swap_lt).
      unfold weighted, g2. now rewrite !swap_div. }
    { now apply swap_eigen. }
    cbn in V1, V2, V4, V5.
    set (freq := map to_wavenumber h) in *.
    assert (Lf : length freq = 6%nat) by (unfold freq; rewrite map_length; apply ES).
    set (lx := make_lx 6 (make_sqm (m_w m)) V).
    destruct (run_prefix eig2 eig label A fuel buddy false m axes iatom order (Quartic fc2 f3x f4x)
      freq V V lx) as (irreps & Li & _ & Er).
    { rewrite Hr; discriminate. } { rewrite Hr; discriminate. } { now apply Hf0. } { rewrite HN. exact Eh. }
    { unfold aligned. rewrite Hr, HN. now split. }
    rewrite HN, Hn in Er.
    destruct (force_run 2 1 axes f3x f4x lx (fun i => nth i freq (nz 0)) ltac:(lia) S3 S4) as (f3l & f4l & E3 & E4 & G3 & G4).
    rewrite E3, obind_some in Er. cbv beta in Er. rewrite E4, obind_some in Er. cbv beta in Er.
    destruct (finish_total_lemma eig2 m freq f3l f4l irreps V lx [I1 0%nat]) as (o & Eo & Em & _).
    { rewrite Hr; discriminate. } { rewrite Hr; discriminate. } { rewrite Hr, Hn. reflexivity. } { rewrite Hn. constructor; constructor. }
    { apply comparable_R. } { rewrite Hn, Lf. lia. } { rewrite HN. lia. } { rewrite Hr. discriminate. }
    rewrite Eo, obind_some in Er. exists o. split; [exact Er|].
    pose proof (finish_inv eig2 m freq f3l f4l irreps V lx o Eo) as Iv. cbv zeta in Iv.
    rewrite Hr, HN, Hn in Iv.
    destruct Iv as (sym & xc & g & e0 & lev & eng & rows & Iq & _).
    apply (de_zero _ _ _ _ _ Iq). intros c Hc.
    destruct c as [|[|[|[|[|]]]]]; try congruence; unfold wila; cbv zeta;
      rewrite ?nsum_R, ?acc_sub_R; unfold range, cx, cy, cz;
      cbn [Rsum fold_right seq Nat.sub Nat.add Nat.mul nsqrt nmul nadd nsub Rnum];
      rewrite ?(Hg 0%nat), ?(Hg 1%nat) by lia; cbn [fst snd]; rewrite ?nz_R, ?V1, ?V2, ?V4, ?V5; ring.
  Qed.
End Turned.
