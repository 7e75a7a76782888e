(** The relative sign of the partners of a pair, for a threefold axis. *)
From Coq Require Import Reals Lra List ZArith Arith Lia Bool.
From Verif Require Import Num Loops Modes ListFacts ResFacts Anharm AnharmFacts Transform TransformFacts
  RotFacts HarmFacts ModeFacts Geom GeomFacts AlignFacts AlignExact.
Import ListNotations.
Open Scope nat_scope.
Local Open Scope R_scope.

Lemma third_cos : cos (-2 / 1 * PI / 3) = - (1 / 2) /\ sin (- (-2 / 1 * PI / 3)) = sqrt 3 / 2.
Proof.
  replace (-2 / 1 * PI / 3) with (- (2 * (PI / 3))) by field. rewrite Ropp_involutive, cos_neg. split; [rewrite cos_2PI3; lra|apply sin_2PI3].
Qed.

(** the sign step for an axis of order three: the first test decides, if it applies *)
Lemma fix_sign_3 natom iatom iatom2 a b (l : nat -> nat -> R) : (iatom2 < natom)%nat -> a <> b ->
  let l' := fix_sign natom iatom 3 false iatom2 a b l in
  let test := 1 / 2 * (l (3 * iatom2)%nat a - l (3 * iatom)%nat a) in
  Rabs ((Rabs test - Rabs (sqrt 3 / 2 * l (3 * iatom2)%nat b)) / l (3 * iatom)%nat a) < 1 / 1000 ->
  0 <= test * (sqrt 3 / 2 * l' (3 * iatom2)%nat b).
Proof.
  intros Hi Hab l' test Ht. unfold l', fix_sign. cbv zeta.
  match goal with |- context [fold_left ?f (range 0 5) ?s] => set (step := f); set (st := s) end.
  change (range 0 5) with [0;1;2;3;4]%nat. cbn [fold_left].
  assert (K : forall m s is, exists s', step (m, s, true) is = (m, s', true)).
  { intros m s is. unfold step. destruct (ngeb _ _); eauto. }
  assert (S0 : exists s, step st 0%nat = (if Rltb (test * (sqrt 3 / 2 * l (3 * iatom2)%nat b)) 0 then negate natom b l else l, s, true)).
  { unfold step, st. cbn [Nat.add negb].
    assert (Ei : @ngeb R Rnum (nnat 0) (nnat 3) = false).
    { unfold ngeb. change (Rleb (@nnat R Rnum 3) (@nnat R Rnum 0) = false). apply Rleb_false. cbn. lra. }
    rewrite Ei. 
    assert (N3 : @nnat R Rnum 3 = 3) by (unfold nnat, nz; cbn; lra). rewrite !N3.
    assert (Z0 : @nz R Rnum 0 + @nz R Rnum 1 = 1) by (rewrite !nz_R; lra).
    cbn [nadd nmul ndiv nopp nsub ncos nsin npi Rnum Rtrig]. rewrite !nz_R in *. 
    destruct third_cos as [HC HS].
    assert (A1 : (-2) * PI / 3 = -2 / 1 * PI / 3) by field. 
    cbn [IZR] in *. 
    replace (0 + 1) with 1 by lra. rewrite !A1, !Rmult_1_r, HC, HS.
    assert (T : ngtb (nabs (- (1 / 2))) (@TOLER R Rnum) = true).
    { unfold ngtb, TOLER. cbn [nltb nabs nlit Rnum]. apply Rltb_true. rewrite Rabs_Ropp, Rabs_right by lra. lra. }
    rewrite T. cbn [nltb nabs nlit Rnum].
    replace (- (1 / 2) * l (3 * iatom)%nat a - - (1 / 2) * l (3 * iatom2)%nat a) with test by (unfold test; lra).
    rewrite (Rmult_comm (l (3 * iatom2)%nat b)).
    rewrite (proj2 (Rltb_true _ _) Ht). eauto. }
  destruct S0 as (s0 & ->). set (m := if Rltb _ _ then _ else _).
  destruct (K m s0 1%nat) as (s1 & ->), (K m s1 2%nat) as (s2 & ->), (K m s2 3%nat) as (s3 & ->), (K m s3 4%nat) as (s4 & ->).
  unfold m. destruct (Rltb _ _) eqn:E.
  - apply Rltb_true in E. rewrite negate_R, Nat.eqb_refl.
    replace (3 * iatom2 <? 3 * natom)%nat with true by (symmetry; apply Nat.ltb_lt; lia). cbn [andb]. lra.
  - apply Rltb_false in E. exact E.
Qed.

(** one pair: what the two new columns are like *)
Lemma pair_3 natom iatom iatom2 w a b (l lx l' lx' : nat -> nat -> R) : (iatom < natom)%nat -> (iatom2 < natom)%nat -> a <> b ->
  align_pair false natom iatom 3 (Some iatom2) w a b (l, lx) = Some (l', lx') ->
  big (l (3 * iatom)%nat a) ->
  exists c s g, turned (3 * natom) c s g (fun i => l i a) (fun i => l i b) (fun i => l' i a) (fun i => l' i b) /\
    l' (3 * iatom)%nat b = 0 /\ l' (3 * iatom)%nat a <> 0 /\
    let test := 1 / 2 * (l' (3 * iatom2)%nat a - l' (3 * iatom)%nat a) in
    (Rabs ((Rabs test - Rabs (sqrt 3 / 2 * l' (3 * iatom2)%nat b)) / l' (3 * iatom)%nat a) < 1 / 1000 ->
     0 <= test * (sqrt 3 / 2 * l' (3 * iatom2)%nat b)).
Proof.
  intros Hi Hi2 Hab E HB.
  destruct (pair_R _ _ _ _ _ _ _ _ _ _ _ _ Hab E) as (th & g & Ea & HT).
  pose proof (angle_lemma false natom iatom l a b th g _ _ Hi Ea HT) as (HA & _).
  exists (cos th), (sin th), g. split; [exact HT|].
  assert (B0 : l' (3 * iatom)%nat b = 0) by now apply HA. split; [exact B0|].
  assert (X0 : l (3 * iatom)%nat a <> 0).
  { intros Q. unfold big, toler in HB. rewrite Q, Rabs_R0 in HB. lra. }
  split.
  { destruct HT as (Hcs & Hg & HT). destruct (HT (3 * iatom)%nat ltac:(lia)) as [-> HBt]. intros Z.
    apply X0. rewrite B0 in HBt.
    assert (Z2 : cos th * l (3 * iatom)%nat b - sin th * l (3 * iatom)%nat a = 0) by (destruct Hg as [-> | ->]; lra).
    replace (l (3 * iatom)%nat a) with ((cos th * cos th + sin th * sin th) * l (3 * iatom)%nat a) by (rewrite Hcs; ring).
    transitivity (cos th * (cos th * l (3 * iatom)%nat a + sin th * l (3 * iatom)%nat b) - sin th * (cos th * l (3 * iatom)%nat b - sin th * l (3 * iatom)%nat a)); [ring|].
    rewrite Z, Z2. ring. }
  unfold align_pair in E. rewrite Ea in E. cbn [obind] in E.
  assert (Z4 : izero4 iatom l a b = false) by (unfold izero4; cbv zeta; rewrite (proj2 (small_R _) HB); reflexivity).
  rewrite Z4 in E. unfold relative_sign in E. cbn [obind] in E. injection E as E _.
  set (r := rotate_pair natom (ncos th) (nsin th) a b l) in *.
  cbv zeta.
  assert (Oa : forall i, l' i a = r i a).
  { intros i. rewrite <- E. apply (fix_sign_inv (fun m => m i a = r i a)); [|reflexivity].
    intros m Hm. rewrite negate_R. destruct (Nat.eqb_spec a b); [contradiction|]. now rewrite andb_false_r. }
  assert (Ob : Rabs (l' (3 * iatom2)%nat b) = Rabs (r (3 * iatom2)%nat b)).
  { rewrite <- E. apply (fix_sign_inv (fun m => Rabs (m (3 * iatom2)%nat b) = Rabs (r (3 * iatom2)%nat b))); [|reflexivity].
    intros m Hm. rewrite negate_R, Nat.eqb_refl. replace (3 * iatom2 <? 3 * natom)%nat with true by (symmetry; apply Nat.ltb_lt; lia).
    cbn [andb]. now rewrite Rabs_Ropp. }
  rewrite (Rabs_mult (sqrt 3 / 2)), Ob, <- (Rabs_mult (sqrt 3 / 2)), !Oa. rewrite <- E. now apply fix_sign_3.
Qed.

Lemma pair_3_all natom nvib iatom iatom2 freq w (lxm lx lxm' lx' : nat -> nat -> R) a b :
  (iatom < natom)%nat -> (iatom2 < natom)%nat -> (a < b)%nat -> (b < nvib)%nat -> partners false freq a b ->
  (forall m, (m < nvib)%nat -> m <> a -> m <> b -> ~ partners false freq a m /\ ~ partners false freq b m) ->
  bdegnl false natom nvib iatom 3 (Some iatom2) freq w lxm lx = Some (lxm', lx') ->
  big (lxm (3 * iatom)%nat a) ->
  exists c s g, turned (3 * natom) c s g (fun i => lxm i a) (fun i => lxm i b) (fun i => lxm' i a) (fun i => lxm' i b) /\
    lxm' (3 * iatom)%nat b = 0 /\ lxm' (3 * iatom)%nat a <> 0 /\
    let test := 1 / 2 * (lxm' (3 * iatom2)%nat a - lxm' (3 * iatom)%nat a) in
    (Rabs ((Rabs test - Rabs (sqrt 3 / 2 * lxm' (3 * iatom2)%nat b)) / lxm' (3 * iatom)%nat a) < 1 / 1000 ->
     0 <= test * (sqrt 3 / 2 * lxm' (3 * iatom2)%nat b)).
Proof.
  intros Hi Hi2 Hab Hb Hp Hiso E HB.
  apply (isolated_lemma (fun st => exists c s g, turned (3 * natom) c s g (fun i => lxm i a) (fun i => lxm i b) (fun i => fst st i a) (fun i => fst st i b) /\
    fst st (3 * iatom)%nat b = 0 /\ fst st (3 * iatom)%nat a <> 0 /\
    let test := 1 / 2 * (fst st (3 * iatom2)%nat a - fst st (3 * iatom)%nat a) in
    (Rabs ((Rabs test - Rabs (sqrt 3 / 2 * fst st (3 * iatom2)%nat b)) / fst st (3 * iatom)%nat a) < 1 / 1000 ->
     0 <= test * (sqrt 3 / 2 * fst st (3 * iatom2)%nat b)))
    _ _ _ _ _ _ _ _ _ _ _ a b Hab Hb Hp Hiso) in E; [exact E| |].
  - intros l l' k k' (c & d & g & HT & HR) He. cbn [fst] in *. exists c, d, g. split.
    + eapply turned_ext; [..|exact HT]; intros i; cbv beta; try reflexivity; symmetry; apply He.
    + destruct (He (3 * iatom)%nat) as [-> ->], (He (3 * iatom2)%nat) as [-> ->]. exact HR.
  - intros l k [l' k'] He Ep. cbn [fst].
    destruct (pair_3 natom iatom iatom2 w a b l k l' k' Hi Hi2 (Nat.lt_neq _ _ Hab) Ep) as (c & d & g & HT & HR).
    { now rewrite (proj1 (He _)). }
    exists c, d, g. split; [|exact HR]. eapply turned_ext; [..|exact HT]; intros i; cbv beta; try reflexivity; apply He.
Qed.
