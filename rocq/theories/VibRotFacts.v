(** Lemmas about Coriolis constants and vibration-rotation constants. *)
From Coq Require Import Reals Lra Lia List ZArith Arith Bool Psatz.
From Verif Require Import Num Loops Index Modes Anharm VibRot.
From Verif Require Import ListFacts ModesFacts StatesFacts ResFacts AnharmFacts EnergyFacts.
Import ListNotations.
Open Scope nat_scope.

(** ** the map of Coriolis resonances *)

(** the pair of modes is reported, in either order, for this axis *)
Definition listed (l : list (nat * nat * nat)) (i j axis : nat) : Prop :=
  In (i, j, axis) l \/ In (j, i, axis) l.

(** at most one axis is reported for the pair *)
Definition one_axis (l : list (nat * nat * nat)) (i j : nat) : Prop :=
  forall x y, listed l i j x -> listed l i j y -> x = y.

Lemma listed_sym l i j x : listed l i j x <-> listed l j i x.
Proof. unfold listed. tauto. Qed.

Lemma listed_dec l i j x : {listed l i j x} + {~ listed l i j x}.
Proof.
  assert (D : forall a b : nat * nat * nat, {a = b} + {a <> b}) by (repeat decide equality).
  destruct (in_dec D (i, j, x) l); [left; left; assumption|].
  destruct (in_dec D (j, i, x) l); [left; right; assumption|].
  right. intros [A|A]; contradiction.
Qed.

Definition ins_cor (m : map2) (c : nat * nat * nat) : map2 :=
  let '(i, j, axis) := c in insert2 (insert2 m (i, j) axis) (j, i) axis.

Lemma ins_cor_get m a b x i j :
  ins_cor m (a, b, x) i j =
  if ((i =? a) && (j =? b)) || ((i =? b) && (j =? a)) then Some x else m i j.
Proof.
  unfold ins_cor, insert2, upd2. cbn [fst snd].
  destruct (i =? b) eqn:A, (j =? a) eqn:B, (i =? a) eqn:C, (j =? b) eqn:D;
    cbn; reflexivity.
Qed.

Lemma icorol_fold l : forall m i j x,
  fold_left ins_cor l m i j = Some x -> listed l i j x \/ m i j = Some x.
Proof.
  induction l as [|[[a b] y] l IH]; intros m i j x E; [right; exact E|].
  cbn [fold_left] in E. apply IH in E as [E|E].
  - left. unfold listed in *. cbn. tauto.
  - rewrite ins_cor_get in E.
    destruct (Nat.eqb_spec i a), (Nat.eqb_spec j b), (Nat.eqb_spec i b), (Nat.eqb_spec j a);
      cbn in E; subst; try (right; exact E);
      injection E as <-; left; unfold listed; cbn; tauto.
Qed.

Lemma icorol_fold_some l : forall m i j,
  (exists x, listed l i j x) \/ m i j <> None -> fold_left ins_cor l m i j <> None.
Proof.
  induction l as [|[[a b] y] l IH]; intros m i j E.
  - destruct E as [(x & [[]|[]])|E]; exact E.
  - cbn [fold_left]. apply IH. rewrite ins_cor_get.
    destruct (Nat.eqb_spec i a), (Nat.eqb_spec j b), (Nat.eqb_spec i b), (Nat.eqb_spec j a);
      cbn; try (right; discriminate);
      (destruct E as [(x & E)|E]; [left; exists x|right; exact E]);
      unfold listed in *; cbn in E; intuition congruence.
Qed.

Lemma icorol_eq l : make_icorol l = fold_left ins_cor l empty2.
Proof. reflexivity. Qed.

(** nothing is treated as resonant that is not reported *)
Lemma icorol_sound l i j x : check2 (make_icorol l) i j x = true -> listed l i j x.
Proof.
  unfold check2. rewrite icorol_eq.
  destruct (fold_left ins_cor l empty2 i j) as [y|] eqn:E; [|discriminate].
  intros H. apply Nat.eqb_eq in H. subst y.
  apply icorol_fold in E as [E|E]; [exact E|discriminate].
Qed.

Lemma icorol_complete l i j x :
  one_axis l i j -> listed l i j x -> check2 (make_icorol l) i j x = true.
Proof.
  intros O L. unfold check2. rewrite icorol_eq.
  destruct (fold_left ins_cor l empty2 i j) as [y|] eqn:E.
  - apply icorol_fold in E as [E|E]; [|discriminate].
    apply Nat.eqb_eq. now apply O.
  - exfalso. revert E. apply icorol_fold_some. left. now exists x.
Qed.

Lemma icorol_exact l i j x :
  one_axis l i j -> (check2 (make_icorol l) i j x = true <-> listed l i j x).
Proof. intros O. split; [apply icorol_sound|now apply icorol_complete]. Qed.

(** the last entry wins *)
Lemma icorol_last l i j x :
  check2 (make_icorol (l ++ [(i, j, x)])) i j x = true /\
  (forall y, y <> x -> check2 (make_icorol (l ++ [(i, j, x)])) i j y = false).
Proof.
  unfold check2. rewrite icorol_eq, fold_left_app. cbn [fold_left].
  rewrite ins_cor_get, !Nat.eqb_refl. cbn. split; [apply Nat.eqb_refl|].
  intros y Hy. apply Nat.eqb_neq. congruence.
Qed.

(** ** vibration-rotation constants over the reals *)
Open Scope R_scope.

(** contribution of one partner mode to the vibration-rotation constant: what the code
    adds or subtracts *)
Definition cor_term (res : bool) (z wi wj : R) : R :=
  if res then - (/ 2 * (z * z) * ((wi - wj) * (wi - wj)) / (wj * (wi + wj)))
  else z * z * ((3 * (wi * wi) + wj * wj) / (wi * wi - wj * wj)).

(** the property of a pair term [t], without the code's formula: a pair that is not
    reported contributes zeta^2 (3 wi^2 + wj^2) / (wi^2 - wj^2); a reported pair
    contributes the same minus its pole zeta^2 (wi + wj)^2 / (2 wj (wi - wj)), and stays
    bounded, going to zero, when the frequencies approach each other *)
Definition pair_ok (reported : Prop) (z wi wj t : R) : Prop :=
  (~ reported -> wi <> wj -> t = z ^ 2 * ((3 * wi ^ 2 + wj ^ 2) / (wi ^ 2 - wj ^ 2))) /\
  (reported -> wi <> wj ->
     t = z ^ 2 * ((3 * wi ^ 2 + wj ^ 2) / (wi ^ 2 - wj ^ 2)
                  - (wi + wj) ^ 2 / (2 * wj * (wi - wj)))) /\
  (reported -> Rabs t <= z ^ 2 * Rabs (wi - wj) / (2 * wj)).

Lemma cor_term_ok (res : bool) (P : Prop) z wi wj :
  0 < wi -> 0 < wj -> (res = true <-> P) -> pair_ok P z wi wj (cor_term res z wi wj).
Proof.
  intros Hi Hj E. unfold pair_ok, cor_term.
  split; [|split].
  - intros N D. destruct res; [tauto|]. cbn [pow]. rewrite !Rmult_1_r. reflexivity.
  - intros N D. destruct res; [|destruct E as [_ E]; now apply E in N].
    assert (wi - wj <> 0) by lra. assert (wi + wj <> 0) by lra.
    field_simplify_eq.
    + ring.
    + repeat split; try lra. intros Z.
      assert ((wi - wj) * (wi + wj) = 0) as Z' by (ring_simplify; ring_simplify in Z; lra).
      apply Rmult_integral in Z'. tauto.
  - intros N. destruct res; [|destruct E as [_ E]; now apply E in N].
    rewrite Rabs_Ropp.
    set (d := wi - wj).
    assert (Hd : d * d = Rabs d * Rabs d).
    { rewrite <- Rabs_mult. symmetry. apply Rabs_pos_eq. nra. }
    assert (H0 : 0 <= Rabs d) by apply Rabs_pos.
    assert (Hs : Rabs d <= wi + wj).
    { unfold d, Rabs. destruct (Rcase_abs (wi - wj)); lra. }
    rewrite Hd.
    assert (Hz : 0 <= z * z) by nra.
    rewrite Rabs_pos_eq.
    2:{ apply Rmult_le_pos; [nra|]. apply Rlt_le, Rinv_0_lt_compat. nra. }
    apply Rmult_le_reg_r with (wj * (wi + wj)); [nra|].
    unfold Rdiv. rewrite Rmult_assoc, Rinv_l by nra.
    replace (z ^ 2 * Rabs d * / (2 * wj) * (wj * (wi + wj)))
      with (/ 2 * (z * z) * (Rabs d * (wi + wj))) by (field; lra).
    rewrite Rmult_1_r. apply Rmult_le_compat_l; [nra|]. apply Rmult_le_compat_l; lra.
Qed.

Lemma cor_res_R z wi wj : cor_res z wi wj = / 2 * (z * z) * ((wi - wj) * (wi - wj)) / (wj * (wi + wj)).
Proof.
  unfold cor_res, nsq, nmul, nsub, nadd, ndiv. cbn [Rnum]. rewrite nlit_half. reflexivity.
Qed.
Lemma cor_def'_R z wi wj :
  cor_def' z wi wj = z * z * ((3 * (wi * wi) + wj * wj) / (wi * wi - wj * wj)).
Proof.
  unfold cor_def', nsq, nmul, nsub, nadd, ndiv. cbn [Rnum]. rewrite nz_R. reflexivity.
Qed.
Lemma cor_def_R z wi wj :
  cor_def z wi wj = z * z * ((3 * (wi * wi) + wj * wj) / (wi * wi - wj * wj)).
Proof.
  unfold cor_def, nsq, nmul, nsub, nadd, ndiv. cbn [Rnum]. rewrite nz_R.
  unfold Rdiv. ring.
Qed.

Definition others (i n : nat) : list nat := filter (fun j => negb (j =? i)%nat) (seq 0 n).
Lemma in_others i n j : In j (others i n) <-> (j < n /\ j <> i)%nat.
Proof.
  unfold others. rewrite filter_In, in_seq. destruct (Nat.eqb_spec j i); cbn; intuition lia.
Qed.

(** sum over the other modes with the formula stated above *)
Lemma valu2_R (chk : nat -> bool) (z : nat -> R) wi (w : nat -> R) i l :
  fold_left (fun v j => if Nat.eqb j i then v
     else if chk j then nsub v (cor_res (z j) wi (w j))
     else nadd v (cor_def (z j) wi (w j))) l (nz 0)
  = Rsum (filter (fun j => negb (j =? i)%nat) l) (fun j => cor_term (chk j) (z j) wi (w j)).
Proof.
  rewrite nz_R. rewrite (fold_plus_R _ (fun j => if Nat.eqb j i then 0
    else cor_term (chk j) (z j) wi (w j))).
  - rewrite Rplus_0_l. induction l as [|a l IH]; [reflexivity|].
    rewrite Rsum_cons, IH. cbn [filter]. destruct (a =? i)%nat; cbn [negb].
    + ring.
    + now rewrite Rsum_cons.
  - intros x a Ha. destruct (a =? i)%nat; [ring|]. unfold cor_term.
    destruct (chk a); cbn [nsub nadd Rnum]; [rewrite cor_res_R|rewrite cor_def_R]; ring.
Qed.

Definition acol (x y : nat) : nat :=
  match x, y with
  | 0, 0 => 0 | 0, 1 | 1, 0 => 1 | 1, 1 => 2
  | 0, 2 | 2, 0 => 3 | 1, 2 | 2, 1 => 4 | _, _ => 5
  end%nat.

Lemma alpha_exact_lemma nvib (B I w : nat -> R) wl zm f3 cor i x :
  (i < nvib)%nat -> (x < 3)%nat -> (forall j, (j < nvib)%nat -> 0 < w j) ->
  (forall j, (j < nvib)%nat -> one_axis cor i j) ->
  exists term : nat -> R,
    alpha nvib B I w wl zm f3 cor i x =
    2 * B x ^ 2 / w i *
      (3 / 4 * (wl i (acol x 0) ^ 2 / I 0%nat + wl i (acol x 1) ^ 2 / I 1%nat
                + wl i (acol x 2) ^ 2 / I 2%nat)
       + Rsum (others i nvib) term
       + 86112 / 1000000 * Rsum (seq 0 nvib) (fun j => wl j (acol x x) * f3 i i j * w i / (w j * sqrt (w j))))
    /\ forall j, (j < nvib)%nat -> j <> i -> pair_ok (listed cor i j x) (zm i j x) (w i) (w j) (term j).
Proof.
  intros Hi Hx Hw O.
  exists (fun j => cor_term (check2 (make_icorol cor) i j x) (zm i j x) (w i) (w j)).
  split.
  - unfold alpha. cbv zeta.
    rewrite (valu2_R (fun j => check2 (make_icorol cor) i j x) (fun j => zm i j x)).
    rewrite !nsum_R, !range_0. cbn [seq].
    rewrite !Rsum_cons. change (Rsum [] _) with 0.
    assert (C : forall y, (y < 3)%nat -> (ioff (Nat.max x y + 1) + Nat.min x y)%nat = acol x y).
    { intros y Hy. destruct x as [|[|[|]]]; try lia; destruct y as [|[|[|]]]; try lia; reflexivity. }
    assert (D : (ioff (x + 2) - 1)%nat = acol x x).
    { destruct x as [|[|[|]]]; try lia; reflexivity. }
    rewrite !C, D by lia. unfold nsq, ALPHA_CONST, others.
    cbn [nmul nadd nsub ndiv Rnum npow32 nlit]. rewrite !nz_R.
    unfold Rdiv. ring_simplify. ring.
  - intros j Hj N. apply cor_term_ok; [now apply Hw|now apply Hw|].
    apply icorol_exact. now apply O.
Qed.

(** ** Coriolis constants *)
Lemma zmat_R natom (lxm : nat -> nat -> R) k l x :
  zmat natom lxm k l x =
  Rsum (seq 0 natom) (fun i =>
    match x with
    | O => lxm (cy i) k * lxm (cz i) l - lxm (cz i) k * lxm (cy i) l
    | S O => lxm (cz i) k * lxm (cx i) l - lxm (cx i) k * lxm (cz i) l
    | _ => lxm (cx i) k * lxm (cy i) l - lxm (cy i) k * lxm (cx i) l
    end).
Proof. destruct x as [|[|x]]; cbn [zmat]; rewrite nsum_R, range_0; reflexivity. Qed.

Lemma Rsum_le {A} (f g : A -> R) l : (forall a, In a l -> f a <= g a) -> Rsum l f <= Rsum l g.
Proof.
  induction l as [|a l IH]; intros E; [cbn; lra|].
  rewrite !Rsum_cons. apply Rplus_le_compat; [apply E; cbn; auto|].
  apply IH. intros b Hb. apply E. cbn. auto.
Qed.
Lemma Rsum_abs {A} (f : A -> R) l : Rabs (Rsum l f) <= Rsum l (fun a => Rabs (f a)).
Proof.
  induction l as [|a l IH]; [cbn; rewrite Rabs_R0; lra|].
  rewrite !Rsum_cons. eapply Rle_trans; [apply Rabs_triang|]. lra.
Qed.
Lemma Rsum_rows (f : nat -> R) natom :
  Rsum (seq 0 (3 * natom)) f = Rsum (seq 0 natom) (fun i => f (cx i) + f (cy i) + f (cz i)).
Proof.
  induction natom as [|n IH]; [reflexivity|].
  replace (3 * S n)%nat with (3 * n + 3)%nat by lia.
  rewrite seq_app, Rsum_app, IH. replace (S n) with (n + 1)%nat by lia.
  rewrite seq_app, Rsum_app. cbn [seq Nat.add]. rewrite !Rsum_cons. unfold cx, cy, cz.
  cbn [Rsum fold_right].
  replace (S (3 * n)) with (3 * n + 1)%nat by lia.
  replace (S (3 * n + 1)) with (3 * n + 2)%nat by lia. ring.
Qed.

Lemma zeta_lemma natom (lxm : nat -> nat -> R) k l x :
  zmat natom lxm k l x = - zmat natom lxm l k x /\
  zmat natom lxm k k x = 0 /\
  (Rsum (seq 0 (3 * natom)) (fun r => lxm r k ^ 2) = 1 ->
   Rsum (seq 0 (3 * natom)) (fun r => lxm r l ^ 2) = 1 ->
   Rabs (zmat natom lxm k l x) <= 1).
Proof.
  rewrite !zmat_R. split; [|split].
  - rewrite <- Rsum_opp. apply Rsum_ext. intros i _. destruct x as [|[|x]]; ring.
  - apply Rsum_0. intros i _. destruct x as [|[|x]]; ring.
  - rewrite !Rsum_rows. intros Nk Nl.
    eapply Rle_trans; [apply Rsum_abs|].
    apply Rle_trans with (Rsum (seq 0 natom) (fun i => / 2 *
      ((lxm (cx i) k ^ 2 + lxm (cy i) k ^ 2 + lxm (cz i) k ^ 2)
       + (lxm (cx i) l ^ 2 + lxm (cy i) l ^ 2 + lxm (cz i) l ^ 2)))).
    + apply Rsum_le. intros i _.
      assert (Q : forall a b c d e f, Rabs (a * d - b * c) <=
        / 2 * ((e ^ 2 + a ^ 2 + b ^ 2) + (f ^ 2 + c ^ 2 + d ^ 2))).
      { intros a b c d e f.
        pose proof (pow2_ge_0 e). pose proof (pow2_ge_0 f).
        pose proof (pow2_ge_0 (a - d)). pose proof (pow2_ge_0 (a + d)).
        pose proof (pow2_ge_0 (b - c)). pose proof (pow2_ge_0 (b + c)).
        unfold Rabs. destruct (Rcase_abs _); lra. }
      destruct x as [|[|x]].
      * eapply Rle_trans; [apply (Q _ _ _ _ (lxm (cx i) k) (lxm (cx i) l))|]. lra.
      * eapply Rle_trans; [apply (Q _ _ _ _ (lxm (cy i) k) (lxm (cy i) l))|]. lra.
      * eapply Rle_trans; [apply (Q _ _ _ _ (lxm (cz i) k) (lxm (cz i) l))|]. lra.
    + rewrite Rsum_scal, Rsum_plus, Nk, Nl. lra.
Qed.

(** ** averaged rotational constants of asymmetric tops *)
Lemma ofold_sum {A} (f : R -> A -> option R) (g : A -> R) l : forall x,
  (forall y a, In a l -> f y a = Some (y + g a)) -> ofold f l x = Some (x + Rsum l g).
Proof.
  induction l as [|a l IH]; intros x E; [cbn; f_equal; lra|].
  cbn [ofold]. rewrite E by (cbn; auto). rewrite IH by (intros; apply E; cbn; auto).
  rewrite Rsum_cons. f_equal. lra.
Qed.

(** Sum over the modes of alpha times (v + 1/2) *)
Definition vib_sum (n : nat) (al : nat -> R) (v : list nat) : R :=
  Rsum (seq 0 n) (fun i => al i * (INR (nth i v 0%nat) + / 2)).

Lemma nth_error_nth_lt {A} (l : list A) i d : (i < length l)%nat -> nth_error l i = Some (nth i l d).
Proof.
  intros H. destruct (nth_error l i) eqn:E; [|apply nth_error_None in E; lia].
  f_equal. symmetry. now apply nth_error_nth.
Qed.

Lemma alphaa_sum_R n al v : length v = n ->
  alphaa_sum (singles n) al (I1st v) = Some (vib_sum n al v).
Proof.
  intros L. unfold alphaa_sum, vib_sum. rewrite n1dm_singles, range_0, nz_R.
  rewrite (ofold_sum _ (fun i => al i * (INR (nth i v 0%nat) + / 2))).
  - f_equal. lra.
  - intros y a Ha. apply in_seq in Ha.
    unfold singles. rewrite nth_error_map, nth_error_seq by lia. cbn [option_map obind Nat.add].
    rewrite (nth_error_nth_lt v a 0%nat) by lia. cbn [obind].
    change (@nadd R Rnum (nnat (nth a v 0%nat)) (nlit 1 2)) with (@half R Rnum (nth a v 0%nat)).
    rewrite half_R. reflexivity.
Qed.

Lemma ofold_rows {A B} (f : list B -> A -> option (list B)) (g : A -> B) l : forall acc,
  (forall rows a, In a l -> f rows a = Some (rows ++ [g a])) ->
  ofold f l acc = Some (acc ++ map g l).
Proof.
  induction l as [|a l IH]; intros acc E; [cbn; now rewrite app_nil_r|].
  cbn [ofold]. rewrite E by (cbn; auto). rewrite IH by (intros; apply E; cbn; auto).
  cbn [map]. now rewrite <- app_assoc.
Qed.

Lemma vib_sum_ground n al i : (i < n)%nat ->
  vib_sum n al (unit1 n i 1) - vib_sum n al (repeat 0%nat n) = al i.
Proof.
  intros Hi. unfold vib_sum. rewrite <- Rsum_minus.
  rewrite (Rsum_ext _ (fun j => if (j =? i)%nat then al j else 0)).
  - apply (Rsum_single al); [apply seq_NoDup|apply in_seq; lia].
  - intros j Hj. apply in_seq in Hj.
    assert (nth j (repeat 0%nat n) 0%nat = 0%nat) as -> by apply nth_repeat_0.
    unfold unit1. rewrite nth_map_seq by lia.
    destruct (j =? i)%nat; cbn [INR]; ring.
Qed.

Section Rota.
  Variables (n : nat) (B I w : nat -> R) (wl : nat -> nat -> R)
    (zm f3 : nat -> nat -> nat -> R) (cor : list (nat * nat * nat)).
  Let al x i := alpha n B I w wl zm f3 cor i x.

  Definition const_row (v : list nat) : R * R * R :=
    (B 0%nat + vib_sum n (al 0%nat) v, B 1%nat + vib_sum n (al 1%nat) v,
     B 2%nat + vib_sum n (al 2%nat) v).

  Lemma alphaa_R vs : (forall v, In v vs -> length v = n) -> (n + 1 <= length vs)%nat ->
    alphaa n B I w wl zm f3 (singles n) (map I1st vs) cor =
    Some (map (fun m => const_row (nth m vs [])) (seq 0 (n + 1))).
  Proof.
    intros L Hn. unfold alphaa. rewrite range_0.
    rewrite (ofold_rows _ (fun m => const_row (nth m vs []))); [reflexivity|].
    intros rows m Hm. apply in_seq in Hm. cbn [Nat.add] in Hm.
    rewrite nth_error_map, (nth_error_nth_lt vs m []) by lia. cbn [option_map obind].
    assert (length (nth m vs []) = n) as Lm by (apply L, nth_In; lia).
    rewrite !alphaa_sum_R by exact Lm. reflexivity.
  Qed.

  Definition const_rot (b4 b5 b6 : R) (v : list nat) : rot R :=
    mk_rot (I1st v) (b6 + vib_sum n (al 0%nat) v) (b4 + vib_sum n (al 1%nat) v)
           (b5 + vib_sum n (al 2%nat) v).

  Lemma rota_R vs nderiv b4 b5 b6 : (n + 1 <= length vs)%nat -> (2 < nderiv)%Z ->
    rota B nderiv (map (fun m => const_row (nth m vs [])) (seq 0 (n + 1))) (map I1st vs) b4 b5 b6
    = Some (map (fun m => const_rot b4 b5 b6 (nth m vs [])) (seq 0 (n + 1))).
  Proof.
    intros Hn Hd. unfold rota. cbn [princ_cart IPTOC ICTOP nth_error obind].
    apply Z.ltb_lt in Hd. rewrite Hd. cbn [negb].
    rewrite map_length, seq_length, range_0.
    rewrite (ofold_rows _ (fun m => const_rot b4 b5 b6 (nth m vs []))); [reflexivity|].
    intros rows m Hm. apply in_seq in Hm. cbn [Nat.add] in Hm.
    rewrite nth_error_map_seq by lia. rewrite nth_error_map, (nth_error_nth_lt vs m []) by lia.
    cbn [option_map obind]. unfold const_row, const_rot, vibr, at3, upd1, row3.
    cbn [fst snd Nat.eqb nadd nsub Rnum]. do 3 f_equal. f_equal; ring.
  Qed.

End Rota.

Lemma rota_short_lemma (F : Type) (N : Num F) (B : nat -> F) rows states nderiv b4 b5 b6 :
  rows <> [] -> (nderiv <= 2)%Z -> rota B nderiv rows states b4 b5 b6 = None.
Proof.
  intros Hne Hd. unfold rota. cbn [princ_cart IPTOC ICTOP nth_error obind].
  assert ((2 <? nderiv)%Z = false) as -> by (apply Z.ltb_ge; lia).
  destruct rows as [|a rows]; [contradiction|]. reflexivity.
Qed.


Lemma rota_lemma n (B I w : nat -> R) wl zm f3 cor nderiv b4 b5 b6 :
  (2 < nderiv)%Z ->
  exists t rows out,
    restst_tables n (ioff (n + 1)) (singles n) = Some t /\
    alphaa n B I w wl zm f3 (singles n) (t_states t) cor = Some rows /\
    rota B nderiv rows (t_states t) b4 b5 b6 = Some out /\
    length out = (n + 1)%nat /\
    (forall m r, nth_error out m = Some r ->
       exists v, nth_error (t_states t) m = Some (I1st v) /\ length v = n /\
         rot_state r = I1st v /\
         rot_a r = b6 + Rsum (seq 0 n) (fun i =>
                     alpha n B I w wl zm f3 cor i 0 * (INR (nth i v 0%nat) + / 2)) /\
         rot_b r = b4 + Rsum (seq 0 n) (fun i =>
                     alpha n B I w wl zm f3 cor i 1 * (INR (nth i v 0%nat) + / 2)) /\
         rot_c r = b5 + Rsum (seq 0 n) (fun i =>
                     alpha n B I w wl zm f3 cor i 2 * (INR (nth i v 0%nat) + / 2))) /\
    exists g, nth_error out 0 = Some g /\ rot_state g = I1st (repeat 0%nat n) /\
      forall i, (i < n)%nat -> exists f, nth_error out (i + 1) = Some f /\
        rot_state f = I1st (unit1 n i 1) /\
        rot_a f - rot_a g = alpha n B I w wl zm f3 cor i 0 /\
        rot_b f - rot_b g = alpha n B I w wl zm f3 cor i 1 /\
        rot_c f - rot_c g = alpha n B I w wl zm f3 cor i 2.
Proof.
  intros Hd. destruct (states_asym_lemma n) as (t & vs & E & Hs & _ & Hin & Hl & Hv).
  exists t. rewrite Hs.
  assert (Ln : (n + 1 <= length vs)%nat) by (rewrite Hl; lia).
  assert (Lv : forall v, In v vs -> length v = n) by (intros v Q; now apply Hin in Q).
  eexists. eexists. split; [exact E|].
  split; [apply alphaa_R; assumption|]. split; [apply rota_R; assumption|].
  split; [now rewrite map_length, seq_length|]. split.
  - intros m r Hm.
    assert (Q : (m < n + 1)%nat).
    { assert (nth_error (map (fun m => const_rot n B I w wl zm f3 cor b4 b5 b6 (nth m vs [])) (seq 0 (n + 1))) m <> None) as Q by congruence.
      apply nth_error_Some in Q. now rewrite map_length, seq_length in Q. }
    rewrite nth_error_map_seq in Hm by exact Q. injection Hm as <-.
    exists (nth m vs []). rewrite nth_error_map, (nth_error_nth_lt vs m []) by lia.
    split; [reflexivity|]. split; [apply Lv, nth_In; lia|]. repeat split; reflexivity.
  - assert (V0 : nth 0 vs [] = repeat 0%nat n) by now rewrite Hv.
    assert (V1 : forall i, (i < n)%nat -> nth (i + 1) vs [] = unit1 n i 1).
    { intros i Hi. rewrite Hv, Nat.add_1_r. cbn [app nth].
      rewrite app_nth1 by (rewrite map_length, seq_length; lia).
      now rewrite nth_map_seq. }
    eexists. rewrite nth_error_map_seq by lia. split; [reflexivity|].
    rewrite V0. split; [reflexivity|].
    intros i Hi. eexists. rewrite nth_error_map_seq by lia. split; [reflexivity|].
    rewrite V1 by exact Hi. split; [reflexivity|].
    unfold const_rot. cbn [rot_a rot_b rot_c].
    repeat split;
      match goal with |- ?b + vib_sum n ?f ?u - (?b + vib_sum n ?f ?v) = _ =>
        pose proof (vib_sum_ground n f i Hi); cbn beta in *; lra end.
Qed.

(** ** symmetric tops *)
Section Upd.
  Context {A : Type}.
  Lemma fold_upd2_miss (key : nat -> nat) x (g : nat -> A) l : forall al a b,
    (forall kk, In kk l -> key kk <> a) \/ b <> x ->
    fold_left (fun al kk => upd2 al (key kk) x (g kk)) l al a b = al a b.
  Proof.
    induction l as [|k l IH]; intros al a b E; [reflexivity|].
    cbn [fold_left]. rewrite IH.
    - unfold upd2. destruct (Nat.eqb_spec a (key k)), (Nat.eqb_spec b x); cbn; try reflexivity.
      destruct E as [E|E]; [|congruence]. exfalso. apply (E k); cbn; auto.
    - destruct E as [E|E]; [left|right; exact E]. intros kk Hk. apply E. cbn. auto.
  Qed.
  Lemma fold_upd2_hit (key : nat -> nat) x (g : nat -> A) l : forall al kk,
    NoDup l -> In kk l -> (forall i j, In i l -> In j l -> key i = key j -> i = j) ->
    fold_left (fun al kk => upd2 al (key kk) x (g kk)) l al (key kk) x = g kk.
  Proof.
    induction l as [|k l IH]; intros al kk ND Hk Inj; [destruct Hk|].
    cbn [fold_left]. inversion ND; subst. destruct Hk as [<-|Hk].
    - rewrite fold_upd2_miss.
      + unfold upd2. now rewrite !Nat.eqb_refl.
      + left. intros i Hi E. apply Inj in E; [|cbn; auto|cbn; auto]. subst. contradiction.
    - apply IH; auto. intros i j Hi Hj. apply Inj; cbn; auto.
  Qed.
End Upd.

Section SymModes.
  Variables (nvib : nat) (modes : list mode).
  Hypothesis Hpart : Permutation.Permutation (flat_map members modes) (seq 0 nvib).
  Let n1 := n1dm modes.
  Let n2 := n2dm modes.

  Lemma map_m1 : map (m1 modes) (seq 0 n1) = flat_map get1 modes.
  Proof.
    unfold n1, m1. rewrite n1dm_eq, i1mode_eq. generalize (flat_map get1 modes) as l.
    intros l. apply list_ext; [now rewrite map_length, seq_length|].
    intros i Hi. rewrite map_length, seq_length in Hi.
    rewrite nth_error_map_seq by exact Hi. symmetry. now apply nth_error_nth_lt.
  Qed.
  Lemma map_m2 : map (m2 modes) (seq 0 n2) = flat_map get2 modes.
  Proof.
    unfold n2, m2. rewrite n2dm_eq, i2mode_eq. generalize (flat_map get2 modes) as l.
    intros l. apply list_ext; [now rewrite map_length, seq_length|].
    intros i Hi. rewrite map_length, seq_length in Hi.
    rewrite nth_error_map_seq by exact Hi. symmetry. now apply nth_error_nth_lt.
  Qed.
  Lemma nodup_all : NoDup (flat_map get1 modes ++ flat_map (fun '(a, b) => [a; b]) (flat_map get2 modes)).
  Proof.
    pose proof (part_nodup nvib modes Hpart) as H. rewrite i1mode_eq, i2mode_eq in H.
    rewrite app_assoc in H. now apply NoDup_app_inv in H.
  Qed.
  Lemma m1_inj i j : (i < n1)%nat -> (j < n1)%nat -> m1 modes i = m1 modes j -> i = j.
  Proof.
    intros Hi Hj E. pose proof nodup_all as H. apply NoDup_app_inv in H as (H & _).
    rewrite <- map_m1 in H. apply (NoDup_nth_error _) with (i := i) (j := j) in H; auto.
    - rewrite map_length, seq_length. exact Hi.
    - rewrite !nth_error_map_seq by assumption. now rewrite E.
  Qed.
  Lemma deg_fst_inj p q : In p (flat_map get2 modes) -> In q (flat_map get2 modes) ->
    fst p = fst q -> p = q.
  Proof.
    pose proof nodup_all as H. apply NoDup_app_inv in H as (_ & H & _). revert H.
    generalize (flat_map get2 modes) as l. induction l as [|[a b] l IH]; [intros _ []|].
    cbn [flat_map app]. intros ND. inversion ND as [|? ? Na ND']; subst.
    inversion ND' as [|? ? Nb ND'']; subst.
    assert (Fr : forall c d, In (c, d) l -> c <> a).
    { intros c d Hc ->. apply Na. right. apply in_flat_map. exists (a, d). cbn. auto. }
    intros [<-|Hp] [<-|Hq] E; [reflexivity| | |now apply IH].
    - destruct q as [c d]. cbn in E. subst c. exfalso. eapply Fr; eauto.
    - destruct p as [c d]. cbn in E. subst c. exfalso. eapply Fr; eauto.
  Qed.
  Lemma nodup_deg : NoDup (flat_map get2 modes).
  Proof.
    pose proof nodup_all as H. apply NoDup_app_inv in H as (_ & H & _). revert H.
    generalize (flat_map get2 modes) as l. induction l as [|[a b] l IH]; [constructor|].
    cbn [flat_map app]. intros ND. inversion ND as [|? ? Na ND']; subst.
    inversion ND' as [|? ? Nb ND'']; subst. constructor; [|now apply IH].
    intros Hc. apply Na. right. apply in_flat_map. exists (a, b). cbn. auto.
  Qed.
  Lemma m2_in i : (i < n2)%nat -> In (m2 modes i) (flat_map get2 modes).
  Proof. intros Hi. rewrite <- map_m2. apply in_map, in_seq. lia. Qed.
  Lemma m1_in i : (i < n1)%nat -> In (m1 modes i) (flat_map get1 modes).
  Proof. intros Hi. rewrite <- map_m1. apply in_map, in_seq. lia. Qed.
  Lemma m2_inj i j : (i < n2)%nat -> (j < n2)%nat -> fst (m2 modes i) = fst (m2 modes j) -> i = j.
  Proof.
    intros Hi Hj E. apply deg_fst_inj in E; [|now apply m2_in|now apply m2_in].
    pose proof nodup_deg as H.
    rewrite <- map_m2 in H. apply (NoDup_nth_error _) with (i := i) (j := j) in H; auto.
    - rewrite map_length, seq_length. exact Hi.
    - rewrite !nth_error_map_seq by assumption. now rewrite E.
  Qed.
  Lemma m1_m2 i j : (i < n1)%nat -> (j < n2)%nat -> m1 modes i <> fst (m2 modes j).
  Proof.
    intros Hi Hj E. pose proof nodup_all as H. apply NoDup_app_inv in H as (_ & _ & H).
    apply (H (m1 modes i)); [now apply m1_in|].
    apply in_flat_map. exists (m2 modes j). split; [now apply m2_in|].
    rewrite E. destruct (m2 modes j). cbn. auto.
  Qed.

End SymModes.

Section SymAlpha.
  Variables (nvib : nat) (modes : list mode) (B I w : nat -> R) (wl : nat -> nat -> R)
    (zm f3 : nat -> nat -> nat -> R) (cor : list (nat * nat * nat)).
  Hypothesis Hpart : Permutation.Permutation (flat_map members modes) (seq 0 nvib).
  Let n1 := n1dm modes.
  Let n2 := n2dm modes.
  Variables (r : rotor) (iaib ibib : nat).
  Let ic := make_icorol cor.
  Let al := make_alpha B I w wl zm f3 r modes ic 2 1 0 5 iaib ibib 1.

  Lemma make_alpha_cells :
    (forall kk, (kk < n1)%nat ->
       al (m1 modes kk) 2%nat = alpha_a_nondeg B I w wl zm f3 modes ic 2 5 (m1 modes kk) /\
       al (m1 modes kk) 1%nat = alpha_b_nondeg B I w wl zm f3 modes ic 1 0 ibib 1 (m1 modes kk)) /\
    (forall kk, (kk < n2)%nat ->
       al (fst (m2 modes kk)) 2%nat = alpha_a_deg B I w wl zm f3 modes ic 2 1 5 iaib kk /\
       al (fst (m2 modes kk)) 1%nat = alpha_b_deg B I w wl zm f3 r modes ic 2 1 0 iaib ibib kk).
  Proof.
    assert (R1 : forall k, In k (range 0 n1) <-> (k < n1)%nat) by (intros; rewrite in_range; lia).
    assert (R2 : forall k, In k (range 0 n2) <-> (k < n2)%nat) by (intros; rewrite in_range; lia).
    split; intros kk Hk; split; unfold al, make_alpha; fold n1 n2; cbv zeta.
    - rewrite fold_upd2_miss by (right; discriminate).
      rewrite fold_upd2_miss by (right; discriminate).
      rewrite fold_upd2_miss.
      2:{ left. intros j Hj E. apply R2 in Hj. symmetry in E. revert E. now apply (m1_m2 nvib modes Hpart). }
      apply (fold_upd2_hit (m1 modes) 2 (fun kk => alpha_a_nondeg B I w wl zm f3 modes ic 2 5 (m1 modes kk)));
        [apply range_nodup|now apply R1|].
      intros i j Hi Hj. apply R1 in Hi, Hj. now apply (m1_inj nvib modes Hpart).
    - rewrite fold_upd2_miss.
      2:{ left. intros j Hj E. apply R2 in Hj. symmetry in E. revert E. now apply (m1_m2 nvib modes Hpart). }
      apply (fold_upd2_hit (m1 modes) 1 (fun kk => alpha_b_nondeg B I w wl zm f3 modes ic 1 0 ibib 1 (m1 modes kk)));
        [apply range_nodup|now apply R1|].
      intros i j Hi Hj. apply R1 in Hi, Hj. now apply (m1_inj nvib modes Hpart).
    - rewrite fold_upd2_miss by (right; discriminate).
      rewrite fold_upd2_miss by (right; discriminate).
      apply (fold_upd2_hit (fun kk => fst (m2 modes kk)) 2
        (fun kk => alpha_a_deg B I w wl zm f3 modes ic 2 1 5 iaib kk));
        [apply range_nodup|now apply R2|].
      intros i j Hi Hj. apply R2 in Hi, Hj. now apply (m2_inj nvib modes Hpart).
    - apply (fold_upd2_hit (fun kk => fst (m2 modes kk)) 1
        (fun kk => alpha_b_deg B I w wl zm f3 r modes ic 2 1 0 iaib ibib kk));
        [apply range_nodup|now apply R2|].
      intros i j Hi Hj. apply R2 in Hi, Hj. now apply (m2_inj nvib modes Hpart).
  Qed.
End SymAlpha.

(** the two sums over partner modes of the symmetric-top loops *)
Definition nondeg (modes : list mode) : list nat := flat_map get1 modes.
Definition degs (modes : list mode) : list (nat * nat) := flat_map get2 modes.
Definition but (k : nat) (l : list nat) : list nat := filter (fun j => negb (j =? k)%nat) l.
Definition butd (k : nat) (l : list (nat * nat)) : list (nat * nat) :=
  filter (fun p => negb (fst p =? k)%nat) l.

Lemma Rsum_filter {A} (p : A -> bool) (f : A -> R) l :
  Rsum l (fun a => if p a then 0 else f a) = Rsum (filter (fun a => negb (p a)) l) f.
Proof.
  induction l as [|a l IH]; [reflexivity|]. rewrite Rsum_cons, IH. cbn [filter].
  destruct (p a); cbn [negb]; [ring|now rewrite Rsum_cons].
Qed.

Section SymExact.
  Variables (nvib : nat) (modes : list mode) (B I w : nat -> R) (wl : nat -> nat -> R)
    (zm f3 : nat -> nat -> nat -> R) (cor : list (nat * nat * nat)).
  Hypothesis Hpart : Permutation.Permutation (flat_map members modes) (seq 0 nvib).
  Hypothesis Hw : forall j, (j < nvib)%nat -> 0 < w j.
  Hypothesis Hone : forall i j, (i < nvib)%nat -> (j < nvib)%nat -> one_axis cor i j.
  Let ic := make_icorol cor.

  Lemma bc_step_R k acc j :
    bc_step w zm ic 1 0 k acc j =
    acc + (cor_term (check2 ic j k 0) (zm k j 0%nat) (w k) (w j)
           + cor_term (check2 ic j k 1) (zm k j 1%nat) (w k) (w j)).
  Proof.
    unfold bc_step, cor_term. rewrite !cor_res_R, !cor_def'_R.
    destruct (check2 ic j k 0), (check2 ic j k 1); cbn [nadd nsub Rnum]; ring.
  Qed.

  Lemma sum_m1 (f : nat -> R) : Rsum (seq 0 (n1dm modes)) (fun jj => f (m1 modes jj)) = Rsum (nondeg modes) f.
  Proof. unfold nondeg. rewrite <- map_m1. now rewrite Rsum_map. Qed.
  Lemma sum_m2 (f : nat * nat -> R) : Rsum (seq 0 (n2dm modes)) (fun jj => f (m2 modes jj)) = Rsum (degs modes) f.
  Proof. unfold degs. rewrite <- map_m2. now rewrite Rsum_map. Qed.
  Lemma sum_m2_but kk (f : nat * nat -> R) : (kk < n2dm modes)%nat ->
    Rsum (seq 0 (n2dm modes)) (fun jj => if (jj =? kk)%nat then 0 else f (m2 modes jj))
    = Rsum (butd (fst (m2 modes kk)) (degs modes)) f.
  Proof.
    intros Hk. unfold butd. rewrite <- (Rsum_filter (fun p => fst p =? fst (m2 modes kk))%nat).
    rewrite <- sum_m2. apply Rsum_ext. intros jj Hj. apply in_seq in Hj.
    destruct (Nat.eqb_spec jj kk) as [->|N]; [now rewrite Nat.eqb_refl|].
    destruct (Nat.eqb_spec (fst (m2 modes jj)) (fst (m2 modes kk))) as [E|E]; [|reflexivity].
    apply (m2_inj nvib modes Hpart) in E; [contradiction|lia|exact Hk].
  Qed.

  Definition cubic_sum (col k : nat) : R :=
    86112 / 1000000 * Rsum (nondeg modes) (fun j => wl j col * f3 j k k * w k / (w j * sqrt (w j))).
  Lemma cubic_a_R iaia k :
    nmul ALPHA_CONST (cubic_a w wl f3 modes iaia k) = cubic_sum iaia k.
  Proof.
    unfold cubic_a, cubic_sum. rewrite nsum_R, range_0, <- sum_m1. reflexivity.
  Qed.
  Lemma cubic_b_R ibib k :
    nmul ALPHA_CONST (cubic_b w wl f3 modes ibib k) = cubic_sum ibib k.
  Proof.
    unfold cubic_b, cubic_sum. rewrite nsum_R, range_0, <- sum_m1.
    cbn [nmul ALPHA_CONST nlit Rnum]. f_equal. apply Rsum_ext. intros j _.
    cbn [nmul ndiv Rnum npow32]. unfold Rdiv. ring.
  Qed.

  Variables (r : rotor) (iaib ibib : nat).
  Let al := make_alpha B I w wl zm f3 r modes ic 2 1 0 5 iaib ibib 1.

  Definition bc_ok (tb tc : nat -> R) (k j : nat) : Prop :=
    pair_ok (listed cor j k 0) (zm k j 0%nat) (w k) (w j) (tc j) /\
    pair_ok (listed cor j k 1) (zm k j 1%nat) (w k) (w j) (tb j).

  Lemma members_lt k m : In m modes -> In k (members m) -> (k < nvib)%nat.
  Proof.
    intros Hm Hk. assert (In k (seq 0 nvib)) as Q.
    { eapply Permutation.Permutation_in; [exact Hpart|]. apply in_flat_map. now exists m. }
    apply in_seq in Q. lia.
  Qed.
  Lemma in_nondeg_lt k : In k (nondeg modes) -> (k < nvib)%nat.
  Proof.
    intros H. unfold nondeg in H. apply in_flat_map in H as (m & Hm & Hk).
    apply (members_lt k m Hm). destruct m; cbn in *; intuition.
  Qed.
  Lemma in_degs_lt p : In p (degs modes) -> (fst p < nvib)%nat /\ (snd p < nvib)%nat.
  Proof.
    intros H. unfold degs in H.
    apply in_flat_map in H as (m & Hm & Hk).
    split; apply (members_lt _ m Hm); destruct m; cbn in *; intuition subst; cbn; auto.
  Qed.

  Lemma sym_alpha_exact_lemma :
    (forall k, In k (nondeg modes) ->
      (exists t,
        al k 2%nat = 2 * B 2%nat ^ 2 / w k *
          (3 / 4 * (wl k 5%nat ^ 2 / I 2%nat) + Rsum (but k (nondeg modes)) t + cubic_sum 5 k) /\
        forall j, In j (nondeg modes) -> j <> k ->
          pair_ok (listed cor j k 2) (zm j k 2%nat) (w k) (w j) (t j)) /\
      (exists tb tc,
        al k 1%nat = 2 * B 1%nat ^ 2 / w k *
          (3 / 4 * ((wl k ibib ^ 2 + wl k 1%nat ^ 2) / I 1%nat)
           + Rsum (degs modes) (fun p => tb (fst p) + tc (fst p)) + cubic_sum ibib k) /\
        forall p, In p (degs modes) -> bc_ok tb tc k (fst p))) /\
    (forall k k', In (k, k') (degs modes) ->
      (exists t,
        al k 2%nat = 2 * B 2%nat ^ 2 / w k *
          (3 / 4 * (wl k iaib ^ 2 / I 1%nat) + Rsum (butd k (degs modes)) t + cubic_sum 5 k) /\
        forall j1 j2, In (j1, j2) (degs modes) -> j1 <> k ->
          pair_ok (listed cor j1 k 2) (zm k j2 2%nat) (w k) (w j1) (t (j1, j2))) /\
      (exists tb tc,
        al k 1%nat = 2 * B 1%nat ^ 2 / w k *
          (match r with
           | Linear => 0
           | _ => 3 / 8 * (2 * wl k ibib ^ 2 / I 1%nat + wl k iaib ^ 2 / I 2%nat)
                  + Rsum (butd k (degs modes)) (fun p => tb (fst p) + tc (fst p))
           end
           + / 2 * Rsum (nondeg modes) (fun j => tb j + tc j) + cubic_sum ibib k) /\
        (forall p, In p (degs modes) -> fst p <> k -> bc_ok tb tc k (fst p)) /\
        (forall j, In j (nondeg modes) -> bc_ok tb tc k j))).
  Proof.
    destruct (make_alpha_cells nvib modes B I w wl zm f3 cor Hpart r iaib ibib) as (C1 & C2).
    assert (T : forall k j x z, (k < nvib)%nat -> (j < nvib)%nat ->
       pair_ok (listed cor j k x) z (w k) (w j) (cor_term (check2 ic j k x) z (w k) (w j))).
    { intros k j x z Hk Hj. apply cor_term_ok; [now apply Hw|now apply Hw|].
      apply icorol_exact. now apply Hone. }
    split.
    - intros k Hk. pose proof (in_nondeg_lt k Hk) as Lk.
      unfold nondeg in Hk. rewrite <- map_m1 in Hk. apply in_map_iff in Hk as (kk & <- & Hkk).
      apply in_seq in Hkk. destruct (C1 kk) as (E2 & E1); [lia|].
      fold ic in E1, E2. fold al in E1, E2. set (k := m1 modes kk) in *.
      split.
      + exists (fun j => cor_term (check2 ic j k 2) (zm j k 2%nat) (w k) (w j)). split.
        * rewrite E2. unfold alpha_a_nondeg. cbv zeta.
          rewrite cubic_a_R, nz_R.
          rewrite (fold_plus_R _ (fun jj => let j := m1 modes jj in if Nat.eqb j k then 0
            else cor_term (check2 ic j k 2) (zm j k 2%nat) (w k) (w j))).
          2:{ intros x a Ha. cbv zeta. destruct (m1 modes a =? k)%nat; [ring|]. unfold cor_term.
              destruct (check2 ic (m1 modes a) k 2); cbn [nsub nadd Rnum];
                [rewrite cor_res_R|rewrite cor_def_R]; ring. }
          rewrite range_0. cbv zeta.
          rewrite (sum_m1 (fun j => if Nat.eqb j k then 0
            else cor_term (check2 ic j k 2) (zm j k 2%nat) (w k) (w j))), Rsum_filter.
          unfold nsq, but. cbn [nmul nadd nsub ndiv Rnum nlit]. rewrite !nz_R.
          unfold Rdiv. ring.
        * intros j Hj N. apply T; [exact Lk|now apply in_nondeg_lt].
      + exists (fun j => cor_term (check2 ic j k 1) (zm k j 1%nat) (w k) (w j)),
               (fun j => cor_term (check2 ic j k 0) (zm k j 0%nat) (w k) (w j)). split.
        * rewrite E1. unfold alpha_b_nondeg. cbv zeta.
          rewrite cubic_b_R, nz_R.
          rewrite (fold_plus_R _ (fun jj => let p := m2 modes jj in
             cor_term (check2 ic (fst p) k 1) (zm k (fst p) 1%nat) (w k) (w (fst p))
             + cor_term (check2 ic (fst p) k 0) (zm k (fst p) 0%nat) (w k) (w (fst p)))).
          2:{ intros x a Ha. fold ic. rewrite bc_step_R. cbv zeta. ring. }
          rewrite range_0. cbv zeta.
          rewrite (sum_m2 (fun p => cor_term (check2 ic (fst p) k 1) (zm k (fst p) 1%nat) (w k) (w (fst p))
             + cor_term (check2 ic (fst p) k 0) (zm k (fst p) 0%nat) (w k) (w (fst p)))).
          unfold nsq. cbn [nmul nadd nsub ndiv Rnum nlit]. rewrite !nz_R.
          unfold Rdiv. ring.
        * intros p Hp. apply in_degs_lt in Hp as (Hp & _). split; now apply T.
    - intros k0 k' Hk. pose proof (in_degs_lt _ Hk) as (Lk & _). cbn [fst] in Lk.
      unfold degs in Hk. rewrite <- map_m2 in Hk. apply in_map_iff in Hk as (kk & Ek & Hkk).
      apply in_seq in Hkk. destruct (C2 kk) as (E2 & E1); [lia|].
      fold ic in E1, E2. fold al in E1, E2.
      assert (Hkk' : (kk < n2dm modes)%nat) by lia.
      assert (Ef : fst (m2 modes kk) = k0) by now rewrite Ek.
      split.
      + exists (fun p => cor_term (check2 ic (fst p) k0 2) (zm k0 (snd p) 2%nat) (w k0) (w (fst p))). split.
        * rewrite <- Ef at 1. rewrite E2. unfold alpha_a_deg. rewrite Ef. cbv zeta.
          rewrite cubic_a_R, nz_R.
          rewrite (fold_plus_R _ (fun jj => if Nat.eqb jj kk then 0
            else (fun p => cor_term (check2 ic (fst p) k0 2) (zm k0 (snd p) 2%nat) (w k0) (w (fst p))) (m2 modes jj))).
          2:{ intros x a Ha. destruct (m2 modes a) as [j1 j2]. cbn [fst snd].
              destruct (a =? kk)%nat; [ring|]. unfold cor_term. fold ic.
              destruct (check2 ic j1 k0 2); cbn [nsub nadd Rnum];
                [rewrite cor_res_R|rewrite cor_def_R]; ring. }
          rewrite range_0, (sum_m2_but kk (fun p => cor_term (check2 ic (fst p) k0 2) (zm k0 (snd p) 2%nat) (w k0) (w (fst p)))), Ef by exact Hkk'.
          unfold nsq. cbn [nmul nadd nsub ndiv Rnum nlit]. rewrite !nz_R.
          unfold Rdiv. ring.
        * intros j1 j2 Hj N. apply in_degs_lt in Hj as (Hj & _). now apply T.
      + exists (fun j => cor_term (check2 ic j k0 1) (zm k0 j 1%nat) (w k0) (w j)),
               (fun j => cor_term (check2 ic j k0 0) (zm k0 j 0%nat) (w k0) (w j)). split.
        * rewrite <- Ef at 1. rewrite E1. unfold alpha_b_deg. rewrite Ef. cbv zeta.
          rewrite cubic_b_R.
          assert (Q1 : fold_left (fun acc jj => bc_step w zm ic 1 0 k0 acc (m1 modes jj))
             (range 0 (n1dm modes)) (nz 0) = Rsum (nondeg modes) (fun j =>
              cor_term (check2 ic j k0 1) (zm k0 j 1%nat) (w k0) (w j) +
              cor_term (check2 ic j k0 0) (zm k0 j 0%nat) (w k0) (w j))).
          { rewrite nz_R, (fold_plus_R _ (fun jj => let j := m1 modes jj in
              cor_term (check2 ic j k0 1) (zm k0 j 1%nat) (w k0) (w j) +
              cor_term (check2 ic j k0 0) (zm k0 j 0%nat) (w k0) (w j))).
            - rewrite range_0. cbv zeta. rewrite (sum_m1 (fun j =>
              cor_term (check2 ic j k0 1) (zm k0 j 1%nat) (w k0) (w j) +
              cor_term (check2 ic j k0 0) (zm k0 j 0%nat) (w k0) (w j))). ring.
            - intros x a Ha. rewrite bc_step_R. cbv zeta. ring. }
          assert (Q2 : fold_left (fun acc jj => if (jj =? kk)%nat then acc
               else bc_step w zm ic 1 0 k0 acc (fst (m2 modes jj)))
             (range 0 (n2dm modes)) (nz 0) = Rsum (butd k0 (degs modes)) (fun p =>
              cor_term (check2 ic (fst p) k0 1) (zm k0 (fst p) 1%nat) (w k0) (w (fst p)) +
              cor_term (check2 ic (fst p) k0 0) (zm k0 (fst p) 0%nat) (w k0) (w (fst p)))).
          { rewrite nz_R, (fold_plus_R _ (fun jj => if Nat.eqb jj kk then 0 else (fun p =>
              cor_term (check2 ic (fst p) k0 1) (zm k0 (fst p) 1%nat) (w k0) (w (fst p)) +
              cor_term (check2 ic (fst p) k0 0) (zm k0 (fst p) 0%nat) (w k0) (w (fst p))) (m2 modes jj))).
            - rewrite range_0, (sum_m2_but kk (fun p =>
              cor_term (check2 ic (fst p) k0 1) (zm k0 (fst p) 1%nat) (w k0) (w (fst p)) +
              cor_term (check2 ic (fst p) k0 0) (zm k0 (fst p) 0%nat) (w k0) (w (fst p)))), Ef by exact Hkk'. ring.
            - intros x a Ha. destruct (a =? kk)%nat; [ring|]. rewrite bc_step_R. ring. }
          rewrite Q1. destruct r; rewrite ?Q2;
          unfold nsq; cbn [nmul nadd nsub ndiv Rnum nlit]; rewrite !nz_R;
          replace (375 / 1000) with (3 / 8) by lra; unfold Rdiv; ring.
        * split.
          -- intros p Hp N. apply in_degs_lt in Hp as (Hp & _). split; now apply T.
          -- intros j Hj. apply in_nondeg_lt in Hj. split; now apply T.
  Qed.
End SymExact.
