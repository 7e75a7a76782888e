(** Lemmas about the alignment of degenerate modes. *)
From Coq Require Import Reals Lra List ZArith Arith Lia Bool.
From Verif Require Import Num Loops Modes ListFacts ResFacts Anharm AnharmFacts Transform TransformFacts
  RotFacts ModeFacts Geom GeomFacts.
Import ListNotations.
Open Scope nat_scope.

Lemma ofold_keeps {A S} (P : S -> Prop) (f : S -> A -> option S) l : forall s s',
  (forall s a s', In a l -> P s -> f s a = Some s' -> P s') ->
  P s -> ofold f l s = Some s' -> P s'.
Proof.
  induction l as [|a l IH]; intros s s' H Hs E; cbn in E; [now injection E as <-|].
  destruct (f s a) as [s1|] eqn:E1; [|discriminate]. apply (IH s1); [|now apply (H s a); [left| |]|exact E].
  intros t b t' Hb. apply H. now right.
Qed.
(** one iteration does the work *)
Lemma ofold_once {A S} (P Q : S -> Prop) (f : S -> A -> option S) l x0 : forall s s',
  NoDup l -> In x0 l ->
  (forall s s', P s -> f s x0 = Some s' -> Q s') ->
  (forall s x s', In x l -> x <> x0 -> P s -> f s x = Some s' -> P s') ->
  (forall s x s', In x l -> x <> x0 -> Q s -> f s x = Some s' -> Q s') ->
  P s -> ofold f l s = Some s' -> Q s'.
Proof.
  induction l as [|x l IH]; intros s s' Hd Hin H0 HP HQ Hs E; [destruct Hin|].
  inversion Hd as [|x' l' Hx Hd']; subst. cbn in E. destruct (f s x) as [s1|] eqn:E1; [|discriminate].
  destruct Hin as [->|Hin].
  - apply (ofold_keeps Q f l s1); [|now apply (H0 s)|exact E]. intros t y t' Hy Ht Et.
    apply (HQ t y); [now right| |exact Ht|exact Et]. intros ->. contradiction.
  - apply (IH s1); try assumption.
    + intros t y t' Hy. apply HP. now right.
    + intros t y t' Hy. apply HQ. now right.
    + apply (HP s x); [now left| |exact Hs|exact E1]. intros ->. contradiction.
Qed.

(** ** the column operations, for any arithmetic *)
Section Any.
  Context {F : Type} `{Num F} `{Trig F}.
  Implicit Types lxm lx : nat -> nat -> F.

  Lemma rotate_eq natom c s a b lxm : a <> b -> forall i k,
    rotate_pair natom c s a b lxm i k =
    if i <? 3 * natom then
      if k =? a then (c * lxm i a + s * lxm i b)%num
      else if k =? b then (c * lxm i b - s * lxm i a)%num else lxm i k
    else lxm i k.
  Proof.
    intros Hab. unfold rotate_pair. rewrite range_0. set (n := (3 * natom)%nat). clearbody n. clear natom.
    induction n as [|n IH]; intros i k; [reflexivity|].
    rewrite seq_S, fold_left_app. cbn [fold_left Nat.add].
    set (m := fold_left _ _ _) in *. unfold upd2.
    assert (E : forall k, m n k = lxm n k) by (intros k'; rewrite IH, Nat.ltb_irrefl; reflexivity).
    rewrite !E. destruct (Nat.eqb_spec i n) as [->|Hi].
    - replace (n <? S n) with true by (symmetry; apply Nat.ltb_lt; lia). cbn [andb].
      destruct (Nat.eqb_spec k a) as [->|Ha]; [reflexivity|].
      destruct (Nat.eqb_spec k b) as [->|Hb]; [reflexivity|]. apply E.
    - cbn [andb]. rewrite IH. destruct (Nat.ltb_spec i n), (Nat.ltb_spec i (S n)); try lia; reflexivity.
  Qed.
  Lemma negate_eq natom b lxm : forall i k,
    negate natom b lxm i k =
    if (i <? 3 * natom) && (k =? b) then (lxm i b * nz (-1))%num else lxm i k.
  Proof.
    unfold negate. rewrite range_0. set (n := (3 * natom)%nat). clearbody n. clear natom.
    induction n as [|n IH]; intros i k; [reflexivity|].
    rewrite seq_S, fold_left_app. cbn [fold_left Nat.add].
    set (m := fold_left _ _ _) in *. unfold upd2.
    assert (E : forall k, m n k = lxm n k) by (intros k'; rewrite IH, Nat.ltb_irrefl; reflexivity).
    rewrite !E. destruct (Nat.eqb_spec i n) as [->|Hi].
    - replace (n <? S n) with true by (symmetry; apply Nat.ltb_lt; lia). cbn [andb].
      destruct (k =? b); [reflexivity|]. apply E.
    - cbn [andb]. rewrite IH. destruct (Nat.ltb_spec i n), (Nat.ltb_spec i (S n)); try lia; reflexivity.
  Qed.

  (** the sign loop only negates *)
  Lemma fix_sign_inv (P : (nat -> nat -> F) -> Prop) natom iatom order zero4 iatom2 a b lxm :
    (forall l, P l -> P (negate natom b l)) -> P lxm ->
    P (fix_sign natom iatom order zero4 iatom2 a b lxm).
  Proof.
    intros HN HP. unfold fix_sign. cbv zeta.
    match goal with |- context [fold_left ?f ?l ?s] => set (step := f); set (s0 := s) end.
    enough (K : P (fst (fst (fold_left step (range 0 5) s0)))).
    { destruct (fold_left step (range 0 5) s0) as [[l u] v]. exact K. }
    apply (fold_inv (fun st => P (fst (fst st)))); [|exact HP].
    intros [[l s] fl] is _ Hl. cbn [fst] in Hl. unfold step.
    destruct (ngeb _ _); [exact Hl|]. destruct fl; [exact Hl|].
    destruct zero4; cbn [negb].
    - destruct (_ && _); cbn [fst]; auto.
    - destruct (ngtb _ _); destruct (nltb _ _); try exact Hl; destruct (nltb _ _); cbn [fst]; auto.
  Qed.
  Lemma sign_inv (P : (nat -> nat -> F) -> Prop) linear natom iatom order buddy zero4 a b lxm lxm' :
    (forall l, P l -> P (negate natom b l)) -> P lxm ->
    relative_sign linear natom iatom order buddy zero4 a b lxm = Some lxm' -> P lxm'.
  Proof.
    intros HN HP. unfold relative_sign. destruct linear.
    - intros [= <-]. destruct (ngtb _ _); auto.
    - destruct buddy as [i2|]; cbn [obind]; [|discriminate]. intros [= <-]. now apply fix_sign_inv.
  Qed.

  Lemma refresh_eq natom (w : nat -> F) a b lxm lx : forall i k,
    refresh_lx natom w a b lxm lx i k =
    if (i <? 3 * natom) && ((k =? a) || (k =? b))
    then (lxm i k * (nz 1 / nsqrt (w (i / 3)%nat)))%num else lx i k.
  Proof.
    assert (K : forall n c lx i k,
      fold_left (fun lx ia => fold_left (fun lx ix =>
        upd2 lx (3 * ia + ix) c (lxm (3 * ia + ix)%nat c * (nz 1 / nsqrt (w ia)))%num) (range 0 3) lx) (seq 0 n) lx i k
      = if (i <? 3 * n) && (k =? c) then (lxm i c * (nz 1 / nsqrt (w (i / 3)%nat)))%num else lx i k).
    { intros n c l. induction n as [|n IH]; intros i k; [reflexivity|].
      rewrite seq_S, fold_left_app. cbn [fold_left Nat.add]. set (m := fold_left _ _ _) in *.
      change (range 0 3) with [0; 1; 2]. cbn [fold_left]. unfold upd2.
      assert (D : forall q, q < 3 -> (3 * n + q) / 3 = n) by (intros; now apply div_block).
      destruct (Nat.eqb_spec i (3 * n + 2)) as [->|N2]; cbn [andb].
      { replace (3 * n + 2 <? 3 * S n) with true by (symmetry; apply Nat.ltb_lt; lia). cbn [andb].
        destruct (Nat.eqb_spec k c) as [->|Hk]; [now rewrite D by lia|].
        replace (3 * n + 2 =? 3 * n + 1) with false by (symmetry; apply Nat.eqb_neq; lia).
        replace (3 * n + 2 =? 3 * n + 0) with false by (symmetry; apply Nat.eqb_neq; lia). cbn [andb].
        rewrite IH. replace (3 * n + 2 <? 3 * n) with false by (symmetry; apply Nat.ltb_ge; lia). reflexivity. }
      destruct (Nat.eqb_spec i (3 * n + 1)) as [->|N1]; cbn [andb].
      { replace (3 * n + 1 <? 3 * S n) with true by (symmetry; apply Nat.ltb_lt; lia). cbn [andb].
        destruct (Nat.eqb_spec k c) as [->|Hk]; [now rewrite D by lia|].
        replace (3 * n + 1 =? 3 * n + 0) with false by (symmetry; apply Nat.eqb_neq; lia). cbn [andb].
        rewrite IH. replace (3 * n + 1 <? 3 * n) with false by (symmetry; apply Nat.ltb_ge; lia). reflexivity. }
      destruct (Nat.eqb_spec i (3 * n + 0)) as [->|N0]; cbn [andb].
      { replace (3 * n + 0 <? 3 * S n) with true by (symmetry; apply Nat.ltb_lt; lia). cbn [andb].
        destruct (Nat.eqb_spec k c) as [->|Hk]; [now rewrite D by lia|].
        rewrite IH. replace (3 * n + 0 <? 3 * n) with false by (symmetry; apply Nat.ltb_ge; lia). reflexivity. }
      rewrite IH. destruct (Nat.ltb_spec i (3 * n)), (Nat.ltb_spec i (3 * S n)); try lia; reflexivity. }
    intros i k. unfold refresh_lx. cbv zeta. cbn [fold_left]. rewrite (range_0 natom). rewrite !K.
    destruct (i <? 3 * natom); cbn [andb]; [|reflexivity].
    destruct (Nat.eqb_spec k b) as [->|]; [now rewrite orb_true_r|].
    destruct (Nat.eqb_spec k a) as [->|]; reflexivity.
  Qed.

  (** one pair: other columns stay, in both matrices, and the two columns of LX follow *)
  Lemma pair_other linear natom iatom order buddy w a b lxm lx lxm' lx' : a <> b ->
    align_pair linear natom iatom order buddy w a b (lxm, lx) = Some (lxm', lx') ->
    forall i k, k <> a -> k <> b -> lxm' i k = lxm i k /\ lx' i k = lx i k.
  Proof.
    intros Hab E i k Ha Hb. unfold align_pair in E.
    destruct (align_angle _ _ _ _ _) as [th|]; cbn [obind] in E; [|discriminate].
    destruct (relative_sign _ _ _ _ _ _ _ _ _) as [l|] eqn:Es; cbn [obind] in E; [|discriminate].
    injection E as <- <-. split.
    - apply (sign_inv (fun l => l i k = lxm i k)) in Es; [exact Es| |].
      + intros m Hm. rewrite negate_eq. destruct (Nat.eqb_spec k b); [contradiction|].
        now rewrite andb_false_r.
      + rewrite rotate_eq by exact Hab. destruct (Nat.eqb_spec k a); [contradiction|].
        destruct (Nat.eqb_spec k b); [contradiction|]. now destruct (_ <? _).
    - rewrite refresh_eq. destruct (Nat.eqb_spec k a); [contradiction|].
      destruct (Nat.eqb_spec k b); [contradiction|]. now rewrite andb_false_r.
  Qed.

  (** two modes the loop treats as degenerate *)
  Definition partners (linear : bool) (freq : nat -> F) (a b : nat) : Prop :=
    nltb (nabs (freq (Nat.min a b) - freq (Nat.max a b))%num) (align_tol linear) = true.

  (** induction over the pairs *)
  Lemma bdegnl_inv (P : (nat -> nat -> F) * (nat -> nat -> F) -> Prop)
      linear natom nvib iatom order buddy freq w lxm lx st :
    (forall a b s s', a < b -> b < nvib -> partners linear freq a b -> P s ->
       align_pair linear natom iatom order buddy w a b s = Some s' -> P s') ->
    P (lxm, lx) -> bdegnl linear natom nvib iatom order buddy freq w lxm lx = Some st -> P st.
  Proof.
    intros HP Hz. unfold bdegnl. destruct (nvib =? 0); [discriminate|].
    apply ofold_keeps; [|exact Hz]. intros s a s' Ha Hs. apply in_range in Ha.
    apply ofold_keeps; [|exact Hs]. intros t b t' Hb Ht. apply in_range in Hb.
    destruct (nltb _ _) eqn:Ec; [|now intros [= <-]].
    apply HP; try lia; [|exact Ht]. unfold partners.
    rewrite Nat.min_l, Nat.max_r by lia. exact Ec.
  Qed.

  Lemma untouched_lemma linear natom nvib iatom order buddy freq (w : nat -> F) lxm lx lxm' lx' k :
    bdegnl linear natom nvib iatom order buddy freq w lxm lx = Some (lxm', lx') ->
    (nvib <= k \/ forall m, m < nvib -> m <> k -> ~ partners linear freq k m) ->
    forall i, lxm' i k = lxm i k /\ lx' i k = lx i k.
  Proof.
    intros E Hk i.
    apply (bdegnl_inv (fun s => fst s i k = lxm i k /\ snd s i k = lx i k)) in E; [exact E| |now split].
    intros a b [l1 l2] [l1' l2'] Hab Hb Hp [H1 H2] Ep. cbn [fst snd] in *.
    assert (Na : k <> a).
    { intros ->. destruct Hk as [Hk|Hk]; [lia|]. apply (Hk b); [exact Hb|lia|exact Hp]. }
    assert (Nb : k <> b).
    { intros ->. destruct Hk as [Hk|Hk]; [lia|]. apply (Hk a); [lia|lia|].
      unfold partners in *. now rewrite Nat.min_comm, Nat.max_comm. }
    destruct (pair_other _ _ _ _ _ _ _ _ _ _ _ _ (Nat.lt_neq _ _ Hab) Ep i k Na Nb). split; congruence.
  Qed.

  (** a pair with no other partner is treated once, from its original columns *)
  Lemma isolated_lemma (Q : (nat -> nat -> F) * (nat -> nat -> F) -> Prop)
      linear natom nvib iatom order buddy freq (w : nat -> F) lxm lx st a b :
    a < b -> b < nvib -> partners linear freq a b ->
    (forall m, m < nvib -> m <> a -> m <> b -> ~ partners linear freq a m /\ ~ partners linear freq b m) ->
    (forall l l' k k', Q (l, k) -> (forall i, l' i a = l i a /\ l' i b = l i b) -> Q (l', k')) ->
    (forall l k s', (forall i, l i a = lxm i a /\ l i b = lxm i b) ->
       align_pair linear natom iatom order buddy w a b (l, k) = Some s' -> Q s') ->
    bdegnl linear natom nvib iatom order buddy freq w lxm lx = Some st -> Q st.
  Proof.
    intros Hab Hb Hp Hiso HQ Hz E. unfold bdegnl in E. destruct (nvib =? 0); [discriminate|].
    assert (Sym : forall x y, partners linear freq x y -> partners linear freq y x).
    { intros x y. unfold partners. now rewrite Nat.min_comm, Nat.max_comm. }
    set (P := fun s : (nat -> nat -> F) * (nat -> nat -> F) =>
      forall i, fst s i a = lxm i a /\ fst s i b = lxm i b).
    assert (KP : forall x y s s', x < y -> y < nvib -> (x, y) <> (a, b) -> partners linear freq x y ->
      align_pair linear natom iatom order buddy w x y s = Some s' ->
      forall i, fst s' i a = fst s i a /\ fst s' i b = fst s i b).
    { intros x y [l k] [l' k'] Hxy Hy Hne Hpxy Ep i. cbn [fst].
      assert (M : forall c, c = a \/ c = b -> c <> x /\ c <> y).
      { intros c Hc. split; intros ->.
        - destruct Hc as [-> | ->].
          + destruct (Nat.eq_dec y b) as [->|Nb]; [now elim Hne|].
            destruct (Hiso y Hy) as [G _]; [lia|exact Nb|]. now apply G.
          + destruct (Hiso y Hy) as [_ G]; [lia|lia|]. now apply G.
        - destruct Hc as [-> | ->].
          + destruct (Hiso x) as [G _]; [lia|lia|lia|]. apply G. now apply Sym.
          + destruct (Nat.eq_dec x a) as [->|Na]; [now elim Hne|].
            destruct (Hiso x) as [_ G]; [lia|exact Na|lia|]. apply G. now apply Sym. }
      destruct (M a (or_introl eq_refl)), (M b (or_intror eq_refl)).
      destruct (pair_other _ _ _ _ _ _ _ _ _ _ _ _ (Nat.lt_neq _ _ Hxy) Ep i a) as [E1 _]; [assumption..|].
      destruct (pair_other _ _ _ _ _ _ _ _ _ _ _ _ (Nat.lt_neq _ _ Hxy) Ep i b) as [E2 _]; [assumption..|].
      now split. }
    assert (Pstep : forall x y s s', x < y -> y < nvib -> (x, y) <> (a, b) -> P s ->
      (if nltb (nabs (freq x - freq y)%num) (align_tol linear)
       then align_pair linear natom iatom order buddy w x y s else Some s) = Some s' -> P s').
    { intros x y s s' Hxy Hy Hne Hs. destruct (nltb _ _) eqn:Ec; [|now intros [= <-]].
      intros Ep i. destruct (Hs i) as [E1 E2].
      destruct (KP x y s s' Hxy Hy Hne) with (i := i) as [G1 G2]; [|exact Ep|split; congruence].
      unfold partners. now rewrite Nat.min_l, Nat.max_r by lia. }
    assert (Qstep : forall x y s s', x < y -> y < nvib -> (x, y) <> (a, b) -> Q s ->
      (if nltb (nabs (freq x - freq y)%num) (align_tol linear)
       then align_pair linear natom iatom order buddy w x y s else Some s) = Some s' -> Q s').
    { intros x y [l k] [l' k'] Hxy Hy Hne Hs. destruct (nltb _ _) eqn:Ec; [|now intros [= <- <-]].
      intros Ep. apply (HQ l l' k k' Hs). intros i.
      apply (KP x y (l, k) (l', k') Hxy Hy Hne); [|exact Ep].
      unfold partners. now rewrite Nat.min_l, Nat.max_r by lia. }
    revert E. apply (ofold_once P Q _ _ a).
    - apply range_nodup.
    - apply in_range. lia.
    - intros s s' Hs. apply (ofold_once P Q _ _ b).
      + apply range_nodup.
      + apply in_range. lia.
      + intros [l k] t' Ht Et. unfold partners in Hp. rewrite Nat.min_l, Nat.max_r in Hp by lia.
        rewrite Hp in Et. now apply (Hz l k).
      + intros t y t' Hy Ny. apply in_range in Hy. apply Pstep; [lia|lia|congruence].
      + intros t y t' Hy Ny. apply in_range in Hy. apply Qstep; [lia|lia|congruence].
      + exact Hs.
    - intros s x s' Hx Nx Hs. apply in_range in Hx. apply ofold_keeps; [|exact Hs].
      intros t y t' Hy. apply in_range in Hy. apply Pstep; [lia|lia|congruence].
    - intros s x s' Hx Nx Hs. apply in_range in Hx. apply ofold_keeps; [|exact Hs].
      intros t y t' Hy. apply in_range in Hy. apply Qstep; [lia|lia|congruence].
    - intros i. now split.
  Qed.
End Any.
