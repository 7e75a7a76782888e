(** Lemmas about the harmonic stage: secular matrix, eigenpairs, wavenumbers. *)
From Coq Require Import Reals Lra List ZArith Arith Lia Bool Permutation Sorted.
From Verif Require Import Num Loops Index ListFacts IndexFacts ResFacts Anharm AnharmFacts Transform
  TransformFacts RotFacts.
Import ListNotations.
Open Scope nat_scope.

(** ** secular matrix *)
Section FormSec.
  Context {F : Type} {N : Num F}.

  Lemma form_sec_upper n (f : nat -> nat -> F) sqm a b : a <= b -> b < n ->
    form_sec n f sqm a b = (sqm (a / 3)%nat * f a b * sqm (b / 3)%nat)%num /\
    form_sec n f sqm b a = form_sec n f sqm a b.
  Proof.
    intros Hab Hb. unfold form_sec. cbv zeta.
    set (Q := fun s : nat -> nat -> F => s a b = (sqm (a / 3)%nat * f a b * sqm (b / 3)%nat)%num).
    set (P := fun s : nat -> nat -> F => s a b = f a b).
    assert (E : Q (fold_left (fun fx i => fold_left (fun fx j =>
        upd2 fx i j (sqm (i / 3)%nat * fx i j * sqm (j / 3)%nat)%num)
      (range i n) fx) (range 0 n) f)).
    { apply (fold_once P Q _ _ a); try apply range_nodup.
      - apply in_range. lia.
      - intros s Hs. apply (fold_once P Q _ _ b); try apply range_nodup; [apply in_range; lia| | | |exact Hs].
        + intros s1 Hs1. unfold Q. rewrite upd2_eq, Hs1. reflexivity.
        + intros s1 x _ Nx Hs1. unfold P. rewrite upd2_neq by lia. exact Hs1.
        + intros s1 x _ Nx Hs1. unfold Q. rewrite upd2_neq by lia. exact Hs1.
      - intros s x _ Nx Hs. apply (fold_inv P); [|exact Hs]. intros s1 y _ Hs1. unfold P.
        rewrite upd2_neq by lia. exact Hs1.
      - intros s x _ Nx Hs. apply (fold_inv Q); [|exact Hs]. intros s1 y _ Hs1. unfold Q.
        rewrite upd2_neq by lia. exact Hs1.
      - reflexivity. }
    unfold Q in E. destruct (Nat.ltb_spec b a); [lia|]. split; [exact E|].
    destruct (Nat.ltb_spec a b); [reflexivity|]. assert (a = b) as -> by lia. reflexivity.
  Qed.

  Lemma form_sec_any_lemma n (f g : nat -> nat -> F) sqm a b : a < n -> b < n ->
    let lo := Nat.min a b in let hi := Nat.max a b in
    form_sec n f sqm a b = (sqm (lo / 3)%nat * f lo hi * sqm (hi / 3)%nat)%num /\
    form_sec n f sqm a b = form_sec n f sqm b a /\
    ((forall i j, i <= j -> f i j = g i j) -> form_sec n f sqm a b = form_sec n g sqm a b).
  Proof.
    intros Ha Hb lo hi.
    assert (H : forall h, form_sec n h sqm a b = (sqm (lo / 3)%nat * h lo hi * sqm (hi / 3)%nat)%num).
    { intros h. unfold lo, hi. destruct (Nat.le_ge_cases a b) as [L|L].
      - rewrite Nat.min_l, Nat.max_r by lia. now apply form_sec_upper.
      - rewrite Nat.min_r, Nat.max_l by lia.
        destruct (form_sec_upper n h sqm b a L Ha) as [E1 E2]. now rewrite E2. }
    split; [apply H|]. split.
    - destruct (Nat.le_ge_cases a b) as [L|L].
      + symmetry. now apply form_sec_upper.
      + now apply form_sec_upper.
    - intros E. rewrite !H, E; [reflexivity|]. unfold lo, hi. lia.
  Qed.

  Lemma make_lx_eq n sqm (lxm : nat -> nat -> F) a b : a < n -> b < n ->
    make_lx n sqm lxm a b = (sqm (a / 3)%nat * lxm a b)%num.
  Proof.
    intros Ha Hb. unfold make_lx.
    set (Q := fun s : nat -> nat -> F => s a b = (sqm (a / 3)%nat * lxm a b)%num).
    match goal with |- ?s a b = _ => change (Q s) end.
    apply (fold_once (fun _ => True) Q _ _ a); auto; try apply range_nodup.
    - apply in_range. lia.
    - intros s _. apply (fold_once (fun _ => True) Q _ _ b); auto; try apply range_nodup.
      + apply in_range. lia.
      + intros s1 _. unfold Q. now rewrite upd2_eq.
      + intros s1 x _ Nx Hs1. unfold Q. rewrite upd2_neq by lia. exact Hs1.
    - intros s x _ Nx Hs. apply (fold_inv Q); [|exact Hs]. intros s1 y _ Hs1. unfold Q.
      rewrite upd2_neq by lia. exact Hs1.
  Qed.
End FormSec.

(** ** sorting eigenpairs *)
Section Sort.
  Variable reverse : bool.
  (** [p] may stand before [q] *)
  Definition ordered (p q : nat * R) : Prop :=
    (if reverse then (snd q < snd p)%R else (snd p < snd q)%R) \/
    (snd p = snd q /\ fst p < fst q).

  Lemma before_R (a b : R) : before reverse a b = true <-> (if reverse then (b < a)%R else (a < b)%R).
  Proof. unfold before. destruct reverse; apply Rltb_true. Qed.

  Lemma insert_pair_perm (p : nat * R) l : Permutation (p :: l) (insert_pair reverse p l).
  Proof.
    induction l as [|q l IH]; [reflexivity|]. cbn [insert_pair].
    destruct (before reverse (snd q) (snd p)); [|reflexivity].
    rewrite <- IH. apply perm_swap.
  Qed.
  Lemma sort_pairs_perm (l : list (nat * R)) : Permutation l (sort_pairs reverse l).
  Proof.
    induction l as [|p l IH]; [reflexivity|]. cbn [sort_pairs fold_right].
    rewrite <- insert_pair_perm. now constructor.
  Qed.
  Lemma ordered_trans p q r : ordered p q -> ordered q r -> ordered p r.
  Proof.
    unfold ordered. destruct p as [i a], q as [j b], r as [k c]. cbn [fst snd].
    destruct reverse; intros [H1|[H1 H1']] [H2|[H2 H2']]; try (left; lra); right; split; try lra; lia.
  Qed.
  Lemma insert_pair_sorted (p : nat * R) l :
    (forall q, In q l -> fst p < fst q) -> StronglySorted ordered l ->
    StronglySorted ordered (insert_pair reverse p l).
  Proof.
    induction l as [|q l IH]; intros Hf Hs; [repeat constructor|]. cbn [insert_pair].
    apply StronglySorted_inv in Hs as [Hs Hq].
    destruct (before reverse (snd q) (snd p)) eqn:B.
    - constructor.
      + apply IH; [|exact Hs]. intros; apply Hf. now right.
      + apply Forall_forall. intros r Hr.
        apply (Permutation_in _ (Permutation_sym (insert_pair_perm p l))) in Hr as [<-|Hr].
        * left. now apply before_R.
        * rewrite Forall_forall in Hq. now apply Hq.
    - assert (O : ordered p q).
      { unfold ordered. assert (NB := B). destruct (Req_dec (snd p) (snd q)) as [E|E].
        - right. split; [exact E|]. apply Hf. now left.
        - left. destruct reverse eqn:Rv; unfold before in NB; apply Rltb_false in NB; lra. }
      constructor; [now constructor|]. constructor; [exact O|].
      rewrite Forall_forall in Hq |- *. intros r Hr. eapply ordered_trans; [exact O|]. now apply Hq.
  Qed.
  Lemma sort_pairs_sorted (vals : list R) a :
    StronglySorted ordered (sort_pairs reverse (combine (seq a (length vals)) vals)).
  Proof.
    revert a. induction vals as [|x vals IH]; intros a; [constructor|]. cbn [length seq combine sort_pairs fold_right].
    apply insert_pair_sorted; [|apply IH]. intros q Hq.
    apply (Permutation_in _ (Permutation_sym (sort_pairs_perm _))) in Hq.
    destruct q as [i y]. apply in_combine_l in Hq. apply in_seq in Hq. cbn. lia.
  Qed.
End Sort.

Lemma combine_seq_nth {A} (l : list A) a i x :
  In (i, x) (combine (seq a (length l)) l) -> a <= i /\ nth_error l (i - a) = Some x.
Proof.
  revert a. induction l as [|y l IH]; intros a Hi; [destruct Hi|]. cbn in Hi.
  destruct Hi as [E|Hi].
  - injection E as -> ->. rewrite Nat.sub_diag. auto.
  - apply IH in Hi as [H1 H2]. split; [lia|]. replace (i - a) with (S (i - S a)) by lia. exact H2.
Qed.
Lemma combine_seq_fst {A} (l : list A) a : map fst (combine (seq a (length l)) l) = seq a (length l).
Proof.
  revert a. induction l as [|y l IH]; intros a; [reflexivity|]. cbn. now rewrite IH.
Qed.

Lemma strongly_sorted_nth {A} (T : A -> A -> Prop) l i j x y :
  StronglySorted T l -> i < j -> nth_error l i = Some x -> nth_error l j = Some y -> T x y.
Proof.
  intros Hs. revert i j. induction Hs as [|z l Hs IH Hz]; intros i j Hij Ei Ej.
  - destruct i; discriminate.
  - destruct j as [|j]; [lia|]. cbn in Ej. destruct i as [|i].
    + injection Ei as ->. rewrite Forall_forall in Hz. apply Hz. eapply nth_error_In, Ej.
    + eapply IH; [|exact Ei|exact Ej]. lia.
Qed.

Lemma sort_cols {F} {N : Num F} (pairs : list (nat * F)) vecs cols : cols <= length pairs ->
  exists ret, ofold (fun ret i =>
        let* p := nth_error pairs i in
        Some (fun a b => if Nat.eqb b i then vecs a (fst p) else ret a b))
      (range 0 cols) (fun _ _ : nat => nz 0) = Some ret /\
    forall a i p, i < cols -> nth_error pairs i = Some p -> ret a i = vecs a (fst p).
Proof.
  induction cols as [|c IH]; intros Hc.
  - eexists. split; [reflexivity|]. lia.
  - destruct IH as (ret & E & H); [lia|]. rewrite range_0 in *. rewrite seq_S, ofold_app, E. cbn [Nat.add].
    destruct (nth_error pairs c) as [p|] eqn:Ep; [|apply nth_error_None in Ep; lia].
    cbn [ofold]. rewrite Ep. cbn [obind]. eexists. split; [reflexivity|].
    intros a i q Hi Eq. cbn beta. destruct (Nat.eqb_spec i c) as [->|Ne].
    + rewrite Ep in Eq. now injection Eq as ->.
    + apply H; [lia|exact Eq].
Qed.
Lemma sort_cols_none {F} {N : Num F} (pairs : list (nat * F)) vecs cols : length pairs < cols ->
  ofold (fun ret i =>
        let* p := nth_error pairs i in
        Some (fun a b => if Nat.eqb b i then vecs a (fst p) else ret a b))
      (range 0 cols) (fun _ _ : nat => nz 0) = None.
Proof.
  intros Hc. rewrite range_0. replace cols with (length pairs + (cols - length pairs)) by lia.
  rewrite seq_app, ofold_app. destruct (sort_cols pairs vecs (length pairs) (le_n _)) as (ret & E & _).
  rewrite range_0 in E. rewrite E. cbn [Nat.add].
  destruct (cols - length pairs) as [|m] eqn:Em; [lia|]. cbn [seq ofold].
  assert (nth_error pairs (length pairs) = None) as -> by (apply nth_error_None; lia). reflexivity.
Qed.

(** C14 *)
Lemma sort_eigen_lemma (vals : list R) (vecs : nat -> nat -> R) reverse :
  (exists vals' vecs' (sg : list nat),
    sort_eigen vals vecs (length vals) reverse = Some (vals', vecs') /\
    length vals' = length vals /\
    Permutation sg (seq 0 (length vals)) /\
    (forall i, i < length vals -> exists s, nth_error sg i = Some s /\
       nth_error vals' i = nth_error vals s /\ forall a, vecs' a i = vecs a s) /\
    (forall i j x y s t, i < j -> nth_error vals' i = Some x -> nth_error vals' j = Some y ->
       nth_error sg i = Some s -> nth_error sg j = Some t ->
       (if reverse then (y < x)%R else (x < y)%R) \/ (x = y /\ s < t))) /\
  (forall cols, length vals < cols -> sort_eigen vals vecs cols reverse = None).
Proof.
  unfold sort_eigen. rewrite range_0.
  set (pairs := sort_pairs reverse (combine (seq 0 (length vals)) vals)).
  pose proof (sort_pairs_perm reverse (combine (seq 0 (length vals)) vals)) as Hp. fold pairs in Hp.
  assert (Hl : length pairs = length vals).
  { rewrite <- (Permutation_length Hp), combine_length, seq_length. apply Nat.min_id. }
  split.
  - destruct (sort_cols pairs vecs (length vals)) as (ret & E & Hr); [lia|].
    exists (map snd pairs), ret, (map fst pairs). cbv zeta. rewrite range_0 in E. rewrite E. cbn [obind].
    split; [reflexivity|]. split; [now rewrite map_length|]. split; [|split].
    + apply (Permutation_map fst) in Hp. rewrite combine_seq_fst in Hp. now symmetry.
    + intros i Hi. destruct (nth_error pairs i) as [[s x]|] eqn:Ep; [|apply nth_error_None in Ep; lia].
      exists s. rewrite !nth_error_map, Ep. cbn. split; [reflexivity|]. split.
      * assert (In (s, x) (combine (seq 0 (length vals)) vals)) as Hin.
        { apply (Permutation_in _ (Permutation_sym Hp)). eapply nth_error_In, Ep. }
        apply combine_seq_nth in Hin as [_ Hin]. rewrite Nat.sub_0_r in Hin. now symmetry.
      * intros a. now rewrite (Hr a i (s, x) Hi Ep).
    + intros i j x y s t Hij Ex Ey Es Et. rewrite nth_error_map in Ex, Ey, Es, Et.
      destruct (nth_error pairs i) as [p|] eqn:Ei; [|discriminate].
      destruct (nth_error pairs j) as [q|] eqn:Ej; [|discriminate].
      cbn in Ex, Ey, Es, Et. injection Ex as <-. injection Ey as <-. injection Es as <-. injection Et as <-.
      apply (strongly_sorted_nth (ordered reverse) pairs i j p q (sort_pairs_sorted reverse vals 0) Hij Ei Ej).
  - intros cols Hc. cbv zeta. rewrite (sort_cols_none pairs vecs cols) by lia. reflexivity.
Qed.

(** ** wavenumbers *)
Local Open Scope R_scope.
Lemma WAVE_pos : 0 < @WAVE R Rnum.
Proof.
  unfold WAVE, SQRT_AVN, PI64, CL, nz. cbn [nlit nmul ndiv Rnum].
  apply Rdiv_lt_0_compat; repeat apply Rmult_lt_0_compat; try apply Rdiv_lt_0_compat; lra.
Qed.
Lemma wavenumber_R f : to_wavenumber f = if Rlt_dec f 0 then - (@WAVE R Rnum * sqrt (- f)) else @WAVE R Rnum * sqrt f.
Proof.
  unfold to_wavenumber. rewrite !nz_R. cbn [nltb nmul nopp nsqrt Rnum]. unfold Rltb.
  change (@nz R Rnum 0) with (IZR 0 / IZR 1). 
  destruct (Rlt_dec f 0); destruct (Rlt_dec f (IZR 0)); try ring; try lra.
Qed.

Lemma wavenumber_lemma (f g : R) :
  to_wavenumber (F := R) (- f) = - to_wavenumber f /\
  to_wavenumber f ^ 2 = @WAVE R Rnum ^ 2 * Rabs f /\
  (f < g -> to_wavenumber f < to_wavenumber g).
Proof.
  pose proof WAVE_pos as W.
  assert (P : forall x, 0 <= x -> to_wavenumber x = @WAVE R Rnum * sqrt x).
  { intros x Hx. rewrite wavenumber_R. destruct (Rlt_dec x 0); [lra|reflexivity]. }
  assert (M : forall x, x < 0 -> to_wavenumber x = - (@WAVE R Rnum * sqrt (- x))).
  { intros x Hx. rewrite wavenumber_R. destruct (Rlt_dec x 0); [reflexivity|lra]. }
  assert (Odd : forall x, to_wavenumber (- x) = - to_wavenumber x).
  { intros x. destruct (Rtotal_order x 0) as [L|[->|L]].
    - rewrite (P (- x)), (M x) by lra. ring.
    - rewrite Ropp_0, P, sqrt_0 by lra. ring.
    - rewrite (M (- x)), (P x) by lra. rewrite Ropp_involutive. reflexivity. }
  split; [apply Odd|]. split.
  - destruct (Rlt_dec f 0) as [L|L].
    + rewrite M, Rabs_left by lra. transitivity (@WAVE R Rnum ^ 2 * (sqrt (- f) * sqrt (- f))); [ring|]. now rewrite sqrt_sqrt by lra.
    + rewrite P, Rabs_right by lra. transitivity (@WAVE R Rnum ^ 2 * (sqrt f * sqrt f)); [ring|]. now rewrite sqrt_sqrt by lra.
  - intros L. destruct (Rlt_dec g 0) as [Lg|Lg].
    + rewrite !M by lra. apply Ropp_lt_contravar, Rmult_lt_compat_l; [exact W|].
      apply sqrt_lt_1; lra.
    + destruct (Rlt_dec f 0) as [Lf|Lf].
      * rewrite M, P by lra. apply Rlt_le_trans with 0.
        -- apply Ropp_lt_gt_0_contravar. apply Rmult_lt_0_compat; [exact W|]. apply sqrt_lt_R0. lra.
        -- apply Rmult_le_pos; [lra|apply sqrt_pos].
      * rewrite !P by lra. apply Rmult_lt_compat_l; [exact W|]. apply sqrt_lt_1; lra.
Qed.
