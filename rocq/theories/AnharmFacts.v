(** Lemmas about the anharmonic constants and E0 of asymmetric tops. *)
From Coq Require Import Reals Lra List ZArith Arith Permutation Lia Bool.
From Verif Require Import Num Loops Index Modes ListFacts ModesFacts ResFacts Anharm.
Import ListNotations.
Open Scope nat_scope.

(** ** sums over the reals *)
Definition Rsum {A} (l : list A) (f : A -> R) : R := fold_right (fun a s => (f a + s)%R) 0%R l.

Lemma Rsum_cons {A} (f : A -> R) a l : Rsum (a :: l) f = (f a + Rsum l f)%R.
Proof. reflexivity. Qed.
Lemma Rsum_app {A} (f : A -> R) l l' : Rsum (l ++ l') f = (Rsum l f + Rsum l' f)%R.
Proof. induction l as [|a l IH]; cbn [app]; [unfold Rsum; cbn; lra|]. rewrite !Rsum_cons, IH. lra. Qed.
Lemma Rsum_ext {A} (f g : A -> R) l :
  (forall a, In a l -> f a = g a) -> Rsum l f = Rsum l g.
Proof.
  induction l as [|a l IH]; intros E; [reflexivity|].
  rewrite !Rsum_cons, E by (cbn; auto). rewrite IH; [reflexivity|]. intros; apply E; cbn; auto.
Qed.
Lemma Rsum_plus {A} (f g : A -> R) l : Rsum l (fun a => f a + g a)%R = (Rsum l f + Rsum l g)%R.
Proof. induction l as [|a l IH]; [cbn; lra|]. rewrite !Rsum_cons, IH. lra. Qed.
Lemma Rsum_minus {A} (f g : A -> R) l : Rsum l (fun a => f a - g a)%R = (Rsum l f - Rsum l g)%R.
Proof. induction l as [|a l IH]; [cbn; lra|]. rewrite !Rsum_cons, IH. lra. Qed.
Lemma Rsum_scal {A} c (f : A -> R) l : Rsum l (fun a => c * f a)%R = (c * Rsum l f)%R.
Proof. induction l as [|a l IH]; [cbn; lra|]. rewrite !Rsum_cons, IH. lra. Qed.
Lemma Rsum_scal_r {A} c (f : A -> R) l : Rsum l (fun a => f a * c)%R = (Rsum l f * c)%R.
Proof. induction l as [|a l IH]; [cbn; lra|]. rewrite !Rsum_cons, IH. lra. Qed.
Lemma Rsum_0 {A} (f : A -> R) l : (forall a, In a l -> f a = 0%R) -> Rsum l f = 0%R.
Proof.
  induction l as [|a l IH]; intros E; [reflexivity|].
  rewrite Rsum_cons, E by (cbn; auto). rewrite IH; [lra|]. intros; apply E; cbn; auto.
Qed.
Lemma Rsum_opp {A} (f : A -> R) l : Rsum l (fun a => - f a)%R = (- Rsum l f)%R.
Proof. induction l as [|a l IH]; [cbn; lra|]. rewrite !Rsum_cons, IH. lra. Qed.
Lemma Rsum_swap {A B} (f : A -> B -> R) l l' :
  Rsum l (fun a => Rsum l' (f a)) = Rsum l' (fun b => Rsum l (fun a => f a b)).
Proof.
  induction l as [|a l IH]; [cbn; symmetry; now apply Rsum_0|].
  rewrite Rsum_cons, IH, <- Rsum_plus. reflexivity.
Qed.
Lemma Rsum_map {A B} (g : A -> B) (f : B -> R) l : Rsum (map g l) f = Rsum l (fun a => f (g a)).
Proof. induction l as [|a l IH]; [reflexivity|]. cbn [map]. now rewrite !Rsum_cons, IH. Qed.
Lemma Rsum_single (f : nat -> R) l i :
  NoDup l -> In i l -> Rsum l (fun a => if a =? i then f a else 0)%R = f i.
Proof.
  induction l as [|a l IH]; intros Nd Hi; [contradiction|].
  inversion Nd as [|a' l' Na Nl]; subst. rewrite Rsum_cons.
  destruct Hi as [->|Hi].
  - rewrite Nat.eqb_refl, Rsum_0; [lra|]. intros b Hb.
    destruct (Nat.eqb_spec b i); [subst; contradiction|reflexivity].
  - rewrite IH by assumption. destruct (Nat.eqb_spec a i); [subst; contradiction|lra].
Qed.

Lemma acc_add_R {A} (l : list A) (f : A -> R) x : acc_add l f x = (x + Rsum l f)%R.
Proof.
  unfold acc_add. revert x. induction l as [|a l IH]; intros x; [cbn; lra|].
  cbn [fold_left]. rewrite IH, Rsum_cons. cbn. lra.
Qed.
Lemma acc_sub_R {A} (l : list A) (f : A -> R) x : acc_sub l f x = (x - Rsum l f)%R.
Proof.
  unfold acc_sub. revert x. induction l as [|a l IH]; intros x; [cbn; lra|].
  cbn [fold_left]. rewrite IH, Rsum_cons. cbn. lra.
Qed.
Lemma nsum_R {A} (l : list A) (f : A -> R) : nsum l f = Rsum l f.
Proof. unfold nsum. rewrite acc_add_R, nz_R. lra. Qed.
Lemma fold_plus_R {A} (step : R -> A -> R) (g : A -> R) l x :
  (forall y a, In a l -> step y a = (y + g a)%R) -> fold_left step l x = (x + Rsum l g)%R.
Proof.
  revert x. induction l as [|a l IH]; intros x E; [cbn; lra|].
  cbn [fold_left]. rewrite E by (cbn; auto). rewrite IH by (intros; apply E; cbn; auto).
  rewrite Rsum_cons. lra.
Qed.

(** ** the look-up tables of resonances *)

(** which sums i+j ~ k are reported *)
Definition resonant (fm1 : list (nat * nat)) (fm2 : list (nat * nat * nat)) (i j k : nat) : Prop :=
  i = j /\ In (i, k) fm1 \/ In (i, j, k) fm2 \/ In (j, i, k) fm2.

Lemma fold_flag1 fm1 c i j k :
  flagged (fold_left (fun c '(i, j) =>
      mk_checks (upd3 (ifrmchk c) i i j 1) (insert1 (ifrm1 c) i j)
                (insert2 (ifrm2 c) (i, i) j)) fm1 c) i j k = true <->
  flagged c i j k = true \/ i = j /\ In (i, k) fm1.
Proof.
  revert c. induction fm1 as [|[a b] l IH]; intros c; cbn [fold_left In]; [tauto|].
  rewrite IH. unfold flagged at 1. cbn [ifrmchk]. unfold upd3.
  destruct (Nat.eqb_spec i a), (Nat.eqb_spec j a), (Nat.eqb_spec k b); cbn [andb];
    subst; try (fold (flagged c i j k)); try tauto; unfold flagged;
    intuition (try congruence); repeat match goal with
      H : (_, _) = (_, _) |- _ => inversion H; clear H; subst end; try tauto; try congruence.
Qed.
Lemma fold_flag2 fm2 c i j k :
  flagged (fold_left (fun c '(i, j, k) =>
      mk_checks (upd3 (upd3 (ifrmchk c) i j k 1) j i k 1) (ifrm1 c)
                (insert2 (ifrm2 c) (i, j) k)) fm2 c) i j k = true <->
  flagged c i j k = true \/ In (i, j, k) fm2 \/ In (j, i, k) fm2.
Proof.
  revert c. induction fm2 as [|[[a b] d] l IH]; intros c; cbn [fold_left In]; [tauto|].
  rewrite IH. clear IH.
  assert (E : flagged (mk_checks (upd3 (upd3 (ifrmchk c) a b d 1) b a d 1) (ifrm1 c)
                         (insert2 (ifrm2 c) (a, b) d)) i j k = true <->
              flagged c i j k = true \/ (a, b, d) = (i, j, k) \/ (a, b, d) = (j, i, k)).
  { unfold flagged. cbn [ifrmchk]. unfold upd3.
    destruct (Nat.eqb_spec i b), (Nat.eqb_spec j a), (Nat.eqb_spec k d); cbn [andb];
    destruct (Nat.eqb_spec i a), (Nat.eqb_spec j b); cbn [andb]; subst;
    split; try (intros; cbn; auto; fail); intros Q; try (left; exact Q);
    destruct Q as [Q|[Q|Q]]; try exact Q; inversion Q; congruence. }
  rewrite E. tauto.
Qed.
Lemma flagged_resonant fm1 fm2 i j k :
  flagged (make_fermi_checks fm1 fm2) i j k = true <-> resonant fm1 fm2 i j k.
Proof.
  unfold make_fermi_checks. rewrite fold_flag2, fold_flag1. unfold resonant.
  unfold flagged at 1. cbn. intuition discriminate.
Qed.
Lemma flagged_sym fm1 fm2 i j k :
  flagged (make_fermi_checks fm1 fm2) i j k = flagged (make_fermi_checks fm1 fm2) j i k.
Proof.
  apply eq_true_iff_eq. rewrite !flagged_resonant. unfold resonant.
  intuition (subst; auto).
Qed.

(** the last entry for a key wins *)
Fixpoint last_for {K V} (dec : K -> K -> bool) (k : K) (l : list (K * V)) : option V :=
  match l with
  | [] => None
  | (k', v) :: t => match last_for dec k t with
                    | Some w => Some w
                    | None => if dec k k' then Some v else None
                    end
  end.
Definition eqb2 (a b : nat * nat) : bool := (fst a =? fst b) && (snd a =? snd b).

Lemma fold_ifrm1 fm1 c i :
  ifrm1 (fold_left (fun c '(i, j) =>
      mk_checks (upd3 (ifrmchk c) i i j 1) (insert1 (ifrm1 c) i j)
                (insert2 (ifrm2 c) (i, i) j)) fm1 c) i =
  match last_for Nat.eqb i fm1 with Some j => Some j | None => ifrm1 c i end.
Proof.
  revert c. induction fm1 as [|[a b] l IH]; intros c; cbn [fold_left last_for]; [reflexivity|].
  rewrite IH. cbn [ifrm1]. unfold insert1, upd1. destruct (last_for Nat.eqb i l); [reflexivity|].
  now destruct (i =? a).
Qed.
Lemma fold_ifrm1' fm2 c i :
  ifrm1 (fold_left (fun c '(i, j, k) =>
      mk_checks (upd3 (upd3 (ifrmchk c) i j k 1) j i k 1) (ifrm1 c)
                (insert2 (ifrm2 c) (i, j) k)) fm2 c) i = ifrm1 c i.
Proof.
  revert c. induction fm2 as [|[[a b] d] l IH]; intros c; cbn [fold_left]; [reflexivity|].
  now rewrite IH.
Qed.
Lemma ifrm1_eq fm1 fm2 i :
  ifrm1 (make_fermi_checks fm1 fm2) i = last_for Nat.eqb i fm1.
Proof.
  unfold make_fermi_checks. rewrite fold_ifrm1', fold_ifrm1. cbn.
  unfold empty1. now destruct last_for.
Qed.
Lemma fold_ifrm2 fm1 c i j :
  i <> j ->
  ifrm2 (fold_left (fun c '(i, j) =>
      mk_checks (upd3 (ifrmchk c) i i j 1) (insert1 (ifrm1 c) i j)
                (insert2 (ifrm2 c) (i, i) j)) fm1 c) i j = ifrm2 c i j.
Proof.
  intros Hij. revert c. induction fm1 as [|[a b] l IH]; intros c; cbn [fold_left]; [reflexivity|].
  rewrite IH. cbn [ifrm2]. unfold insert2, upd2. cbn [fst snd].
  destruct (Nat.eqb_spec i a), (Nat.eqb_spec j a); subst; cbn; congruence.
Qed.
Lemma fold_ifrm2' fm2 c i j :
  ifrm2 (fold_left (fun c '(i, j, k) =>
      mk_checks (upd3 (upd3 (ifrmchk c) i j k 1) j i k 1) (ifrm1 c)
                (insert2 (ifrm2 c) (i, j) k)) fm2 c) i j =
  match last_for eqb2 (i, j) fm2 with Some k => Some k | None => ifrm2 c i j end.
Proof.
  revert c. induction fm2 as [|[[a b] d] l IH]; intros c; cbn [fold_left last_for]; [reflexivity|].
  rewrite IH. cbn [ifrm2]. destruct (last_for eqb2 (i, j) l); [reflexivity|].
  unfold insert2, upd2, eqb2. cbn [fst snd]. now destruct ((i =? a) && (j =? b)).
Qed.
Lemma ifrm2_eq fm1 fm2 i j :
  i <> j -> ifrm2 (make_fermi_checks fm1 fm2) i j = last_for eqb2 (i, j) fm2.
Proof.
  intros Hij. unfold make_fermi_checks. rewrite fold_ifrm2', fold_ifrm2 by exact Hij. cbn.
  unfold empty2. now destruct last_for.
Qed.

Lemma last_for_in {K V} (dec : K -> K -> bool) (D : forall a b, dec a b = true <-> a = b) k
  (l : list (K * V)) v : last_for dec k l = Some v -> In (k, v) l.
Proof.
  induction l as [|[k' v'] l IH]; cbn [last_for]; [discriminate|].
  destruct (last_for dec k l).
  - intros E. right. auto.
  - destruct (dec k k') eqn:Q; [|discriminate]. apply D in Q as <-. intros [= ->]. now left.
Qed.
Lemma last_for_some {K V} (dec : K -> K -> bool) (D : forall a b, dec a b = true <-> a = b) k
  (l : list (K * V)) v : In (k, v) l -> exists w, last_for dec k l = Some w.
Proof.
  induction l as [|[k' v'] l IH]; cbn [last_for In]; [contradiction|].
  intros [E|Hi].
  - inversion E; subst. destruct (last_for dec k l); [eauto|].
    rewrite (proj2 (D k k) eq_refl). eauto.
  - destruct (IH Hi) as (w & ->). eauto.
Qed.
Lemma last_for_unique {K V} (dec : K -> K -> bool) (D : forall a b, dec a b = true <-> a = b) k
  (l : list (K * V)) v :
  (forall w, In (k, w) l -> w = v) -> In (k, v) l -> last_for dec k l = Some v.
Proof.
  intros U Hi. destruct (last_for_some dec D k l v Hi) as (w & E).
  rewrite E. f_equal. apply U. now apply (last_for_in dec D).
Qed.
Lemma eqb2_spec a b : eqb2 a b = true <-> a = b.
Proof.
  destruct a, b. unfold eqb2. cbn. rewrite andb_true_iff, !Nat.eqb_eq.
  split; [intros [-> ->]; reflexivity|]. intros [= -> ->]. auto.
Qed.

(** ** the matrix of anharmonic constants *)
Section Matrix.
  Context {F : Type} `{Num F}.

  Lemma upd2_eq {A} (m : nat -> nat -> A) i j x : upd2 m i j x i j = x.
  Proof. unfold upd2. now rewrite !Nat.eqb_refl. Qed.
  Lemma upd2_neq {A} (m : nat -> nat -> A) i j x a b :
    a <> i \/ b <> j -> upd2 m i j x a b = m a b.
  Proof.
    unfold upd2. destruct (Nat.eqb_spec a i), (Nat.eqb_spec b j); cbn; intros; try reflexivity.
    intuition.
  Qed.

  Lemma fold_diag (g : nat -> F) n x0 a b :
    fold_left (fun x k => upd2 x k k (g k)) (seq 0 n) x0 a b =
    if (a =? b) && (a <? n) then g a else x0 a b.
  Proof.
    induction n as [|n IH]; [cbn; now rewrite andb_false_r|].
    rewrite seq_S, fold_left_app. cbn [fold_left plus]. unfold upd2 at 1.
    destruct (Nat.eqb_spec a n), (Nat.eqb_spec b n); cbn [andb]; subst.
    - rewrite Nat.eqb_refl. cbn [andb]. destruct (Nat.ltb_spec n (S n)); [reflexivity|lia].
    - rewrite IH. destruct (Nat.eqb_spec n b); [congruence|reflexivity].
    - rewrite IH. destruct (Nat.eqb_spec a n); [congruence|reflexivity].
    - rewrite IH. destruct (Nat.eqb_spec a b); cbn [andb]; [|reflexivity].
      destruct (Nat.ltb_spec a n), (Nat.ltb_spec a (S n)); try reflexivity; lia.
  Qed.

  Lemma fold_row (g : nat -> F) k n x0 a b :
    n <= k ->
    fold_left (fun x l => upd2 (upd2 x k l (g l)) l k (g l)) (seq 0 n) x0 a b =
    if (a =? k) && (b <? n) then g b
    else if (b =? k) && (a <? n) then g a else x0 a b.
  Proof.
    intros Hn. induction n as [|n IH].
    - cbn. now rewrite !andb_false_r.
    - rewrite seq_S, fold_left_app. cbn [fold_left plus].
      unfold upd2 at 1 2. rewrite IH by lia.
      destruct (Nat.eqb_spec a n), (Nat.eqb_spec b k), (Nat.eqb_spec a k), (Nat.eqb_spec b n),
        (Nat.ltb_spec a n), (Nat.ltb_spec b n), (Nat.ltb_spec a (S n)), (Nat.ltb_spec b (S n));
        cbn [andb]; subst; try reflexivity; try lia; try congruence.
  Qed.

  Lemma fold_rows (g : nat -> nat -> F) n x0 a b :
    fold_left (fun x k =>
        fold_left (fun x l => upd2 (upd2 x k l (g k l)) l k (g k l)) (range 0 k) x)
      (range 1 n) x0 a b =
    if (b <? a) && (a <? n) then g a b
    else if (a <? b) && (b <? n) then g b a else x0 a b.
  Proof.
    induction n as [|n IH].
    - cbn. now rewrite !andb_false_r.
    - destruct n as [|n].
      + change (range 1 1) with (@nil nat). cbn [fold_left]. destruct (Nat.ltb_spec b a), (Nat.ltb_spec a 1), (Nat.ltb_spec a b),
          (Nat.ltb_spec b 1); cbn [andb]; try reflexivity; exfalso; lia.
      + assert (E : range 1 (S (S n)) = range 1 (S n) ++ [S n]).
        { unfold range. replace (S (S n) - 1) with (S (S n - 1)) by lia.
          rewrite seq_S. do 2 f_equal. lia. }
        rewrite E.
        rewrite fold_left_app. cbn [fold_left]. unfold range at 1. rewrite Nat.sub_0_r.
        rewrite fold_row by lia. rewrite IH.
        destruct (Nat.eqb_spec a (S n)), (Nat.eqb_spec b (S n)), (Nat.ltb_spec a (S n)),
          (Nat.ltb_spec b (S n)), (Nat.ltb_spec a (S (S n))), (Nat.ltb_spec b (S (S n))),
          (Nat.ltb_spec a b), (Nat.ltb_spec b a); cbn [andb]; subst; try reflexivity; try lia.
  Qed.

  Lemma xcalc_entries n f4 (freq : nat -> F) f3 zmat rotcon fm1 fm2 a b :
    let c := make_fermi_checks fm1 fm2 in
    xcalc n f4 freq f3 zmat rotcon fm1 fm2 a b =
    if (b <? a) && (a <? n) then xcalc_off n f4 freq f3 zmat rotcon c a b
    else if (a <? b) && (b <? n) then xcalc_off n f4 freq f3 zmat rotcon c b a
    else if (a =? b) && (a <? n) then xcalc_diag n f4 freq f3 c a else nz 0.
  Proof.
    cbv zeta. unfold xcalc.
    rewrite (fold_rows (xcalc_off n f4 freq f3 zmat rotcon (make_fermi_checks fm1 fm2))).
    unfold range. rewrite Nat.sub_0_r.
    now rewrite (fold_diag (xcalc_diag n f4 freq f3 (make_fermi_checks fm1 fm2))).
  Qed.

  Lemma xcalc_sym_lemma n f4 (freq : nat -> F) f3 zmat rotcon fm1 fm2 a b :
    xcalc n f4 freq f3 zmat rotcon fm1 fm2 a b = xcalc n f4 freq f3 zmat rotcon fm1 fm2 b a.
  Proof.
    rewrite !xcalc_entries.
    destruct (Nat.ltb_spec a b), (Nat.ltb_spec b a), (Nat.ltb_spec a n), (Nat.ltb_spec b n),
      (Nat.eqb_spec a b), (Nat.eqb_spec b a); cbn [andb]; subst; try reflexivity; try lia.
  Qed.

  (** every entry is assigned: it does not depend on what was in the matrix before *)
  Lemma xcalc_assigned_lemma n f4 (freq : nat -> F) f3 zmat rotcon fm1 fm2 a b :
    a < n -> b < n ->
    xcalc n f4 freq f3 zmat rotcon fm1 fm2 a b =
    if a =? b then xcalc_diag n f4 freq f3 (make_fermi_checks fm1 fm2) a
    else xcalc_off n f4 freq f3 zmat rotcon (make_fermi_checks fm1 fm2)
           (Nat.max a b) (Nat.min a b).
  Proof.
    intros Ha Hb. rewrite xcalc_entries.
    destruct (Nat.ltb_spec a b), (Nat.ltb_spec b a), (Nat.ltb_spec a n), (Nat.ltb_spec b n),
      (Nat.eqb_spec a b); cbn [andb]; subst; try lia; try reflexivity.
    - now rewrite Nat.max_r, Nat.min_l by lia.
    - now rewrite Nat.max_l, Nat.min_r by lia.
  Qed.
End Matrix.

(** ** exact meaning over the reals *)
Local Open Scope R_scope.

(** [keep p x] is x unless the resonance p is reported *)
Definition keep (dropped : bool) (x : R) : R := if dropped then 0 else x.

(** the standard second-order formula for x_kk with the terms of reported resonances left
    out: the only singular denominator is 2 w_k - w_l *)
Definition spec_xkk (n : nat) f4 (w : nat -> R) (f3 : nat -> nat -> nat -> R)
  (res : nat -> nat -> nat -> bool) (k : nat) : R :=
  f4 k k k k / 16
  - Rsum (seq 0 n) (fun l => f3 k k l * f3 k k l *
      (1 / (8 * w l) + / 32 * (1 / (2 * w k + w l)) - / 32 * keep (res k k l) (1 / (2 * w k - w l)))).

(** the same for x_kl; the singular denominators are w_k+w_m-w_l, w_k+w_l-w_m and
    w_l+w_m-w_k, and [res i j k] says that w_i+w_j ~ w_k is reported *)
Definition spec_xkl (n : nat) f4 (w : nat -> R) (f3 : nat -> nat -> nat -> R)
  (zeta : nat -> nat -> nat -> R) (B : nat -> R)
  (res : nat -> nat -> nat -> bool) (k l : nat) : R :=
  f4 k k l l / 4
  - Rsum (seq 0 n) (fun m => f3 k k m * f3 l l m / (4 * w m))
  - Rsum (seq 0 n) (fun m => f3 k l m * f3 k l m / 8 *
      (1 / (w k + w l + w m)
       + keep (res k m l) (1 / (w k + w m - w l))
       - keep (res k l m) (1 / (w k + w l - w m))
       + keep (res l m k) (1 / (w l + w m - w k))))
  + (w k / w l + w l / w k) *
    (B 0%nat * (zeta k l 0%nat * zeta k l 0%nat) + B 1%nat * (zeta k l 1%nat * zeta k l 1%nat)
     + B 2%nat * (zeta k l 2%nat * zeta k l 2%nat)).

Lemma nlit_half : nlit 1 2 = (/ 2)%R :> R.
Proof. cbn. lra. Qed.

Ltac unR := rewrite ?nz_R; cbn [nadd nsub nmul ndiv nopp nabs nsqrt Rnum].

Lemma xcalc_diag_R n f4 (w : nat -> R) f3 fm1 fm2 k :
  let res := flagged (make_fermi_checks fm1 fm2) in
  (forall l, (l < n)%nat -> 0 < w l) -> (k < n)%nat ->
  (forall l, (l < n)%nat -> res k k l = false -> 2 * w k - w l <> 0) ->
  xcalc_diag n f4 w f3 (make_fermi_checks fm1 fm2) k = spec_xkk n f4 w f3 res k.
Proof.
  intros res Hw Hk Hd. unfold xcalc_diag, spec_xkk. rewrite acc_sub_R. unR.
  unfold range. rewrite Nat.sub_0_r. fold res.
  match goal with |- _ + (0 - ?a) = _ - ?b => cut (a = b); [intros ->; lra|] end.
  apply Rsum_ext. intros l Hl. apply in_seq in Hl.
  pose proof (Hw k Hk). pose proof (Hw l ltac:(lia)).
  destruct (res k k l) eqn:E; unfold keep, nsq; unR.
  - field. lra.
  - pose proof (Hd l ltac:(lia) E). field. repeat split; try lra.
    intros Q. apply H1. assert ((2 * w k - w l) * (2 * w k + w l) = 0) as Z by lra.
    apply Rmult_integral in Z. lra.
Qed.

(** the reported lists of an asymmetric top *)
Definition asym_lists (fm1 : list (nat * nat)) (fm2 : list (nat * nat * nat)) : Prop :=
  (forall i j, In (i, j) fm1 -> i <> j) /\
  (forall i j k, In (i, j, k) fm2 -> (k < j < i)%nat).

Lemma sum4_eq x a a' b b' d d' :
  a = a' -> b = - b' -> d = d' -> x + (0 - a) + b + d = x - a' - b' + d'.
Proof. intros; subst; lra. Qed.

Lemma xcalc_off_R n f4 (w : nat -> R) f3 zeta B fm1 fm2 k l :
  let res := flagged (make_fermi_checks fm1 fm2) in
  asym_lists fm1 fm2 ->
  (forall l, (l < n)%nat -> 0 < w l) -> (k < n)%nat -> (l < n)%nat -> k <> l ->
  (forall i j m, (i < n)%nat -> (j < n)%nat -> (m < n)%nat ->
     res i j m = false -> w i + w j - w m <> 0) ->
  xcalc_off n f4 w f3 zeta B (make_fermi_checks fm1 fm2) k l = spec_xkl n f4 w f3 zeta B res k l.
Proof.
  intros res [A1 A2] Hw Hk Hl Hkl Hd. unfold xcalc_off, spec_xkl. rewrite acc_sub_R, nsum_R. unR.
  unfold range. rewrite Nat.sub_0_r.
  apply sum4_eq.
  - apply Rsum_ext. intros m Hm. unR. reflexivity.
  - rewrite <- Rsum_opp. apply Rsum_ext. intros m Hm. apply in_seq in Hm.
    assert (m < n)%nat as Hmn by lia.
    pose proof (Hw k Hk). pose proof (Hw l Hl). pose proof (Hw m Hmn).
    unfold xcalc_term. fold res. unfold nsq. unR. rewrite nlit_half.
    assert (N : forall i j p, (i < n)%nat -> (j < n)%nat -> (p < n)%nat ->
                res i j p = true -> resonant fm1 fm2 i j p)
      by (intros i j p _ _ _ E; now apply flagged_resonant).
    pose proof (N k m l Hk Hmn Hl) as Nk. pose proof (N k l m Hk Hl Hmn) as Nm.
    pose proof (N l m k Hl Hmn Hk) as Nl.
    pose proof (Hd k m l Hk Hmn Hl) as Dk. pose proof (Hd k l m Hk Hl Hmn) as Dm.
    pose proof (Hd l m k Hl Hmn Hk) as Dl.
    assert (X : forall i j p, resonant fm1 fm2 i j p -> i <> p /\ j <> p).
    { intros i j p [[-> Q]|[Q|Q]]; [apply A1 in Q|apply A2 in Q|apply A2 in Q]; lia. }
    assert (Y : forall i j p, i <> j -> resonant fm1 fm2 i j p -> (p < i)%nat /\ (p < j)%nat).
    { intros i j p Hij [[-> Q]|[Q|Q]]; [congruence|apply A2 in Q|apply A2 in Q]; lia. }
    unfold keep.
    destruct (res k m l) eqn:Ek, (res k l m) eqn:Em, (res l m k) eqn:El;
      repeat match goal with Q : true = true -> _ |- _ => specialize (Q eq_refl) end;
      repeat match goal with Q : false = false -> _ |- _ => specialize (Q eq_refl) end;
      repeat match goal with Q : false = true -> _ |- _ => clear Q end;
      repeat match goal with Q : true = false -> _ |- _ => clear Q end;
      repeat match goal with
        Q : resonant fm1 fm2 ?i ?j ?p |- _ =>
          pose proof (X i j p Q); pose proof (fun h => Y i j p h Q); clear Q end;
      destruct (Nat.eqb_spec m l) as [Eml|Eml], (Nat.eqb_spec k m) as [Ekm|Ekm]; cbn [andb];
      try (exfalso; lia); try subst m;
      try (field; repeat split; try lra; try (intros Q0; nra); fail).
  - unfold nsq. reflexivity.
Qed.

(** ** E0 *)

(** the standard second-order formula for E0 with the terms of reported resonances left
    out *)
Definition spec_e0 (n : nat) (f4 : nat -> nat -> nat -> nat -> R) (w : nat -> R)
  (f3 : nat -> nat -> nat -> R) (res : nat -> nat -> nat -> bool) : R :=
  Rsum (seq 0 n) (fun k => f4 k k k k / 64)
  - Rsum (seq 0 n) (fun k => 7 * (f3 k k k * f3 k k k) / (576 * w k))
  + Rsum (seq 0 n) (fun k => Rsum (seq 0 n) (fun l =>
      if (l =? k)%nat then 0 else
      3 / 128 * (f3 k k l * f3 k k l) *
      (keep (res k k l) (1 / (2 * w k - w l)) - 1 / (2 * w k + w l))))
  - Rsum (seq 0 n) (fun k => Rsum (seq 0 k) (fun l => Rsum (seq 0 l) (fun m =>
      / 32 * (f3 k l m * f3 k l m) *
      (1 / (w k + w l + w m)
       - keep (res k m l) (1 / (w k + w m - w l))
       - keep (res k l m) (1 / (w k + w l - w m))
       - keep (res l m k) (1 / (w l + w m - w k)))))).

(** what the program adds beyond that for each reported resonance *)
Definition e0_excess (n : nat) (w : nat -> R) (f3 : nat -> nat -> nat -> R)
  (res : nat -> nat -> nat -> bool) : R :=
  Rsum (seq 0 n) (fun k => Rsum (seq 0 n) (fun l =>
      if (l =? k)%nat then 0 else
      if res k k l then 3 / 64 * (f3 k k l * f3 k k l) / (2 * w k + w l) else 0))
  - Rsum (seq 0 n) (fun k => Rsum (seq 0 k) (fun l => Rsum (seq 0 l) (fun m =>
      if res k l m then / 32 * (f3 k l m * f3 k l m) *
        (1 / (w k + w l + w m) + 3 / (w k - w l + w m) + 1 / (w k - w l - w m))
      else 0))).

Lemma filter_lt_seq m n : (m <= n)%nat -> filter (fun l => l <? m)%nat (seq 0 n) = seq 0 m.
Proof.
  induction n as [|n IH]; intros Hm.
  - assert (m = 0)%nat as -> by lia. reflexivity.
  - rewrite seq_S, filter_app. cbn [filter plus].
    destruct (Nat.eq_dec m (S n)) as [->|Hn].
    + destruct (Nat.ltb_spec n (S n)); [|lia]. rewrite seq_S. f_equal.
      clear. assert (forall l, (forall x, In x l -> x < S n)%nat -> filter (fun l => l <? S n)%nat l = l) as Q.
      { induction l as [|a l IH]; intros Hl; [reflexivity|]. cbn [filter].
        destruct (Nat.ltb_spec a (S n)); [|specialize (Hl a (or_introl eq_refl)); lia].
        f_equal. apply IH. intros; apply Hl; cbn; auto. }
      apply Q. intros x Hx. apply in_seq in Hx. lia.
    + rewrite IH by lia. destruct (Nat.ltb_spec n m); [lia|apply app_nil_r].
Qed.
Lemma Rsum_filter_neq k l (f : nat -> R) :
  Rsum (filter (fun a => negb (k =? a)%nat) l) f = Rsum l (fun a => if (a =? k)%nat then 0 else f a).
Proof.
  induction l as [|a l IH]; [reflexivity|]. cbn [filter]. rewrite Rsum_cons, <- IH.
  rewrite (Nat.eqb_sym k a). destruct (a =? k)%nat; cbn [negb]; [lra|now rewrite Rsum_cons].
Qed.
Lemma fold_minus_R {A} (step : R -> A -> R) (g : A -> R) l x :
  (forall y a, In a l -> step y a = (y - g a)%R) -> fold_left step l x = (x - Rsum l g)%R.
Proof.
  intros E. rewrite (fold_plus_R step (fun a => - g a)%R) by (intros; rewrite E by assumption; lra).
  rewrite Rsum_opp. lra.
Qed.

Lemma e0_kkl_R (w : nat -> R) f3 fm1 fm2 k l :
  (forall j j', In (k, j) fm1 -> In (k, j') fm1 -> j = j') ->
  (forall i j m, In (i, j, m) fm2 -> i <> j) ->
  let res := flagged (make_fermi_checks fm1 fm2) in
  0 < w k -> 0 < w l -> (res k k l = false -> 2 * w k - w l <> 0) ->
  e0_kkl w f3 (make_fermi_checks fm1 fm2) k l =
  3 / 128 * (f3 k k l * f3 k k l) *
      (keep (res k k l) (1 / (2 * w k - w l)) - 1 / (2 * w k + w l))
  + (if res k k l then 3 / 64 * (f3 k k l * f3 k k l) / (2 * w k + w l) else 0).
Proof.
  intros U D res Hk Hl Hd. unfold e0_kkl, nsq. unR.
  assert (E : check1 (ifrm1 (make_fermi_checks fm1 fm2)) k l = res k k l).
  { unfold check1. rewrite ifrm1_eq. apply eq_true_iff_eq. unfold res. rewrite flagged_resonant.
    unfold resonant. split.
    - destruct (last_for Nat.eqb k fm1) eqn:Q; [|discriminate].
      intros E%Nat.eqb_eq. subst. left. split; [reflexivity|].
      now apply (last_for_in Nat.eqb Nat.eqb_eq).
    - intros [[_ Q]|[Q|Q]]; [|apply D in Q; congruence|apply D in Q; congruence].
      rewrite (last_for_unique Nat.eqb Nat.eqb_eq k fm1 l); [apply Nat.eqb_refl| |exact Q].
      intros v Hv. now apply U. }
  rewrite E. destruct (res k k l); unfold keep.
  - field. lra.
  - specialize (Hd eq_refl). field. repeat split; try lra.
    intros Q. apply Hd. assert ((2 * w k - w l) * (2 * w k + w l) = 0) as Z by lra.
    apply Rmult_integral in Z. lra.
Qed.

Lemma e0_klm_R (w : nat -> R) f3 fm1 fm2 k l m :
  asym_lists fm1 fm2 -> (m < l < k)%nat ->
  let res := flagged (make_fermi_checks fm1 fm2) in
  0 < w k -> 0 < w l -> 0 < w m ->
  w k + w m - w l <> 0 -> w l + w m - w k <> 0 -> (res k l m = false -> w k + w l - w m <> 0) ->
  e0_klm w f3 (make_fermi_checks fm1 fm2) k l m =
  / 32 * (f3 k l m * f3 k l m) *
      (1 / (w k + w l + w m)
       - keep (res k m l) (1 / (w k + w m - w l))
       - keep (res k l m) (1 / (w k + w l - w m))
       - keep (res l m k) (1 / (w l + w m - w k)))
  + (if res k l m then / 32 * (f3 k l m * f3 k l m) *
        (1 / (w k + w l + w m) + 3 / (w k - w l + w m) + 1 / (w k - w l - w m))
      else 0).
Proof.
  intros [A1 A2] Ho res Hk Hl Hm D1 D2 D3. unfold e0_klm, nsq. unR. fold res.
  assert (E1 : res k m l = false).
  { apply not_true_iff_false. unfold res. rewrite flagged_resonant.
    intros [[? _]|[Q|Q]]; [lia|apply A2 in Q; lia..]. }
  assert (E2 : res l m k = false).
  { apply not_true_iff_false. unfold res. rewrite flagged_resonant.
    intros [[? _]|[Q|Q]]; [lia|apply A2 in Q; lia..]. }
  rewrite E1, E2. destruct (res k l m); unfold keep.
  - field. repeat split; lra.
  - specialize (D3 eq_refl). field. repeat split; lra.
Qed.

Lemma e0_exact_lemma n f4 (w : nat -> R) f3 fm1 fm2 :
  let res := flagged (make_fermi_checks fm1 fm2) in
  asym_lists fm1 fm2 ->
  (forall i j j', In (i, j) fm1 -> In (i, j') fm1 -> j = j') ->
  (forall l, (l < n)%nat -> 0 < w l) ->
  (forall i j m, (i < n)%nat -> (j < n)%nat -> (m < n)%nat ->
     res i j m = false -> w i + w j - w m <> 0) ->
  make_e0 f4 w f3 (make_fermi_checks fm1 fm2) (singles n) =
  spec_e0 n f4 w f3 res + e0_excess n w f3 res.
Proof.
  intros res A U Hw Hd. unfold make_e0. rewrite i1mode_singles, !nsum_R.
  rewrite (fold_plus_R _ (fun k => Rsum (seq 0 n) (fun l => if (l =? k)%nat then 0 else
     e0_kkl w f3 (make_fermi_checks fm1 fm2) k l)))
    by (intros; rewrite acc_add_R, Rsum_filter_neq; reflexivity).
  rewrite (fold_minus_R _ (fun k => Rsum (seq 0 k) (fun l => Rsum (seq 0 l) (fun m =>
     e0_klm w f3 (make_fermi_checks fm1 fm2) k l m)))).
  2:{ intros y k Hk. apply in_seq in Hk.
      rewrite filter_lt_seq by lia. apply fold_minus_R. intros z l Hl. apply in_seq in Hl.
      rewrite acc_sub_R, filter_lt_seq by lia. reflexivity. }
  unfold spec_e0, e0_excess. unR.
  match goal with |- ?a + ?b + (0 + ?c) + (0 - ?d) = ?a' - ?b' + ?c1 - ?d1 + (?c2 - ?d2) =>
    assert (b = - b') as E1; [|assert (c = c1 + c2) as E2; [|assert (d = d1 + d2) as E3;
      [|rewrite E1, E2, E3; lra]]] end.
  - rewrite <- Rsum_opp. apply Rsum_ext. intros k Hk. apply in_seq in Hk.
    pose proof (Hw k ltac:(lia)). unfold nsq. unR. field. lra.
  - rewrite <- Rsum_plus. apply Rsum_ext. intros k Hk. apply in_seq in Hk.
    rewrite <- Rsum_plus. apply Rsum_ext. intros l Hl. apply in_seq in Hl.
    destruct (Nat.eqb_spec l k); [lra|].
    destruct A as [A1 A2]. apply e0_kkl_R.
    + intros; eapply U; eauto.
    + intros i j m Q. apply A2 in Q. lia.
    + apply Hw. lia.
    + apply Hw. lia.
    + intros Q. specialize (Hd k k l ltac:(lia) ltac:(lia) ltac:(lia) Q). lra.
  - rewrite <- Rsum_plus. apply Rsum_ext. intros k Hk. apply in_seq in Hk.
    rewrite <- Rsum_plus. apply Rsum_ext. intros l Hl. apply in_seq in Hl.
    rewrite <- Rsum_plus. apply Rsum_ext. intros m Hm. apply in_seq in Hm.
    destruct A as [A1 A2].
    assert (G1 : res k m l = false).
    { apply not_true_iff_false. unfold res. rewrite flagged_resonant.
      intros [[? _]|[Q|Q]]; [lia|apply A2 in Q; lia..]. }
    assert (G2 : res l m k = false).
    { apply not_true_iff_false. unfold res. rewrite flagged_resonant.
      intros [[? _]|[Q|Q]]; [lia|apply A2 in Q; lia..]. }
    apply e0_klm_R; try (apply Hw; lia); [split; assumption|lia|..].
    + apply Hd; auto; lia.
    + apply Hd; auto; lia.
    + apply Hd; lia.
Qed.

(** ** statements with the resonances given by the reported lists *)
Definition reported (fm1 : list (nat * nat)) (fm2 : list (nat * nat * nat))
  (res : nat -> nat -> nat -> bool) : Prop :=
  forall i j k, res i j k = true <-> resonant fm1 fm2 i j k.

Lemma reported_flagged fm1 fm2 res i j k :
  reported fm1 fm2 res -> res i j k = flagged (make_fermi_checks fm1 fm2) i j k.
Proof. intros Hr. apply eq_true_iff_eq. rewrite flagged_resonant. apply Hr. Qed.

Lemma xcalc_exact_lemma n f4 (w : nat -> R) f3 zeta B fm1 fm2 res :
  reported fm1 fm2 res ->
  asym_lists fm1 fm2 ->
  (forall l, (l < n)%nat -> 0 < w l) ->
  (forall i j m, (i < n)%nat -> (j < n)%nat -> (m < n)%nat ->
     res i j m = false -> w i + w j - w m <> 0) ->
  let x := xcalc n f4 w f3 zeta B fm1 fm2 in
  (forall k, (k < n)%nat -> x k k = spec_xkk n f4 w f3 res k) /\
  (forall k l, (k < n)%nat -> (l < k)%nat ->
     x k l = spec_xkl n f4 w f3 zeta B res k l /\ x l k = spec_xkl n f4 w f3 zeta B res k l).
Proof.
  intros Hr A Hw Hd x.
  assert (Hd' : forall i j m, (i < n)%nat -> (j < n)%nat -> (m < n)%nat ->
     flagged (make_fermi_checks fm1 fm2) i j m = false -> w i + w j - w m <> 0).
  { intros i j m Hi Hj Hm. rewrite <- (reported_flagged _ _ _ _ _ _ Hr). auto. }
  assert (K : forall i j k y, keep (res i j k) y = keep (flagged (make_fermi_checks fm1 fm2) i j k) y).
  { intros. now rewrite (reported_flagged _ _ _ _ _ _ Hr). }
  split.
  - intros k Hk. unfold x. rewrite xcalc_assigned_lemma, Nat.eqb_refl by exact Hk.
    rewrite xcalc_diag_R; [|exact Hw|exact Hk|].
    + unfold spec_xkk. f_equal. apply Rsum_ext. intros l _. now rewrite K.
    + intros l Hl Q. specialize (Hd' k k l Hk Hk Hl Q). lra.
  - intros k l Hk Hl.
    assert (E : spec_xkl n f4 w f3 zeta B res k l
              = xcalc_off n f4 w f3 zeta B (make_fermi_checks fm1 fm2) k l).
    { rewrite xcalc_off_R by (try assumption; lia). unfold spec_xkl. do 2 f_equal.
      apply Rsum_ext. intros m _. now rewrite !K. }
    unfold x. rewrite E, !xcalc_assigned_lemma by lia.
    destruct (Nat.eqb_spec k l), (Nat.eqb_spec l k); try lia.
    rewrite (Nat.max_comm l k), (Nat.min_comm l k), Nat.max_l, Nat.min_r by lia. auto.
Qed.

Lemma e0_reported_lemma n f4 (w : nat -> R) f3 fm1 fm2 res :
  reported fm1 fm2 res ->
  asym_lists fm1 fm2 ->
  (forall i j j', In (i, j) fm1 -> In (i, j') fm1 -> j = j') ->
  (forall l, (l < n)%nat -> 0 < w l) ->
  (forall i j m, (i < n)%nat -> (j < n)%nat -> (m < n)%nat ->
     res i j m = false -> w i + w j - w m <> 0) ->
  make_e0 f4 w f3 (make_fermi_checks fm1 fm2) (singles n) =
  spec_e0 n f4 w f3 res + e0_excess n w f3 res.
Proof.
  intros Hr A U Hw Hd. rewrite e0_exact_lemma; [|assumption..|].
  - assert (K : forall i j k y, keep (res i j k) y = keep (flagged (make_fermi_checks fm1 fm2) i j k) y).
    { intros. now rewrite (reported_flagged _ _ _ _ _ _ Hr). }
    assert (E : forall i j k, flagged (make_fermi_checks fm1 fm2) i j k = res i j k)
      by (intros; symmetry; now apply reported_flagged).
    unfold spec_e0, e0_excess.
    repeat match goal with
      | |- Rplus _ _ = Rplus _ _ => apply f_equal2
      | |- Rminus _ _ = Rminus _ _ => apply f_equal2 end; try reflexivity;
      apply Rsum_ext; intros k _; apply Rsum_ext; intros l _.
    + now rewrite K.
    + apply Rsum_ext. intros m _. now rewrite !K.
    + now rewrite E.
    + apply Rsum_ext. intros m _. now rewrite E.
  - intros i j m Hi Hj Hm. rewrite <- (reported_flagged _ _ _ _ _ _ Hr). auto.
Qed.
