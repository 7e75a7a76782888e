(** Lemmas about binary64 arithmetic as defined by the standard library: sign symmetry of
    the operations, and their consequences for the Coriolis constants. *)
From Coq Require Import List ZArith Arith Bool Lia Floats.SpecFloat.
From Verif Require Import Num Loops Modes Anharm VibRot.
Import ListNotations.
Open Scope Z_scope.

(** [b] is the negative of [a], up to the sign of zero; a NaN is the negative of a NaN *)
Definition anti (a b : f64) : Prop :=
  match a, b with
  | S754_zero _, S754_zero _ => True
  | S754_infinity s, S754_infinity s' => s' = negb s
  | S754_finite s m e, S754_finite s' m' e' => s' = negb s /\ m' = m /\ e' = e
  | S754_nan, S754_nan => True
  | _, _ => False
  end.

Lemma anti_opp a : anti a (SFopp a).
Proof. destruct a; cbn; auto. Qed.

Lemma anti_sym a b : anti a b -> anti b a.
Proof.
  destruct a, b; cbn; auto.
  - intros ->. now rewrite negb_involutive.
  - intros (-> & -> & ->). now rewrite negb_involutive.
Qed.

Lemma round_aux_anti s m e l :
  anti (binary_round_aux f64_prec f64_emax s m e l)
       (binary_round_aux f64_prec f64_emax (negb s) m e l).
Proof.
  unfold binary_round_aux.
  destruct (shr_fexp _ _ m e l) as [m1 e1].
  destruct (shr_fexp _ _ _ e1 loc_Exact) as [m2 e2].
  destruct (shr_m m2); cbn [anti]; auto.
  destruct (_ <=? _); cbn [anti]; auto.
Qed.

Lemma round_anti s m e :
  anti (binary_round f64_prec f64_emax s m e)
       (binary_round f64_prec f64_emax (negb s) m e).
Proof. unfold binary_round. destruct (shl_align _ _ _). apply round_aux_anti. Qed.

Lemma normalize_anti m e s s' :
  anti (binary_normalize f64_prec f64_emax m e s)
       (binary_normalize f64_prec f64_emax (- m) e s').
Proof.
  destruct m as [|p|p]; cbn [binary_normalize Z.opp].
  - exact I.
  - apply round_anti.
  - apply (round_anti true).
Qed.

Lemma cond_Zopp_negb s m : cond_Zopp (negb s) m = - cond_Zopp s m.
Proof. destruct s; cbn; lia. Qed.

Lemma add_anti a b a' b' : anti a b -> anti a' b' -> anti (nadd a a') (nadd b b').
Proof.
  cbn [nadd F64num].
  destruct a as [s|s| |s m e], b as [t|t| |t n f]; cbn [anti]; try contradiction;
  destruct a' as [s'|s'| |s' m' e'], b' as [t'|t'| |t' n' f']; cbn [anti]; try contradiction;
    intros A B; cbn [SFadd anti]; auto.
  - destruct (Bool.eqb s s'), (Bool.eqb t t'); cbn; auto.
  - subst. destruct s, s'; cbn; auto.
  - destruct A as (-> & -> & ->), B as (-> & -> & ->).
    rewrite !cond_Zopp_negb, <- Z.opp_add_distr. apply normalize_anti.
Qed.

Lemma sub_anti a b : anti (nsub a b) (nsub b a).
Proof.
  cbn [nsub F64num].
  destruct a as [s|s| |s m e], b as [t|t| |t n f];
    try exact I; try (destruct s; exact I); try (destruct t; exact I);
    try (destruct s, t; cbn; auto; fail); try (destruct s; cbn; auto; fail);
    try (destruct t; cbn; auto; fail).
  cbn [SFsub].
  rewrite (Z.min_comm f e).
  set (x := cond_Zopp s _). set (y := cond_Zopp t _).
  replace (y - x) with (- (x - y)) by lia. apply normalize_anti.
Qed.

Lemma mul_comm (a b : f64) : nmul a b = nmul b a.
Proof.
  cbn [nmul F64num].
  destruct a as [s|s| |s m e], b as [t|t| |t n f]; cbn [SFmul]; auto;
    try (rewrite xorb_comm; reflexivity).
  rewrite xorb_comm, Pos.mul_comm, Z.add_comm. reflexivity.
Qed.

Lemma fold_anti {A} (g h : A -> f64) l : forall x y,
  (forall i, anti (g i) (h i)) -> anti x y ->
  anti (acc_add l g x) (acc_add l h y).
Proof.
  induction l as [|a l IH]; intros x y E X; [exact X|].
  cbn [acc_add fold_left]. apply IH; [exact E|]. apply add_anti; auto.
Qed.

Lemma zmat_anti natom (lxm : nat -> nat -> f64) k l x :
  anti (zmat natom lxm k l x) (zmat natom lxm l k x).
Proof.
  unfold zmat. destruct x as [|[|x]]; unfold nsum; apply fold_anti; try exact I;
    intros i; rewrite (mul_comm (lxm _ l)), (mul_comm (lxm _ l)); apply sub_anti.
Qed.

(** NaN and zero *)
Definition is_nan64 (a : f64) : Prop := a = S754_nan.
Definition is_zero64 (a : f64) : Prop := exists s, a = S754_zero s.

Lemma eqb_refl64 a : a <> S754_nan -> neqb a a = true.
Proof.
  cbn [neqb F64num]. unfold SFeqb. intros N. destruct a as [s|s| |s m e].
  - reflexivity.
  - now destruct s.
  - congruence.
  - cbn. unfold Pcompare. rewrite Z.compare_refl, Pos.compare_cont_refl. now destruct s.
Qed.

Lemma anti_eqb a b : anti a b ->
  (a = S754_nan /\ b = S754_nan) \/ (neqb a (nopp b) = true /\ neqb b (nopp a) = true).
Proof.
  destruct a as [s|s| |s m e], b as [t|t| |t n f]; cbn [anti]; try contradiction; auto.
  - intros ->. right. cbn [nopp F64num SFopp]. rewrite negb_involutive.
    split; apply eqb_refl64; discriminate.
  - intros (-> & -> & ->). right. cbn [nopp F64num SFopp]. rewrite negb_involutive.
    split; apply eqb_refl64; discriminate.
Qed.

Lemma zeta_double_lemma natom (lxm : nat -> nat -> f64) k l x :
  ((zmat natom lxm k l x = S754_nan /\ zmat natom lxm l k x = S754_nan) \/
   neqb (zmat natom lxm k l x) (nopp (zmat natom lxm l k x)) = true) /\
  (zmat natom lxm k k x = S754_nan \/ is_zero64 (zmat natom lxm k k x)).
Proof.
  split.
  - destruct (anti_eqb _ _ (zmat_anti natom lxm k l x)) as [A|[A _]]; auto.
  - pose proof (zmat_anti natom lxm k k x) as A.
    destruct (zmat natom lxm k k x) as [s|s| |s m e]; cbn [anti] in A; auto.
    + right. now exists s.
    + destruct s; discriminate.
    + destruct A as (A & _). destruct s; discriminate.
Qed.

(** ** [close] *)
Lemma anti_abs a b : anti a b -> nabs a = nabs b.
Proof.
  cbn [nabs F64num].
  destruct a, b; cbn [anti]; try contradiction; auto.
  intros (_ & -> & ->). reflexivity.
Qed.

Lemma close_double_lemma (a b eps : f64) :
  close a b eps = close b a eps /\
  (a = S754_nan \/ b = S754_nan \/ eps = S754_nan -> close a b eps = false) /\
  (forall s m e, a = S754_finite s m e -> b = a -> close a b eps = nltb (nz 0) eps).
Proof.
  split; [unfold close; now rewrite (anti_abs _ _ (sub_anti a b))|].
  unfold close. cbn [nsub nabs nltb F64num]. unfold SFltb. split.
  - intros [->|[->| ->]]; cbn [SFsub SFabs SFcompare]; [reflexivity| |].
    + destruct a; reflexivity.
    + now destruct (SFabs _).
  - intros s m e -> ->. cbn [SFsub]. rewrite Z.sub_diag. reflexivity.
Qed.
