(** The S-reduced sextic constants when sigma is infinite, in double precision. *)
From Coq Require Import List ZArith Arith Bool Lia Floats.SpecFloat.
From Verif Require Import Num Loops Index Modes Anharm VibRot Distort VibRotWitness.
Import ListNotations.
Open Scope nat_scope.

(** all seven S-reduced constants are NaN *)
Definition all_eq {F} (x : F) (s : sextic F) : Prop :=
  hj s = x /\ hjk s = x /\ hkj s = x /\ hk s = x /\ h1 s = x /\ h2 s = x /\ h3 s = x.
Definition all_nan (s : sextic f64) : Prop := all_eq S754_nan s.

(** For any arithmetic with an absorbing element [nan] and infinite elements *)
Section Abs.
  Context {F : Type} {N : Num F}.
  Variables (nan inf pinf : F) (big : F -> Prop).
  Hypothesis add_l : forall x, nadd nan x = nan.
  Hypothesis add_r : forall x, nadd x nan = nan.
  Hypothesis sub_l : forall x, nsub nan x = nan.
  Hypothesis sub_r : forall x, nsub x nan = nan.
  Hypothesis mul_l : forall x, nmul nan x = nan.
  Hypothesis mul_r : forall x, nmul x nan = nan.
  Hypothesis div_l : forall x, ndiv nan x = nan.
  Hypothesis div_r : forall x, ndiv x nan = nan.
  Hypothesis big_mul : forall x, big (nmul inf x).
  Hypothesis big_add : forall x y, big x -> big (nadd x y).
  Hypothesis big_sub : forall x y, big x -> big (nsub x y).
  Hypothesis big_div : forall x, big x -> ndiv x pinf = nan.
  Hypothesis Hd : nadd (nmul (nmul (nz 2) inf) inf) (ndiv (nz 27) (nz 16)) = pinf.

  Lemma sextic_consts_abs r (rotcon : nat -> F) c id id' irep t phi :
    is_asymm_top r = false ->
    irep = (if is_prolate r then 0 else 5) ->
    princ_cart irep = Some (c, id') ->
    sextic_sym_sigma (fun i => rotcon (at3 id' i)) = inf ->
    exists s, sextic_consts r true rotcon id t phi = Some s /\ all_eq nan s.
  Proof.
    intros Ha Hi Hp Hs. unfold sextic_consts. cbn [negb].
    destruct (make_tsix t) as [t400 t220 t040 t202 t022 t004].
    destruct (make_psix phi) as [phi600 phi420 phi240 phi060 phi402 phi222 phi042 phi204 phi024 phi006].
    rewrite Ha, orb_false_r, <- Hi, Hp. cbn [obind]. rewrite Hs. cbn [obind].
    rewrite Hd.
    eexists. split; [reflexivity|].
    unfold all_eq. cbn [hj hjk hkj hk h1 h2 h3].
    rewrite !big_div by (apply big_add, big_sub, big_mul).
    repeat first [rewrite add_l|rewrite add_r|rewrite sub_l|rewrite sub_r
      |rewrite mul_l|rewrite mul_r|rewrite div_l|rewrite div_r].
    repeat split; reflexivity.
  Qed.
End Abs.

Lemma f_big_mul s (x : f64) : not_finite (nmul (S754_infinity s : f64) x).
Proof. destruct x; exact I. Qed.
Lemma f_big_add (x y : f64) : not_finite x -> not_finite (nadd x y).
Proof.
  destruct x as [?|?| |? ? ?], y as [?|?| |? ? ?]; cbn; try tauto.
  destruct (Bool.eqb _ _); exact (fun _ => I).
Qed.
Lemma f_big_sub (x y : f64) : not_finite x -> not_finite (nsub x y).
Proof.
  destruct x as [?|?| |? ? ?], y as [?|?| |? ? ?]; cbn; try tauto.
  destruct (Bool.eqb _ _); exact (fun _ => I).
Qed.
Lemma f_big_div (x : f64) : not_finite x -> ndiv x (S754_infinity false : f64) = S754_nan.
Proof. destruct x as [?|?| |? ? ?]; cbn; tauto. Qed.

Lemma sextic_consts_nan r (rotcon : nat -> f64) c id id' irep t phi b :
  is_asymm_top r = false ->
  irep = (if is_prolate r then 0 else 5) ->
  princ_cart irep = Some (c, id') ->
  sextic_sym_sigma (fun i => rotcon (at3 id' i)) = S754_infinity b ->
  exists s, sextic_consts r true rotcon id t phi = Some s /\ all_nan s.
Proof.
  intros Ha Hi Hp Hs.
  apply (@sextic_consts_abs f64 F64num S754_nan (S754_infinity b) (S754_infinity false) not_finite)
    with (c := c) (id' := id') (irep := irep); try assumption.
  all: try (intros x; destruct x; reflexivity).
  all: try apply f_big_add; try apply f_big_sub; try apply f_big_mul; try apply f_big_div.
  destruct b; vm_compute; reflexivity.
Qed.

Lemma make_t_some {F} {N : Num F} c (tp : nat -> nat -> F) :
  c = (1, 0, 2) -> exists t, make_t 3 c tp = Some t.
Proof. intros ->. eexists. reflexivity. Qed.
Lemma make_phi_some {F} {N : Num F} c (s : nat -> nat -> nat -> F) :
  c = (1, 0, 2) -> exists p, make_phi 3 c s = Some p.
Proof. intros ->. eexists. reflexivity. Qed.

Lemma sextic_nan_lemma nvib nfreq (rotcon primat freq : nat -> f64) wl zm f3 b :
  sextic_sym_sigma (fun i => rotcon (at3 (1, 0, 2) i)) = S754_infinity b ->
  exists s, sextic_new OblateSymmTop nvib nfreq rotcon primat freq wl zm f3 = Some s /\ all_nan s.
Proof.
  intros Hs. unfold sextic_new.
  cbn [is_linear is_diatomic is_sym_top obind princ_cart IPTOC ICTOP nth_error].
  match goal with |- context [make_t 3 ?c ?tp] =>
    destruct (make_t_some c tp eq_refl) as (t & Et); rewrite Et end.
  cbn [obind].
  match goal with |- context [make_phi 3 ?c ?s] =>
    destruct (make_phi_some c s eq_refl) as (p & Ep); rewrite Ep end.
  cbn [obind].
  apply (sextic_consts_nan OblateSymmTop rotcon (1, 0, 2) _ (1, 0, 2) 5 t p b eq_refl eq_refl eq_refl).
  exact Hs.
Qed.

(** the rotational constants of an oblate top whose first two are the same number *)
Lemma sextic_refuted_lemma :
  exists rotcon : nat -> f64,
    (forall i, i < 3 -> ~ not_finite (rotcon i)) /\ rotcon 0 = rotcon 1 /\
    nltb (rotcon 2) (rotcon 1) = true /\
    forall nvib nfreq primat freq wl zm f3,
    exists s, sextic_new OblateSymmTop nvib nfreq rotcon primat freq wl zm f3 = Some s /\ all_nan s.
Proof.
  exists (at_nat [nlit 99443 10000; nlit 99443 10000; nlit 61960 10000]).
  split; [|split; [reflexivity|split; [vm_compute; reflexivity|]]].
  - intros i Hi. destruct i as [|[|[|]]]; try lia; vm_compute; tauto.
  - intros. apply (sextic_nan_lemma _ _ _ _ _ _ _ _ false). vm_compute. reflexivity.
Qed.
