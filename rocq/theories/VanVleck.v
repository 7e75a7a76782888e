(** Effective Hamiltonian of coupled oscillators to second order (Van Vleck), for pairs of
    different states. *)
From Coq Require Import Reals Lra List ZArith Arith Permutation Lia Bool FunctionalExtensionality.
From Verif Require Import Num Loops Index Modes ListFacts ModesFacts StatesFacts ResFacts
  Anharm AnharmFacts EnergyFacts Polyads PolyadFacts PerturbFacts PerturbSum.
Import ListNotations.
Open Scope nat_scope.
Local Open Scope R_scope.

(** ** the specification *)
Section Spec.
  Variable n : nat.
  Variables (w : nat -> R) (f3 : nat -> nat -> nat -> R) (f4 : nat -> nat -> nat -> nat -> R)
    (zeta : nat -> nat -> nat -> R) (B : nat -> R) (res : nat -> nat -> nat -> bool).

  (** the first-order correction of the wave function of [v], without the transitions of the
      reported resonances *)
  Definition first_order (v : occ) : occ -> R := fun u =>
    if near n res v u then 0
    else cubic n f3 (ket n v) u / (harm_energy n w v - harm_energy n w u).

  (** the element of the effective Hamiltonian between different states [u] and [v]: the
      cubic terms in first order, if [u] and [v] differ by a reported resonance; the quartic
      terms and the rotational energy of the vibrational angular momentum in first order;
      the cubic terms in second order, averaged over the two energies *)
  Definition effective (u v : occ) : R :=
    (if near n res v u then cubic n f3 (ket n v) u else 0) + quartic n f4 (ket n v) u
    + (cubic n f3 (first_order v) u + cubic n f3 (first_order u) v) / 2
    - (B 0%nat * angular n w zeta 0 (angular n w zeta 0 (ket n v)) u
       + B 1%nat * angular n w zeta 1 (angular n w zeta 1 (ket n v)) u
       + B 2%nat * angular n w zeta 2 (angular n w zeta 2 (ket n v)) u).
End Spec.

(** ** ladder operators *)
Definition letter : Type := nat * bool.
Definition bar (x : letter) : letter := (fst x, negb (snd x)).
Definition es (x : letter) : R := if snd x then 1 else -1.
Definition opr (x : letter) (psi : occ -> R) : occ -> R := fun u =>
  if snd x then sqrt (INR (u (fst x)) / 2) * psi (down (fst x) u)
  else sqrt (INR (u (fst x) + 1) / 2) * psi (up (fst x) u).
Definition ops (l : list letter) (psi : occ -> R) : occ -> R := fold_right opr psi l.
(** the commutator of two letters is a number *)
Definition com (x y : letter) : R :=
  if (fst x =? fst y)%nat then
    match snd x, snd y with false, true => / 2 | true, false => - / 2 | _, _ => 0 end
  else 0.

Lemma letter_dec (x y : letter) : {x = y} + {x <> y}.
Proof. decide equality; [apply Bool.bool_dec|apply Nat.eq_dec]. Qed.
Lemma bar_bar x : bar (bar x) = x.
Proof. destruct x as [l s]. unfold bar. cbn. now rewrite Bool.negb_involutive. Qed.
Lemma es_bar x : es (bar x) = - es x.
Proof. destruct x as [l []]; unfold es, bar; cbn; lra. Qed.

Lemma pos_letters l psi u : pos l psi u = opr (l, true) psi u + opr (l, false) psi u.
Proof. reflexivity. Qed.
Lemma mom_letters l psi u : mom l psi u = opr (l, true) psi u - opr (l, false) psi u.
Proof. reflexivity. Qed.

Lemma ops_cons x l psi : ops (x :: l) psi = opr x (ops l psi).
Proof. reflexivity. Qed.
Lemma opr_scal x c psi : opr x (fun u => c * psi u) = fun u => c * opr x psi u.
Proof. apply functional_extensionality. intros u. unfold opr. destruct (snd x); ring. Qed.
Lemma ops_scal l c psi : ops l (fun u => c * psi u) = fun u => c * ops l psi u.
Proof. induction l as [|x l IH]; [reflexivity|]. rewrite !ops_cons, IH, opr_scal. reflexivity. Qed.
Lemma opr_plus x psi phi : opr x (fun u => psi u + phi u) = fun u => opr x psi u + opr x phi u.
Proof. apply functional_extensionality. intros u. unfold opr. destruct (snd x); ring. Qed.
Lemma ops_plus l psi phi : ops l (fun u => psi u + phi u) = fun u => ops l psi u + ops l phi u.
Proof. induction l as [|x l IH]; [reflexivity|]. rewrite !ops_cons, IH, opr_plus. reflexivity. Qed.
Lemma opr_sum {A} x (L : list A) (c : A -> R) (psi : A -> occ -> R) u :
  opr x (fun u => Rsum L (fun a => c a * psi a u)) u = Rsum L (fun a => c a * opr x (psi a) u).
Proof.
  unfold opr. destruct (snd x); rewrite <- Rsum_scal; apply Rsum_ext; intros; ring.
Qed.
Lemma ops_sum {A} l (L : list A) (c : A -> R) (psi : A -> occ -> R) :
  ops l (fun u => Rsum L (fun a => c a * psi a u)) = fun u => Rsum L (fun a => c a * ops l (psi a) u).
Proof.
  induction l as [|x l IH]; [reflexivity|]. rewrite ops_cons, IH.
  apply functional_extensionality. intros u. apply opr_sum.
Qed.
Lemma ops_app l l' psi : ops (l ++ l') psi = ops l (ops l' psi).
Proof. apply fold_right_app. Qed.

Lemma up_at l u : up l u l = S (u l).
Proof. unfold up. now rewrite Nat.eqb_refl. Qed.
Lemma down_at l u : down l u l = pred (u l).
Proof. unfold down. now rewrite Nat.eqb_refl. Qed.
Lemma up_other l m u : m <> l -> up l u m = u m.
Proof. intros N. unfold up. now rewrite (proj2 (Nat.eqb_neq m l) N). Qed.
Lemma down_other l m u : m <> l -> down l u m = u m.
Proof. intros N. unfold down. now rewrite (proj2 (Nat.eqb_neq m l) N). Qed.
Lemma down_up l u : down l (up l u) = u.
Proof. apply functional_extensionality. intros i. unfold down, up. destruct (i =? l)%nat; reflexivity. Qed.
Lemma up_down l u : u l <> 0%nat -> up l (down l u) = u.
Proof.
  intros N. apply functional_extensionality. intros i. unfold down, up.
  destruct (Nat.eqb_spec i l) as [->|]; [lia|reflexivity].
Qed.

Lemma opr_com x y psi u : opr x (opr y psi) u = opr y (opr x psi) u + com x y * psi u.
Proof.
  destruct x as [l s], y as [m t]. unfold com. cbn [fst snd].
  destruct (Nat.eqb_spec l m) as [<-|N].
  - destruct s, t; unfold opr; cbn [fst snd]; try ring; rewrite ?up_at, ?down_at.
    + rewrite down_up. destruct (Nat.eq_dec (u l) 0) as [E|E].
      * rewrite E. cbn [pred]. rewrite sq0. replace (0 + 1)%nat with 1%nat by lia.
        pose proof (sq_half 1) as Q. cbn [INR] in *.
        replace (sqrt (1 / 2) * (sqrt (1 / 2) * psi u)) with (sqrt (1 / 2) * sqrt (1 / 2) * psi u) by ring.
        rewrite Q. lra.
      * rewrite (up_down _ _ E). replace (pred (u l) + 1)%nat with (u l) by lia.
        replace (S (u l)) with (u l + 1)%nat by lia.
        rewrite <- !Rmult_assoc, !sq_half, plus_INR. cbn [INR]. lra.
    + rewrite down_up. destruct (Nat.eq_dec (u l) 0) as [E|E].
      * rewrite E. cbn [pred]. rewrite sq0. replace (0 + 1)%nat with 1%nat by lia.
        pose proof (sq_half 1) as Q. cbn [INR] in *.
        replace (sqrt (1 / 2) * (sqrt (1 / 2) * psi u)) with (sqrt (1 / 2) * sqrt (1 / 2) * psi u) by ring.
        rewrite Q. lra.
      * rewrite (up_down _ _ E). replace (pred (u l) + 1)%nat with (u l) by lia.
        replace (S (u l)) with (u l + 1)%nat by lia.
        rewrite <- !Rmult_assoc, !sq_half, plus_INR. cbn [INR]. lra.
  - assert (C : forall a b : nat -> occ -> occ, (a = up \/ a = down) -> (b = up \/ b = down) ->
      b m (a l u) = a l (b m u)).
    { intros a b Ha Hb. apply functional_extensionality. intros i.
      destruct Ha as [-> | ->], Hb as [-> | ->]; unfold up, down;
        destruct (Nat.eqb_spec i m), (Nat.eqb_spec i l); subst; try lia; reflexivity. }
    assert (N' : m <> l) by congruence.
    destruct s, t; unfold opr; cbn [fst snd];
      rewrite ?(up_other l m), ?(down_other l m), ?(up_other m l), ?(down_other m l) by assumption;
      rewrite C by auto; ring.
Qed.

(** ** what a word does to the numbers of quanta *)
Definition shift (l : list letter) (i : nat) : Z :=
  fold_right (fun x z => (sg (snd x) * dl (fst x) i + z)%Z) 0%Z l.
Lemma shift_cons x l i : shift (x :: l) i = (sg (snd x) * dl (fst x) i + shift l i)%Z.
Proof. reflexivity. Qed.
Lemma shift_app l l' i : shift (l ++ l') i = (shift l i + shift l' i)%Z.
Proof. induction l as [|x l IH]; [reflexivity|]. cbn [app]. rewrite !shift_cons, IH. lia. Qed.
Lemma shift_perm l l' i : Permutation l l' -> shift l i = shift l' i.
Proof. induction 1; rewrite ?shift_cons in *; try lia. Qed.

Lemma ops_support n l v u : ops l (ket n v) u <> 0 ->
  forall i, (i < n)%nat -> Z.of_nat (u i) = (Z.of_nat (v i) + shift l i)%Z.
Proof.
  revert u. induction l as [|[m s] l IH]; intros u H i Hi.
  - cbn in *. unfold ket in H. destruct (same n u v) eqn:E; [|lra].
    rewrite (proj1 (same_iff n u v) E i Hi). lia.
  - rewrite ops_cons in H. unfold opr in H. cbn [fst snd] in H.
    rewrite shift_cons. cbn [fst snd]. unfold dl. destruct s; cbn [sg].
    + assert (H1 : u m <> 0%nat). { intros E. rewrite E, sq0 in H. lra. }
      assert (H2 : ops l (ket n v) (down m u) <> 0). { intros E. rewrite E in H. lra. }
      specialize (IH _ H2 i Hi). unfold down in IH. destruct (Nat.eqb_spec i m); subst; lia.
    + assert (H2 : ops l (ket n v) (up m u) <> 0). { intros E. rewrite E in H. lra. }
      specialize (IH _ H2 i Hi). unfold up in IH. destruct (Nat.eqb_spec i m); subst; lia.
Qed.

Lemma in_direction l i (s : bool) : (0 < sg s * shift l i)%Z -> In (i, s) l.
Proof.
  induction l as [|[m t] l IH]; intros H.
  - cbn in H. lia.
  - rewrite shift_cons in H. cbn [fst snd] in H. unfold dl in H.
    destruct (letter_dec (m, t) (i, s)) as [E|E]; [now left|right].
    apply IH. destruct (Nat.eqb_spec i m) as [<-|]; [|lia].
    destruct s, t; cbn [sg] in *; try lia; congruence.
Qed.
Lemma shift_sign l i s : ~ In (i, negb s) l -> (0 <= sg s * shift l i)%Z.
Proof.
  induction l as [|[m t] l IH]; intros H; [cbn; lia|].
  rewrite shift_cons. cbn [fst snd]. unfold dl. assert (~ In (i, negb s) l) by (intros ?; apply H; now right).
  specialize (IH H0). destruct (Nat.eqb_spec i m) as [<-|]; [|lia].
  destruct s, t; cbn [sg negb] in *; try lia; exfalso; apply H; now left.
Qed.

(** a word without opposite letters *)
Definition reduced (l : list letter) : Prop := forall x, In x l -> ~ In (bar x) l.
Lemma forced_word p : forall l, reduced p -> length l = length p ->
  (forall i, (exists x, In x (l ++ p) /\ fst x = i) -> shift l i = shift p i) -> Permutation l p.
Proof.
  induction p as [|[m s] p IH]; intros l Hr Hl Hs.
  - destruct l; [constructor|discriminate].
  - assert (I : In (m, s) l).
    { apply in_direction. rewrite Hs.
      - rewrite shift_cons. cbn [fst snd]. unfold dl. rewrite Nat.eqb_refl.
        assert (0 <= sg s * shift p m)%Z.
        { apply shift_sign. intros J. apply (Hr (m, s)); [now left|]. now right. }
        destruct s; cbn [sg] in *; lia.
      - exists (m, s). split; [|reflexivity]. apply in_or_app. right. now left. }
    apply in_split in I. destruct I as (l1 & l2 & ->).
    apply Permutation_sym, Permutation_cons_app, Permutation_sym. apply IH.
    + intros x Hx J. apply (Hr x); now right.
    + rewrite app_length in *. cbn in *. lia.
    + intros i (x & Hx & Ex). specialize (Hs i).
      rewrite !shift_app, !shift_cons in Hs. cbn [fst snd] in Hs. rewrite shift_app.
      enough (shift l1 i + (sg s * dl m i + shift l2 i) = sg s * dl m i + shift p i)%Z by lia.
      apply Hs. exists x. split; [|exact Ex]. rewrite !in_app_iff in *. cbn [In].
      destruct Hx as [[]|]; auto.
Qed.

Lemma ops_perm l l' psi : Permutation l l' -> reduced l -> ops l psi = ops l' psi.
Proof.
  induction 1 as [|x l l' P IH|x y l|l l' l'' P1 IH1 P2 IH2]; intros Hr.
  - reflexivity.
  - rewrite !ops_cons, IH; [reflexivity|]. intros z Hz J. apply (Hr z); now right.
  - rewrite !ops_cons. apply functional_extensionality. intros u. rewrite opr_com.
    replace (com y x) with 0; [ring|]. unfold com.
    destruct (Nat.eqb_spec (fst y) (fst x)) as [E|E]; [|reflexivity].
    assert (N : y <> bar x). { intros ->. apply (Hr x); [right; now left|now left]. }
    destruct x as [a s], y as [b t]. cbn [fst snd] in *. subst b. unfold bar in N. cbn in N.
    destruct s, t; try reflexivity; exfalso; apply N; reflexivity.
  - rewrite IH1 by assumption. apply IH2. intros x Hx J. apply (Hr x).
    + apply (Permutation_in _ (Permutation_sym P1) Hx).
    + apply (Permutation_in _ (Permutation_sym P1) J).
Qed.

(** ** adjoints *)
Definition dual (l : list letter) : list letter := rev (map bar l).
Lemma opr_ket_up n l u : (l < n)%nat ->
  opr (l, false) (ket n u) = fun y => sqrt (INR (u l) / 2) * ket n (down l u) y.
Proof.
  intros Hl. apply functional_extensionality. intros y. unfold opr, ket. cbn [fst snd].
  destruct (same n (up l y) u) eqn:E1.
  - pose proof (proj1 (same_iff n _ _) E1) as S1. pose proof (S1 l Hl) as E. rewrite up_at in E.
    replace (same n y (down l u)) with true.
    + rewrite <- E. replace (S (y l)) with (y l + 1)%nat by lia. reflexivity.
    + symmetry. apply same_iff. intros i Hi. specialize (S1 i Hi). unfold up, down in *.
      destruct (Nat.eqb_spec i l); subst; lia.
  - destruct (same n y (down l u)) eqn:E2; [|lra].
    destruct (Nat.eq_dec (u l) 0) as [Z|Z]; [rewrite Z, sq0; lra|].
    exfalso. assert (same n (up l y) u = true); [|congruence].
    apply same_iff. intros i Hi. pose proof (proj1 (same_iff n _ _) E2 i Hi) as S2. unfold up, down in *.
    destruct (Nat.eqb_spec i l); subst; lia.
Qed.
Lemma opr_ket_down n l u : (l < n)%nat ->
  opr (l, true) (ket n u) = fun y => sqrt (INR (u l + 1) / 2) * ket n (up l u) y.
Proof.
  intros Hl. apply functional_extensionality. intros y. unfold opr, ket. cbn [fst snd].
  destruct (same n y (up l u)) eqn:E1.
  - pose proof (proj1 (same_iff n _ _) E1) as S1. pose proof (S1 l Hl) as E. rewrite up_at in E.
    replace (same n (down l y) u) with true.
    + rewrite E. replace (S (u l)) with (u l + 1)%nat by lia. reflexivity.
    + symmetry. apply same_iff. intros i Hi. specialize (S1 i Hi). unfold up, down in *.
      destruct (Nat.eqb_spec i l); subst; lia.
  - destruct (same n (down l y) u) eqn:E2; [|lra].
    destruct (Nat.eq_dec (y l) 0) as [Z|Z]; [rewrite Z, sq0; lra|].
    exfalso. assert (same n y (up l u) = true); [|congruence].
    apply same_iff. intros i Hi. pose proof (proj1 (same_iff n _ _) E2 i Hi) as S2. unfold up, down in *.
    destruct (Nat.eqb_spec i l); subst; lia.
Qed.
Lemma ket_sym n u v : ket n v u = ket n u v.
Proof.
  unfold ket. replace (same n u v) with (same n v u); [reflexivity|].
  apply eq_iff_eq_true. rewrite !same_iff. split; intros H i Hi; now rewrite H.
Qed.
Lemma ops_dual n l : (forall x, In x l -> (fst x < n)%nat) ->
  forall u v, ops l (ket n v) u = ops (dual l) (ket n u) v.
Proof.
  induction l as [|[m s] l IH]; intros Hl u v.
  - apply ket_sym.
  - assert (Hm : (m < n)%nat) by (apply (Hl (m, s)); now left).
    assert (Hl' : forall x, In x l -> (fst x < n)%nat) by (intros; apply Hl; now right).
    unfold dual. cbn [map rev]. rewrite ops_app. fold (dual l). rewrite !ops_cons. cbn [ops fold_right].
    unfold bar. cbn [fst snd]. destruct s; cbn [negb].
    + rewrite opr_ket_up, ops_scal by exact Hm. unfold opr. cbn [fst snd]. now rewrite IH.
    + rewrite opr_ket_down, ops_scal by exact Hm. unfold opr. cbn [fst snd]. now rewrite IH.
Qed.

(** ** sums over letters *)
Section Letters.
  Variable n : nat.
  Definition letters : list letter := flat_map (fun l => [(l, true); (l, false)]) (seq 0 n).
  Definition SL (f : letter -> R) : R := Rsum letters f.
  Lemma in_letters x : In x letters <-> (fst x < n)%nat.
  Proof.
    unfold letters. rewrite in_flat_map. destruct x as [l s]. cbn [fst]. split.
    - intros (m & Hm & Hx). apply in_seq in Hm. cbn in Hx. destruct Hx as [E|[E|[]]]; injection E; intros; subst; lia.
    - intros Hl. exists l. split; [apply in_seq; lia|]. destruct s; cbn; auto.
  Qed.
  Lemma letters_NoDup : NoDup letters.
  Proof.
    unfold letters. generalize (seq_NoDup n 0). generalize (seq 0 n) as l.
    induction l as [|a l IH]; intros Nd; [constructor|]. inversion Nd as [|? ? Na Nl]; subst.
    cbn [flat_map app]. assert (Q : forall s, ~ In (a, s) (flat_map (fun l => [(l, true); (l, false)]) l)).
    { intros s J. apply in_flat_map in J. destruct J as (m & Hm & [E|[E|[]]]); injection E; intros; subst; auto. }
    constructor; [|constructor; [apply Q|auto]]. intros [E|J]; [congruence|]. now apply (Q true).
  Qed.
  Lemma SL_modes f : SL f = Rsum (seq 0 n) (fun l => f (l, true) + f (l, false)).
  Proof.
    unfold SL, letters. rewrite Rsum_flat_map. apply Rsum_ext. intros l _. unfold Rsum. cbn. lra.
  Qed.
  Lemma SL_ext f g : (forall x, (fst x < n)%nat -> f x = g x) -> SL f = SL g.
  Proof. intros E. apply Rsum_ext. intros x Hx. apply E. now apply in_letters. Qed.
  Lemma SL_bar f : SL (fun x => f (bar x)) = SL f.
  Proof. rewrite !SL_modes. apply Rsum_ext. intros l _. unfold bar. cbn. lra. Qed.
  Lemma SL_swap f : SL (fun x => SL (fun y => f x y)) = SL (fun y => SL (fun x => f x y)).
  Proof. apply Rsum_swap. Qed.
  Lemma SL_plus f g : SL (fun x => f x + g x) = SL f + SL g.
  Proof. apply Rsum_plus. Qed.
  Lemma SL_minus f g : SL (fun x => f x - g x) = SL f - SL g.
  Proof. apply Rsum_minus. Qed.
  Lemma SL_scal c f : SL (fun x => c * f x) = c * SL f.
  Proof. apply Rsum_scal. Qed.
  Lemma SL_scal_r c f : SL (fun x => f x * c) = SL f * c.
  Proof. apply Rsum_scal_r. Qed.
  Lemma SL_opp f : SL (fun x => - f x) = - SL f.
  Proof. apply Rsum_opp. Qed.
  Lemma SL_0 f : (forall x, (fst x < n)%nat -> f x = 0) -> SL f = 0.
  Proof. intros E. apply Rsum_0. intros x Hx. apply E. now apply in_letters. Qed.
  (** the letters that do not commute with x *)
  Lemma SL_com x f : (fst x < n)%nat -> SL (fun y => com x y * f y) = - es x / 2 * f (bar x).
  Proof.
    intros Hx. rewrite SL_modes. destruct x as [m s]. cbn [fst] in Hx.
    rewrite (Rsum_ext _ (fun l => if (l =? m)%nat then - es (m, s) / 2 * f (bar (m, s)) else 0)).
    - rewrite (Rsum_pick n (fun _ => - es (m, s) / 2 * f (bar (m, s))) m Hx). reflexivity.
    - intros l _. unfold com, es, bar. cbn [fst snd]. rewrite (Nat.eqb_sym m l).
      destruct (Nat.eqb_spec l m) as [->|]; [|lra]. destruct s; cbn [negb]; lra.
  Qed.
  (** a sum with few terms *)
  Lemma Rsum_support {A} (L Q : list A) (f : A -> R) : (forall x y : A, {x = y} + {x <> y}) ->
    NoDup L -> NoDup Q -> incl Q L ->
    (forall x, In x L -> ~ In x Q -> f x = 0) -> Rsum L f = Rsum Q f.
  Proof.
    intros dec. revert Q. induction L as [|a L IH]; intros Q HL HQ Hi Hz.
    - destruct Q as [|b Q]; [reflexivity|]. exfalso. apply (Hi b). now left.
    - inversion HL as [|? ? Ha HL']; subst. rewrite Rsum_cons.
      destruct (in_dec dec a Q) as [Iq|Nq].
      + apply in_split in Iq. destruct Iq as (q1 & q2 & ->).
        assert (HQ' := NoDup_remove_1 _ _ _ HQ). assert (Na := NoDup_remove_2 _ _ _ HQ).
        rewrite (IH (q1 ++ q2)); [rewrite !Rsum_app, Rsum_cons; lra|assumption|assumption| |].
        * intros x Hx. assert (J : In x (a :: L)). { apply Hi. rewrite in_app_iff in *. cbn. tauto. }
          destruct J as [<-|J]; [contradiction|exact J].
        * intros x Hx Nx. apply Hz; [now right|]. rewrite in_app_iff in *. cbn. intros [?|[<-|?]]; tauto.
      + rewrite (Hz a); [|now left|exact Nq]. rewrite Rplus_0_l. apply IH; [assumption|assumption| |].
        * intros x Hx. destruct (Hi x Hx) as [<-|J]; [contradiction|exact J].
        * intros x Hx Nx. apply Hz; [now right|exact Nx].
  Qed.
  Lemma SL_support Q f : NoDup Q -> (forall x, In x Q -> (fst x < n)%nat) ->
    (forall x, (fst x < n)%nat -> ~ In x Q -> f x = 0) -> SL f = Rsum Q f.
  Proof.
    intros HQ Hi Hz. apply Rsum_support; [apply letter_dec|apply letters_NoDup|exact HQ| |].
    - intros x Hx. apply in_letters. auto.
    - intros x Hx. apply Hz. now apply in_letters.
  Qed.

  (** sums over words of given length *)
  Lemma Rsum_nil {A} (f : A -> R) : Rsum [] f = 0.
  Proof. reflexivity. Qed.
  Fixpoint tsum (k : nat) (h : list letter -> R) : R :=
    match k with O => h [] | S k => SL (fun x => tsum k (fun l => h (x :: l))) end.
  Definition of_word (l : list letter) : Prop := forall x, In x l -> (fst x < n)%nat.
  Lemma tsum_ext k : forall h g, (forall l, length l = k -> of_word l -> h l = g l) -> tsum k h = tsum k g.
  Proof.
    induction k as [|k IH]; intros h g E.
    - apply E; [reflexivity|]. intros x [].
    - cbn. apply SL_ext. intros x Hx. apply IH. intros l Hl Hw. apply E; [cbn; lia|].
      intros y [<-|Hy]; auto.
  Qed.
  Lemma tsum_0 k h : (forall l, length l = k -> of_word l -> h l = 0) -> tsum k h = 0.
  Proof.
    intros E. rewrite (tsum_ext k h (fun _ => 0) E). clear. induction k as [|k IH]; [reflexivity|].
    cbn. apply SL_0. intros. apply IH.
  Qed.
  Lemma tsum_sum {A} k (L : list A) : forall h, tsum k (fun l => Rsum L (fun a => h a l)) = Rsum L (fun a => tsum k (h a)).
  Proof.
    induction k as [|k IH]; intros h; [reflexivity|]. cbn.
    rewrite (SL_ext _ (fun x => Rsum L (fun a => tsum k (fun l => h a (x :: l))))).
    - apply Rsum_swap.
    - intros x _. apply (IH (fun a l => h a (x :: l))).
  Qed.
  Lemma tsum_step k h P Q : NoDup Q -> of_word Q -> (forall x, In x P -> In x Q) ->
    (forall l, length l = S k -> of_word l -> h l <> 0 -> Permutation l P) ->
    tsum (S k) h = Rsum Q (fun x => tsum k (fun l => h (x :: l))).
  Proof.
    intros HQ HQw HP Hs. cbn. apply SL_support; [exact HQ|exact HQw|].
    intros x Hx Nx. apply tsum_0. intros l Hl Hw. destruct (Req_dec (h (x :: l)) 0) as [E|E]; [exact E|].
    exfalso. apply Nx, HP. apply (Permutation_in _ (Hs (x :: l) ltac:(cbn; lia) ltac:(intros y [<-|Hy]; auto) E)).
    now left.
  Qed.
  Definition only (k : nat) (h : list letter -> R) (P : list letter) : Prop :=
    forall l, length l = k -> of_word l -> h l <> 0 -> Permutation l P.
  Lemma only_cons k h P x P' : only (S k) h P -> (fst x < n)%nat -> Permutation P (x :: P') ->
    only k (fun l => h (x :: l)) P'.
  Proof.
    intros H Hx HP l Hl Hw Hn. apply (Permutation_cons_inv (a := x)). rewrite <- HP.
    apply H; [cbn; lia| |exact Hn]. intros y [<-|Hy]; auto.
  Qed.
  Ltac word := let y := fresh in let H := fresh in intros y H; cbn [In] in H; intuition (subst; assumption).
  Ltac nodup := repeat constructor; cbn [In]; intuition congruence.
  Ltac inc := intros; cbn [In] in *; tauto.
  Lemma ts1 h (p : letter) : (fst p < n)%nat -> only 1 h [p] -> tsum 1 h = h [p].
  Proof.
    intros Hp Ho. rewrite (tsum_step 0 h [p] [p]); [rewrite Rsum_cons, Rsum_nil; cbn [tsum]; ring|nodup|word|inc|exact Ho].
  Qed.
  Lemma ts2e h (p : letter) : (fst p < n)%nat -> only 2 h [p; p] -> tsum 2 h = h [p; p].
  Proof.
    intros Hp Ho. rewrite (tsum_step 1 h [p; p] [p]); [|nodup|word|inc|exact Ho].
    rewrite !Rsum_cons, Rsum_nil. rewrite (ts1 _ p Hp); [lra|].
    apply (only_cons 1 h [p; p] p); auto.
  Qed.
  Lemma ts2 h (p q : letter) : (fst p < n)%nat -> (fst q < n)%nat -> p <> q -> only 2 h [p; q] ->
    tsum 2 h = h [p; q] + h [q; p].
  Proof.
    intros Hp Hq N Ho. rewrite (tsum_step 1 h [p; q] [p; q]); [|nodup|word|inc|exact Ho].
    rewrite !Rsum_cons, Rsum_nil.
    rewrite (ts1 _ q Hq) by (apply (only_cons 1 h [p; q] p); auto).
    rewrite (ts1 _ p Hp) by (apply (only_cons 1 h [p; q] q); auto; constructor). lra.
  Qed.
  Lemma ts3 h (p q r : letter) : (fst p < n)%nat -> (fst q < n)%nat -> (fst r < n)%nat -> p <> q -> p <> r -> q <> r ->
    only 3 h [p; q; r] ->
    tsum 3 h = h [p; q; r] + h [p; r; q] + h [q; p; r] + h [q; r; p] + h [r; p; q] + h [r; q; p].
  Proof.
    intros Hp Hq Hr N1 N2 N3 Ho. rewrite (tsum_step 2 h [p; q; r] [p; q; r]); [|nodup|word|inc|exact Ho].
    rewrite !Rsum_cons, Rsum_nil.
    rewrite (ts2 _ q r) by (auto; apply (only_cons 2 h [p; q; r] p); auto).
    rewrite (ts2 _ p r) by (auto; apply (only_cons 2 h [p; q; r] q); auto; constructor).
    rewrite (ts2 _ p q) by (auto; apply (only_cons 2 h [p; q; r] r); auto;
      apply Permutation_sym, (Permutation_cons_app [p; q] []); reflexivity). lra.
  Qed.
  Lemma ts3e h (p q : letter) : (fst p < n)%nat -> (fst q < n)%nat -> p <> q -> only 3 h [p; p; q] ->
    tsum 3 h = h [p; p; q] + h [p; q; p] + h [q; p; p].
  Proof.
    intros Hp Hq N Ho. rewrite (tsum_step 2 h [p; p; q] [p; q]); [|nodup|word|inc|exact Ho].
    rewrite !Rsum_cons, Rsum_nil.
    rewrite (ts2 _ p q) by (auto; apply (only_cons 2 h [p; p; q] p); auto).
    rewrite (ts2e _ p) by (auto; apply (only_cons 2 h [p; p; q] q); auto;
      apply Permutation_sym, (Permutation_cons_app [p; p] []); reflexivity). lra.
  Qed.
  (** four letters, all different, one pair, two pairs *)
  Lemma ts4 h (p q r s : letter) : (fst p < n)%nat -> (fst q < n)%nat -> (fst r < n)%nat -> (fst s < n)%nat ->
    p <> q -> p <> r -> p <> s -> q <> r -> q <> s -> r <> s -> only 4 h [p; q; r; s] ->
    tsum 4 h =
    h [p; q; r; s] + h [p; q; s; r] + h [p; r; q; s] + h [p; r; s; q] + h [p; s; q; r] + h [p; s; r; q]
    + (h [q; p; r; s] + h [q; p; s; r] + h [q; r; p; s] + h [q; r; s; p] + h [q; s; p; r] + h [q; s; r; p])
    + (h [r; p; q; s] + h [r; p; s; q] + h [r; q; p; s] + h [r; q; s; p] + h [r; s; p; q] + h [r; s; q; p])
    + (h [s; p; q; r] + h [s; p; r; q] + h [s; q; p; r] + h [s; q; r; p] + h [s; r; p; q] + h [s; r; q; p]).
  Proof.
    intros Hp Hq Hr Hs N1 N2 N3 N4 N5 N6 Ho.
    rewrite (tsum_step 3 h [p; q; r; s] [p; q; r; s]); [|nodup|word|inc|exact Ho].
    rewrite !Rsum_cons, Rsum_nil.
    rewrite (ts3 _ q r s) by (auto; apply (only_cons 3 h [p; q; r; s] p); auto).
    rewrite (ts3 _ p r s) by (auto; apply (only_cons 3 h [p; q; r; s] q); auto; constructor).
    rewrite (ts3 _ p q s) by (auto; apply (only_cons 3 h [p; q; r; s] r); auto;
      apply Permutation_sym, (Permutation_cons_app [p; q] [s]); reflexivity).
    rewrite (ts3 _ p q r) by (auto; apply (only_cons 3 h [p; q; r; s] s); auto;
      apply Permutation_sym, (Permutation_cons_app [p; q; r] []); reflexivity). lra.
  Qed.
  Lemma ts4e h (p q r : letter) : (fst p < n)%nat -> (fst q < n)%nat -> (fst r < n)%nat ->
    p <> q -> p <> r -> q <> r -> only 4 h [p; p; q; r] ->
    tsum 4 h =
    h [p; p; q; r] + h [p; p; r; q] + h [p; q; p; r] + h [p; q; r; p] + h [p; r; p; q] + h [p; r; q; p]
    + (h [q; p; p; r] + h [q; p; r; p] + h [q; r; p; p])
    + (h [r; p; p; q] + h [r; p; q; p] + h [r; q; p; p]).
  Proof.
    intros Hp Hq Hr N1 N2 N3 Ho.
    rewrite (tsum_step 3 h [p; p; q; r] [p; q; r]); [|nodup|word|inc|exact Ho].
    rewrite !Rsum_cons, Rsum_nil.
    rewrite (ts3 _ p q r) by (auto; apply (only_cons 3 h [p; p; q; r] p); auto).
    rewrite (ts3e _ p r) by (auto; apply (only_cons 3 h [p; p; q; r] q); auto;
      apply Permutation_sym, (Permutation_cons_app [p; p] [r]); reflexivity).
    rewrite (ts3e _ p q) by (auto; apply (only_cons 3 h [p; p; q; r] r); auto;
      apply Permutation_sym, (Permutation_cons_app [p; p; q] []); reflexivity). lra.
  Qed.
  Lemma ts4ee h (p q : letter) : (fst p < n)%nat -> (fst q < n)%nat -> p <> q -> only 4 h [p; p; q; q] ->
    tsum 4 h = h [p; p; q; q] + h [p; q; p; q] + h [p; q; q; p]
      + (h [q; q; p; p] + h [q; p; q; p] + h [q; p; p; q]).
  Proof.
    intros Hp Hq N Ho.
    rewrite (tsum_step 3 h [p; p; q; q] [p; q]); [|nodup|word|inc|exact Ho].
    rewrite !Rsum_cons, Rsum_nil.
    rewrite (ts3e _ q p); [|auto|auto|auto|].
    2:{ apply (only_cons 3 h [p; p; q; q] p); auto. constructor.
        apply (Permutation_cons_app [q; q] []). reflexivity. }
    rewrite (ts3e _ p q); [lra|auto|auto|auto|].
    apply (only_cons 3 h [p; p; q; q] q); auto.
    apply Permutation_sym, (Permutation_cons_app [p; p] [q]); reflexivity.
  Qed.
End Letters.

(** ** operators as sums over words *)
Section Words.
  Variable n : nat.
  Notation SL := (SL n).
  Notation tsum := (tsum n).
  Lemma ops_SL l (c : letter -> R) psi :
    ops l (fun u => SL (fun x => c x * psi x u)) = fun u => SL (fun x => c x * ops l (psi x) u).
  Proof. apply ops_sum. Qed.
  Lemma ops_SL1 l psi : ops l (fun u => SL (fun x => psi x u)) = fun u => SL (fun x => ops l (psi x) u).
  Proof.
    transitivity (ops l (fun u => SL (fun x => 1 * psi x u))).
    - f_equal. apply functional_extensionality. intros u. apply SL_ext. intros. ring.
    - rewrite ops_SL. apply functional_extensionality. intros u. apply SL_ext. intros. ring.
  Qed.
  Lemma ops_tsum l k : forall (c : list letter -> R) (psi : list letter -> occ -> R),
    ops l (fun u => tsum k (fun l' => c l' * psi l' u)) = fun u => tsum k (fun l' => c l' * ops l (psi l') u).
  Proof.
    induction k as [|k IH]; intros c psi.
    - cbn. apply ops_scal.
    - cbn. rewrite ops_SL1. apply functional_extensionality. intros u. apply SL_ext. intros x _.
      exact (f_equal (fun g => g u) (IH (fun l' => c (x :: l')) (fun l' => psi (x :: l')))).
  Qed.
  Lemma tsum_plus k : forall h g, tsum k (fun l => h l + g l) = tsum k h + tsum k g.
  Proof.
    induction k as [|k IH]; intros h g; [reflexivity|]. cbn. rewrite <- SL_plus. apply SL_ext. intros x _. apply IH.
  Qed.
  Lemma tsum_scal k : forall c h, tsum k (fun l => c * h l) = c * tsum k h.
  Proof.
    induction k as [|k IH]; intros c h; [reflexivity|]. cbn. rewrite <- SL_scal. apply SL_ext. intros x _. apply IH.
  Qed.
  Lemma tsum_app j k : forall h, tsum j (fun l => tsum k (fun l' => h (l ++ l'))) = tsum (j + k) h.
  Proof.
    induction j as [|j IH]; intros h; [reflexivity|]. cbn. apply SL_ext. intros x _.
    apply (IH (fun l => h (x :: l))).
  Qed.
  Lemma pos_ops l psi : pos l psi = fun u => opr (l, true) psi u + opr (l, false) psi u.
  Proof. reflexivity. Qed.
  Lemma mom_ops l psi : mom l psi = fun u => opr (l, true) psi u + (-1) * opr (l, false) psi u.
  Proof. apply functional_extensionality. intros u. rewrite mom_letters. ring. Qed.
  (** a sum over modes of coordinates, of momenta *)
  Lemma pos_SL (c : nat -> R) (psi : nat -> occ -> R) u :
    Rsum (seq 0 n) (fun i => c i * pos i (psi i) u)
    = SL (fun x => c (fst x) * opr x (psi (fst x)) u).
  Proof. rewrite SL_modes. apply Rsum_ext. intros i _. rewrite pos_letters. cbn [fst]. ring. Qed.
  Lemma mom_SL (c : nat -> R) (psi : nat -> occ -> R) u :
    Rsum (seq 0 n) (fun i => c i * mom i (psi i) u)
    = SL (fun x => c (fst x) * es x * opr x (psi (fst x)) u).
  Proof. rewrite SL_modes. apply Rsum_ext. intros i _. rewrite mom_letters. unfold es. cbn [fst snd]. ring. Qed.
  Lemma opr_Rsum {A} x (L : list A) (c : A -> R) (psi : A -> occ -> R) :
    opr x (fun u => Rsum L (fun a => c a * psi a u)) = fun u => Rsum L (fun a => c a * opr x (psi a) u).
  Proof. apply functional_extensionality. intros u. apply opr_sum. Qed.

  Definition c3 (f3 : nat -> nat -> nat -> R) (l : list letter) : R :=
    match l with [a; b; c] => f3 (fst a) (fst b) (fst c) / 6 | _ => 0 end.
  Definition c4 (f4 : nat -> nat -> nat -> nat -> R) (l : list letter) : R :=
    match l with [a; b; c; d] => f4 (fst a) (fst b) (fst c) (fst d) / 24 | _ => 0 end.
  Lemma pos3_words f3 psi u :
    cubic n f3 psi u = tsum 3 (fun l => c3 f3 l * ops l psi u).
  Proof.
    unfold cubic. cbn [VanVleck.tsum c3].
    rewrite SL_modes. apply Rsum_ext. intros i _. rewrite !SL_modes, <- Rsum_plus. apply Rsum_ext. intros j _.
    rewrite !SL_modes, <- !Rsum_plus. apply Rsum_ext. intros k _. cbn [fst].
    rewrite (pos_ops k), (pos_ops j), (pos_ops i). cbn [ops fold_right].
    rewrite !opr_plus. cbv beta. ring.
  Qed.
  Lemma pos4_words f4 psi u :
    quartic n f4 psi u = tsum 4 (fun l => c4 f4 l * ops l psi u).
  Proof.
    unfold quartic. cbn [VanVleck.tsum c4].
    rewrite SL_modes. apply Rsum_ext. intros i _. rewrite !SL_modes, <- Rsum_plus. apply Rsum_ext. intros j _.
    rewrite !SL_modes, <- !Rsum_plus. apply Rsum_ext. intros k _.
    rewrite !SL_modes, <- !Rsum_plus. apply Rsum_ext. intros m _. cbn [fst].
    rewrite (pos_ops m), (pos_ops k), (pos_ops j), (pos_ops i). cbn [ops fold_right].
    rewrite !opr_plus. cbv beta. ring.
  Qed.
  Definition ca (w : nat -> R) (zeta : nat -> nat -> nat -> R) (a : nat) (l : list letter) : R :=
    match l with [x; y] => zeta (fst x) (fst y) a * sqrt (w (fst y) / w (fst x)) * es y | _ => 0 end.
  Lemma angular_words w zeta a psi u :
    angular n w zeta a psi u = tsum 2 (fun l => ca w zeta a l * ops l psi u).
  Proof.
    unfold angular. cbn [VanVleck.tsum ca].
    rewrite SL_modes. apply Rsum_ext. intros i _. rewrite !SL_modes, <- Rsum_plus. apply Rsum_ext. intros j _.
    rewrite (mom_ops j), (pos_ops i). cbn [ops fold_right fst]. rewrite !opr_plus, !opr_scal. cbv beta.
    unfold es. cbn [snd]. ring.
  Qed.
  Lemma angular2_words w zeta a psi u :
    angular n w zeta a (angular n w zeta a psi) u
    = tsum 2 (fun l => tsum 2 (fun l' => ca w zeta a l * ca w zeta a l' * ops (l ++ l') psi u)).
  Proof.
    rewrite angular_words. apply tsum_ext. intros l _ _.
    assert (E : angular n w zeta a psi = fun u => tsum 2 (fun l => ca w zeta a l * ops l psi u)).
    { apply functional_extensionality. intros y. apply angular_words. }
    rewrite E, (ops_tsum l 2 (ca w zeta a) (fun l' => ops l' psi)), <- tsum_scal. apply tsum_ext.
    intros l' _ _. rewrite ops_app. ring.
  Qed.
End Words.

(** ** commutator of two words of three letters *)
Lemma com3 f a b c psi : ops [f; a; b; c] psi
  = fun u => ops [a; b; c; f] psi u
      + (com f a * ops [b; c] psi u + com f b * ops [a; c] psi u + com f c * ops [a; b] psi u).
Proof.
  apply functional_extensionality. intros u. cbn [ops fold_right]. rewrite opr_com.
  assert (E : opr f (opr b (opr c psi)) = fun u => opr b (opr c (opr f psi)) u
     + (com f b * opr c psi u + com f c * opr b psi u)).
  { apply functional_extensionality. intros y. rewrite opr_com.
    assert (E : opr f (opr c psi) = fun u => opr c (opr f psi) u + com f c * psi u)
      by (apply functional_extensionality; intros; apply opr_com).
    rewrite E, opr_plus, opr_scal. ring. }
  rewrite E, opr_plus, opr_plus, !opr_scal. ring.
Qed.
Lemma com33 d e f a b c psi u :
  ops [d; e; f; a; b; c] psi u - ops [a; b; c; d; e; f] psi u
  = (com f a * ops [d; e; b; c] psi u + com f b * ops [d; e; a; c] psi u + com f c * ops [d; e; a; b] psi u)
    + (com e a * ops [d; b; c; f] psi u + com e b * ops [d; a; c; f] psi u + com e c * ops [d; a; b; f] psi u)
    + (com d a * ops [b; c; e; f] psi u + com d b * ops [a; c; e; f] psi u + com d c * ops [a; b; e; f] psi u).
Proof.
  change (ops [d; e; f; a; b; c] psi) with (ops [d; e] (ops [f; a; b; c] psi)).
  rewrite (com3 f a b c psi), !ops_plus, !ops_scal.
  change (ops [d; e] (ops [a; b; c; f] psi)) with (ops [d] (ops [e; a; b; c] (ops [f] psi))).
  rewrite (com3 e a b c (ops [f] psi)), !ops_plus, !ops_scal.
  change (ops [d] (ops [a; b; c; e] (ops [f] psi))) with (ops [d; a; b; c] (ops [e; f] psi)).
  rewrite (com3 d a b c (ops [e; f] psi)).
  change (ops [a; b; c; d] (ops [e; f] psi)) with (ops [a; b; c; d; e; f] psi).
  cbn [ops fold_right]. ring.
Qed.

Section Bracket.
  Variable n : nat.
  Notation SL := (SL n).
  Variables (c D : letter -> letter -> letter -> R) (W : list letter -> R).
  Hypothesis Hc1 : forall x y z, c x y z = c y x z.
  Hypothesis Hc2 : forall x y z, c x y z = c x z y.
  Hypothesis HD1 : forall x y z, D x y z = D y x z.
  Hypothesis HD2 : forall x y z, D x y z = D x z y.
  Definition nine (d e f a b c : letter) : R :=
    (com f a * W [d; e; b; c] + com f b * W [d; e; a; c] + com f c * W [d; e; a; b])
    + (com e a * W [d; b; c; f] + com e b * W [d; a; c; f] + com e c * W [d; a; b; f])
    + (com d a * W [b; c; e; f] + com d b * W [a; c; e; f] + com d c * W [a; b; e; f]).
  Let J (f : letter) (X : letter -> letter -> R) : R := SL (fun a => SL (fun b => X a b * (- es f / 2 * D a b (bar f)))).
  Lemma three f X : (fst f < n)%nat ->
    SL (fun a => SL (fun b => SL (fun k => D a b k * (com f a * X b k + com f b * X a k + com f k * X a b))))
    = 3 * J f X.
  Proof.
    intros Hf.
    assert (E3 : SL (fun a => SL (fun b => SL (fun k => D a b k * (com f k * X a b)))) = J f X).
    { unfold J. apply SL_ext. intros a _. apply SL_ext. intros b _.
      rewrite <- (SL_com n f (fun k => D a b k) Hf), <- SL_scal. apply SL_ext. intros k _. ring. }
    assert (E2 : SL (fun a => SL (fun b => SL (fun k => D a b k * (com f b * X a k)))) = J f X).
    { rewrite <- E3. apply SL_ext. intros a _. rewrite SL_swap. apply SL_ext. intros b _. apply SL_ext. intros k _.
      now rewrite (HD2 a k b). }
    assert (E1 : SL (fun a => SL (fun b => SL (fun k => D a b k * (com f a * X b k)))) = J f X).
    { rewrite <- E2. rewrite SL_swap. apply SL_ext. intros b _. apply SL_ext. intros a _. apply SL_ext. intros k _.
      now rewrite (HD1 a b k). }
    transitivity (J f X + J f X + J f X); [|ring]. rewrite <- E1 at 1. rewrite <- E2 at 1. rewrite <- E3.
    rewrite <- !SL_plus. apply SL_ext. intros a _. rewrite <- !SL_plus. apply SL_ext. intros b _.
    rewrite <- !SL_plus. apply SL_ext. intros k _. ring.
  Qed.
  Definition bracket (d e a b : letter) : R :=
    SL (fun f => - es f / 2 * c d e f * D a b (bar f)).
  Lemma SL_cyc (h : letter -> letter -> letter -> R) :
    SL (fun d => SL (fun e => SL (fun f => h d e f))) = SL (fun d => SL (fun e => SL (fun f => h f d e))).
  Proof.
    rewrite (SL_swap n (fun d e => SL (fun f => h d e f))). apply SL_ext. intros e _.
    apply (SL_swap n (fun x y => h x e y)).
  Qed.
  Lemma bracket_lemma :
    SL (fun d => SL (fun e => SL (fun f => c d e f *
      SL (fun a => SL (fun b => SL (fun k => D a b k * nine d e f a b k))))))
    = 3 * SL (fun d => SL (fun e => SL (fun a => SL (fun b =>
        bracket d e a b * (W [d; e; a; b] + W [d; a; b; e] + W [a; b; d; e]))))).
  Proof.
    transitivity (SL (fun d => SL (fun e => SL (fun f => c d e f * (3 * J f (fun a b => W [d; e; a; b])))))
      + SL (fun d => SL (fun e => SL (fun f => c d e f * (3 * J e (fun a b => W [d; a; b; f])))))
      + SL (fun d => SL (fun e => SL (fun f => c d e f * (3 * J d (fun a b => W [a; b; e; f])))))).
    { rewrite <- !SL_plus. apply SL_ext. intros d Hd. rewrite <- !SL_plus. apply SL_ext. intros e He.
      rewrite <- !SL_plus. apply SL_ext. intros f Hf. rewrite <- !three by assumption.
      rewrite <- !Rmult_plus_distr_l. f_equal. rewrite <- !SL_plus. apply SL_ext. intros a _.
      rewrite <- !SL_plus. apply SL_ext. intros b _. rewrite <- !SL_plus. apply SL_ext. intros k _.
      unfold nine. ring. }
    assert (A2 : SL (fun d => SL (fun e => SL (fun f => c d e f * (3 * J e (fun a b => W [d; a; b; f])))))
      = SL (fun d => SL (fun e => SL (fun f => c d e f * (3 * J f (fun a b => W [d; a; b; e])))))).
    { apply SL_ext. intros d _. rewrite SL_swap. apply SL_ext. intros e _. apply SL_ext. intros f _.
      now rewrite (Hc2 d f e). }
    assert (A3 : SL (fun d => SL (fun e => SL (fun f => c d e f * (3 * J d (fun a b => W [a; b; e; f])))))
      = SL (fun d => SL (fun e => SL (fun f => c d e f * (3 * J f (fun a b => W [a; b; d; e])))))).
    { rewrite SL_cyc. apply SL_ext. intros d _. apply SL_ext. intros e _. apply SL_ext. intros f _.
      now rewrite (Hc1 f d e), (Hc2 d f e). }
    rewrite A2, A3, <- !SL_plus, <- SL_scal. apply SL_ext. intros d _.
    rewrite <- !SL_plus, <- SL_scal. apply SL_ext. intros e _.
    rewrite <- !SL_plus. unfold J.
    transitivity (3 * SL (fun f => SL (fun a => SL (fun b => - es f / 2 * c d e f * D a b (bar f)
        * (W [d; e; a; b] + W [d; a; b; e] + W [a; b; d; e]))))).
    - rewrite <- SL_scal. apply SL_ext. intros f _.
      rewrite <- !Rmult_plus_distr_l, <- !SL_plus, <- Rmult_assoc, <- !SL_scal. apply SL_ext. intros a _.
      rewrite <- !SL_plus, <- !SL_scal. apply SL_ext. intros b _. unfold letter in *. ring.
    - f_equal. rewrite SL_swap. apply SL_ext. intros a _. rewrite SL_swap. apply SL_ext. intros b _.
      unfold bracket. rewrite <- SL_scal_r. apply SL_ext. intros f _. unfold letter in *. ring.
  Qed.
End Bracket.
