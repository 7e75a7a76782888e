(** Lemmas about the x and g constants of symmetric tops. *)
From Coq Require Import Reals Lra Lia List Arith Bool Permutation.
From Verif Require Import Num Loops Index Modes VibRot Anharm SymAnharm ListFacts ModesFacts StatesFacts
  ResFacts AnharmFacts TransformFacts.
Import ListNotations.
Open Scope nat_scope.

(** ** symmetry *)
Section Sym.
  Context {F : Type} `{Num F}.
  Definition symm2 (x : nat -> nat -> F) : Prop := forall a b, x a b = x b a.

  Lemma symm2_diag x k v : symm2 x -> symm2 (upd2 x k k v).
  Proof.
    intros S a b. unfold upd2.
    destruct (Nat.eqb_spec a k), (Nat.eqb_spec b k); cbn [andb]; auto.
  Qed.
  Lemma symm2_pair x k l v : symm2 x -> symm2 (upd2 (upd2 x k l v) l k v).
  Proof.
    intros S a b. unfold upd2.
    destruct (Nat.eqb_spec a k), (Nat.eqb_spec b k), (Nat.eqb_spec a l), (Nat.eqb_spec b l);
      cbn [andb]; subst; auto; contradiction.
  Qed.

  Lemma xcals_symm nvib_f4 freq f3 zmat rotcon r fm1 fm2 modes wila x g (e0 : F) :
    xcals nvib_f4 freq f3 zmat rotcon r fm1 fm2 modes wila = Some (x, g, e0) ->
    (forall a b, x a b = x b a) /\ (forall a b, g a b = g b a).
  Proof.
    unfold xcals. cbv zeta.
    set (c := make_fermi_checks fm1 fm2). set (i1 := i1mode modes). set (i2 := i2mode modes).
    unfold nondeg_nondeg. destruct (is_diatomic r); [discriminate|].
    cbn [obind]. intros [= <- <- _]. split.
    - change (symm2 (deg_deg nvib_f4 freq f3 zmat rotcon c i1 i2 2 1 (xcals_ixyz r i2 wila)
        (nondeg_deg nvib_f4 freq f3 zmat rotcon c i1 i2 1
          (fold_left (fun x kk =>
            fold_left (fun x ll =>
              upd2 (upd2 x (nth kk i1 0) (nth ll i1 0) (nn_value nvib_f4 freq f3 zmat rotcon c i1 2 (nth kk i1 0) (nth ll i1 0)))
                 (nth ll i1 0) (nth kk i1 0) (nn_value nvib_f4 freq f3 zmat rotcon c i1 2 (nth kk i1 0) (nth ll i1 0)))
              (range 0 kk) x) (range 1 (length i1))
            (fold_left (fun x k => upd2 x k k (nadd (ndiv (nvib_f4 k k k k) (nz 16))
              (acc_sub i1 (fun l => diag_term freq f3 c k l) (nz 0)))) i1 (fun _ _ => nz 0)))))).
      unfold deg_deg, deg_deg1, nondeg_deg, write4.
      apply fold_inv.
      { intros s kk _ S. destruct (nth kk i2 (0, 0)) as [k k2].
        apply fold_inv; [|exact S]. intros s' ll _ S'. destruct (nth ll i2 (0, 0)) as [l l2].
        apply (symm2_pair _ k2 l2), symm2_pair, S'. }
      apply fold_inv.
      { intros s [k k2] _ S. apply symm2_diag, symm2_diag, S. }
      apply fold_inv.
      { intros s k _ S. apply fold_inv; [|exact S]. intros s' [l l2] _ S'.
        apply (symm2_pair _ k l2), symm2_pair, S'. }
      apply fold_inv.
      { intros s kk _ S. apply fold_inv; [|exact S]. intros s' ll _ S'. apply symm2_pair, S'. }
      apply fold_inv.
      { intros s k _ S. apply symm2_diag, S. }
      intros a b. reflexivity.
    - change (symm2 (make_gcnst nvib_f4 freq f3 zmat rotcon c i1 i2 2 1 (xcals_ixyz r i2 wila))).
      unfold make_gcnst, gcnst1, write4.
      apply fold_inv.
      { intros s kk _ S. destruct (nth kk i2 (0, 0)) as [k k2].
        apply fold_inv; [|exact S]. intros s' ll _ S'. destruct (nth ll i2 (0, 0)) as [l l2].
        apply (symm2_pair _ k2 l2), symm2_pair, S'. }
      apply fold_inv.
      { intros s kk _ S. destruct (nth kk i2 (0, 0)) as [k k2]. apply symm2_diag, symm2_diag, S. }
      intros a b. reflexivity.
  Qed.
End Sym.

(** ** what is written where *)
Section Writes.
  Context {F : Type}.
  Definition write (x : nat -> nat -> F) (e : nat * nat * F) : nat -> nat -> F :=
    let '(a, b, v) := e in upd2 x a b v.
  Definition writes (x : nat -> nat -> F) (l : list (nat * nat * F)) := fold_left write l x.

  Lemma writes_app x l l' : writes x (l ++ l') = writes (writes x l) l'.
  Proof. apply fold_left_app. Qed.
  Lemma fold_writes {A} (step : (nat -> nat -> F) -> A -> nat -> nat -> F) (g : A -> list (nat * nat * F)) l :
    (forall x a, In a l -> step x a = writes x (g a)) ->
    forall x, fold_left step l x = writes x (flat_map g l).
  Proof.
    induction l as [|a l IH]; intros E x; [reflexivity|]. cbn [fold_left flat_map].
    rewrite writes_app, <- E by (cbn; auto). apply IH. intros; apply E; cbn; auto.
  Qed.

  Lemma writes_none l : forall x a b, (forall v, ~ In (a, b, v) l) -> writes x l a b = x a b.
  Proof.
    induction l as [|[[i j] w] l IH]; intros x a b N; [reflexivity|].
    cbn [writes fold_left]. fold (writes (write x (i, j, w)) l).
    rewrite IH by (intros v Q; apply (N v); cbn; auto). cbn [write].
    apply upd2_neq. destruct (Nat.eq_dec a i), (Nat.eq_dec b j); auto.
    subst. exfalso. apply (N w). cbn. auto.
  Qed.
  Lemma writes_some l : forall x a b v, In (a, b, v) l -> (forall u, In (a, b, u) l -> u = v) ->
    writes x l a b = v.
  Proof.
    induction l as [|[[i j] w] l IH]; intros x a b v Hi U; [contradiction|].
    cbn [writes fold_left]. fold (writes (write x (i, j, w)) l).
    destruct (existsb (fun e => (fst (fst e) =? a) && (snd (fst e) =? b)) l) eqn:E.
    - apply existsb_exists in E as ([[i' j'] u] & Hu & Q). cbn in Q.
      apply andb_true_iff in Q as [Q1 Q2]. apply Nat.eqb_eq in Q1, Q2. subst i' j'.
      apply IH.
      + rewrite (U u ltac:(cbn; auto)) in Hu. exact Hu.
      + intros u' Hu'. apply U. cbn. auto.
    - assert (N : forall u, ~ In (a, b, u) l).
      { intros u Q. apply not_true_iff_false in E. apply E, existsb_exists.
        exists (a, b, u). split; [exact Q|]. cbn. now rewrite !Nat.eqb_refl. }
      rewrite writes_none by exact N. destruct Hi as [Q|Q]; [|now apply N in Q].
      inversion Q; subst. cbn [write]. apply upd2_eq.
  Qed.
End Writes.

(** where a mode number sits: nondegenerate, first or second partner of a pair *)
Definition at1 (modes : list mode) (p a : nat) : Prop := nth_error (i1mode modes) p = Some a.
Definition at2 (modes : list mode) (q a b : nat) : Prop := nth_error (i2mode modes) q = Some (a, b).

Section Places.
  Variables (nvib : nat) (modes : list mode).
  Hypothesis Hpart : Permutation (flat_map members modes) (seq 0 nvib).

  Lemma nodup_flat_pairs (l : list (nat * nat)) :
    NoDup (flat_map (fun '(a, b) => [a; b]) l) ->
    forall p q a b c d, nth_error l p = Some (a, b) -> nth_error l q = Some (c, d) ->
    a <> b /\ a <> d /\ c <> b /\ c <> d /\ (a = c -> p = q) /\ (b = d -> p = q).
  Proof.
    induction l as [|[x y] l IH]; intros Nd p q a b c d Hp Hq; [destruct p; discriminate|].
    cbn [flat_map app] in Nd. inversion Nd as [|? ? N1 Nd1]; subst. inversion Nd1 as [|? ? N2 Nd2]; subst.
    assert (In2 : forall q c d, nth_error l q = Some (c, d) ->
      In c (flat_map (fun '(a, b) => [a; b]) l) /\ In d (flat_map (fun '(a, b) => [a; b]) l)).
    { intros q' c' d' Q. apply nth_error_In in Q.
      split; apply in_flat_map; exists (c', d'); (split; [exact Q|cbn; auto]). }
    assert (x <> y) by (intros ->; apply N1; cbn; auto).
    destruct p as [|p], q as [|q]; cbn [nth_error] in Hp, Hq.
    - inversion Hp; inversion Hq; subst. repeat split; auto.
    - inversion Hp; subst. destruct (In2 _ _ _ Hq) as [I1 I2].
      destruct (IH Nd2 _ _ _ _ _ _ Hq Hq) as (? & _).
      repeat apply conj; try assumption; intros Q; subst; exfalso; (contradiction || (apply N1; cbn; auto)).
    - inversion Hq; subst. destruct (In2 _ _ _ Hp) as [I1 I2].
      destruct (IH Nd2 _ _ _ _ _ _ Hp Hp) as (? & _).
      repeat apply conj; try assumption; intros Q; subst; exfalso; (contradiction || (apply N1; cbn; auto)).
    - destruct (IH Nd2 _ _ _ _ _ _ Hp Hq) as (? & ? & ? & ? & U & V). repeat split; auto.
  Qed.

  Lemma at1_inj p p' a : at1 modes p a -> at1 modes p' a -> p = p'.
  Proof.
    intros A B. pose proof (part_nodup nvib modes Hpart) as Nd. apply NoDup_app_inv in Nd as (Nd & _ & _).
    assert (L : p < length (i1mode modes)) by (apply nth_error_Some; unfold at1 in A; congruence).
    apply (proj1 (NoDup_nth_error _) Nd); [exact L|]. unfold at1 in A, B. congruence.
  Qed.
  Lemma pairs_nodup : NoDup (flat_map (fun '(a, b) => [a; b]) (i2mode modes)).
  Proof.
    pose proof (part_nodup nvib modes Hpart) as Nd. apply NoDup_app_inv in Nd as (_ & Nd & _).
    apply NoDup_app_inv in Nd as (Nd & _ & _). exact Nd.
  Qed.
  Lemma at2_facts p q a b c d : at2 modes p a b -> at2 modes q c d ->
    a <> b /\ a <> d /\ c <> b /\ c <> d /\ (a = c -> p = q /\ b = d) /\ (b = d -> p = q /\ a = c).
  Proof.
    intros A B. destruct (nodup_flat_pairs _ pairs_nodup _ _ _ _ _ _ A B) as (? & ? & ? & ? & U & V).
    repeat apply conj; try assumption; intros E; [apply U in E as E'|apply V in E as E'];
      subst; unfold at2 in A, B; split; congruence.
  Qed.
  Lemma at12 p q a b c : at1 modes p a -> at2 modes q b c -> a <> b /\ a <> c.
  Proof.
    intros A B. pose proof (part_nodup nvib modes Hpart) as Nd. apply NoDup_app_inv in Nd as (_ & _ & D).
    apply nth_error_In in A, B.
    assert (I : In b (flat_map (fun '(a, b) => [a; b]) (i2mode modes))
             /\ In c (flat_map (fun '(a, b) => [a; b]) (i2mode modes)))
      by (split; apply in_flat_map; exists (b, c); (split; [exact B|cbn; auto])).
    split; intros ->; (eapply D; [exact A|]); apply in_app_iff; left; apply I.
  Qed.
End Places.

(** a numbering of the places *)
Definition index (a : nat) (l : list nat) : nat :=
  match find (fun i => nth i l 0 =? a) (seq 0 (length l)) with Some i => i | None => 0 end.
Lemma index_nth l p a : NoDup l -> nth_error l p = Some a -> index a l = p.
Proof.
  intros Nd E. assert (L : p < length l) by (apply nth_error_Some; congruence).
  unfold index. destruct (find _ _) as [i|] eqn:Q.
  - apply find_some in Q as [Hi Q]. apply in_seq in Hi. apply Nat.eqb_eq in Q.
    apply (proj1 (NoDup_nth_error l) Nd); [lia|]. rewrite E.
    rewrite (nth_error_nth' l 0) by lia. now rewrite Q.
  - exfalso. assert (I : In p (seq 0 (length l))) by (apply in_seq; lia).
    apply (find_none _ _ Q) in I.
    rewrite (nth_error_nth _ _ 0 E), Nat.eqb_refl in I. discriminate.
Qed.

Lemma places nvib modes : Permutation (flat_map members modes) (seq 0 nvib) ->
  exists loc : nat -> nat,
    (forall p a, at1 modes p a -> loc a = 3 * p) /\
    (forall q a b, at2 modes q a b -> loc a = 3 * q + 1 /\ loc b = 3 * q + 2).
Proof.
  intros Hp.
  set (l1 := i1mode modes). set (f := map fst (i2mode modes)). set (g := map snd (i2mode modes)).
  exists (fun a => if in_dec Nat.eq_dec a l1 then 3 * index a l1
                   else if in_dec Nat.eq_dec a f then 3 * index a f + 1 else 3 * index a g + 2).
  assert (N1 : NoDup l1).
  { pose proof (part_nodup nvib modes Hp) as Nd. now apply NoDup_app_inv in Nd as (Nd & _ & _). }
  assert (A2 : forall a, In a f -> exists q b, at2 modes q a b).
  { intros a Ha. apply in_map_iff in Ha as ([x y] & <- & Hx). apply In_nth_error in Hx as (q & Hq).
    exists q, y. exact Hq. }
  assert (N2 : NoDup f /\ NoDup g).
  { split; apply NoDup_nth_error; unfold f, g; rewrite map_length; intros i j Hi E;
    rewrite !nth_error_map in E.
    all: destruct (nth_error (i2mode modes) i) as [[a b]|] eqn:Ei;
      [|apply nth_error_None in Ei; lia].
    all: destruct (nth_error (i2mode modes) j) as [[c d]|] eqn:Ej; [|discriminate].
    all: cbn in E; injection E as E.
    all: destruct (at2_facts nvib modes Hp _ _ _ _ _ _ Ei Ej) as (_ & _ & _ & _ & U & V);
      (apply U; exact E) || (apply V; exact E). }
  destruct N2 as [N2 N3]. split.
  - intros p a A. destruct (in_dec Nat.eq_dec a l1) as [I|I].
    + now rewrite (index_nth l1 p a N1 A).
    + exfalso. apply I. now apply nth_error_In in A.
  - intros q a b A. split.
    + destruct (in_dec Nat.eq_dec a l1) as [I|I].
      { exfalso. apply In_nth_error in I as (p & I). destruct (at12 nvib modes Hp p q a a b I A). congruence. }
      destruct (in_dec Nat.eq_dec a f) as [I2|I2].
      * rewrite (index_nth f q a N2); [reflexivity|]. unfold f. rewrite nth_error_map, A. reflexivity.
      * exfalso. apply I2. apply in_map_iff. exists (a, b). split; [reflexivity|]. now apply nth_error_In in A.
    + destruct (in_dec Nat.eq_dec b l1) as [I|I].
      { exfalso. apply In_nth_error in I as (p & I). destruct (at12 nvib modes Hp p q b a b I A). congruence. }
      destruct (in_dec Nat.eq_dec b f) as [I2|I2].
      * exfalso. apply A2 in I2 as (q' & d & B).
        destruct (at2_facts nvib modes Hp _ _ _ _ _ _ A B) as (? & ? & ? & ? & _). congruence.
      * rewrite (index_nth g q b N3); [reflexivity|]. unfold g. rewrite nth_error_map, A. reflexivity.
Qed.

(** ** the entries of x and g *)
Section Entries.
  Context {F : Type} `{Num F}.
  Variables (f4 : nat -> nat -> nat -> nat -> F) (freq : nat -> F)
    (f3 : nat -> nat -> nat -> F) (zmat : nat -> nat -> nat -> F) (rotcon : nat -> F)
    (c : fermi_checks) (ixyz : nat).
  Variables (nvib : nat) (modes : list mode).
  Hypothesis Hpart : Permutation (flat_map members modes) (seq 0 nvib).
  Notation i1 := (i1mode modes).
  Notation i2 := (i2mode modes).

  Definition kk_value (k : nat) : F :=
    nadd (ndiv (f4 k k k k) (nz 16)) (acc_sub i1 (fun l => diag_term freq f3 c k l) (nz 0)).
  Definition w_nn1 : list (nat * nat * F) := flat_map (fun k => [(k, k, kk_value k)]) i1.
  Definition w_nn : list (nat * nat * F) :=
    flat_map (fun kk => flat_map (fun ll =>
      let k := nth kk i1 0 in let l := nth ll i1 0 in
      let v := nn_value f4 freq f3 zmat rotcon c i1 2 k l in [(k, l, v); (l, k, v)])
      (range 0 kk)) (range 1 (length i1)).
  Definition w_nd : list (nat * nat * F) :=
    flat_map (fun k => flat_map (fun '(l, l2) =>
      let v := nd_value f4 freq f3 zmat rotcon c i1 i2 1 k l in
      [(k, l, v); (l, k, v); (k, l2, v); (l2, k, v)]) i2) i1.
  Definition w_dd1 : list (nat * nat * F) :=
    flat_map (fun '(k, k2) => let v := dd1_value f4 freq f3 c i1 i2 k in [(k, k, v); (k2, k2, v)]) i2.
  Definition w_off (val : nat * nat -> nat * nat -> F) : list (nat * nat * F) :=
    flat_map (fun kk => flat_map (fun ll =>
      let k := nth kk i2 (0, 0) in let l := nth ll i2 (0, 0) in
      let v := val k l in
      [(fst k, fst l, v); (fst l, fst k, v); (snd k, snd l, v); (snd l, snd k, v)])
      (range 0 kk)) (range 1 (length i2)).
  Definition v_dd (k l : nat * nat) : F :=
    dd_value f4 freq f3 zmat rotcon c i1 i2 2 1 ixyz (fst k) (fst l) (snd l).
  Definition v_g (k l : nat * nat) : F :=
    g_value freq f3 zmat rotcon c i1 i2 2 1 ixyz (fst k) (snd k) (fst l) (snd l).
  Definition w_g1 : list (nat * nat * F) :=
    flat_map (fun kk => let k := nth kk i2 (0, 0) in
      let v := g1_value f4 freq f3 zmat rotcon c i1 i2 2 (fst k) (snd k) in
      [(fst k, fst k, v); (snd k, snd k, v)]) (range 0 (length i2)).

  Lemma x_writes r x0 : is_diatomic r = false ->
    nondeg_nondeg f4 freq f3 zmat rotcon r c i1 2 x0 = Some (writes x0 (w_nn1 ++ w_nn)).
  Proof.
    intros D. unfold nondeg_nondeg. rewrite D. f_equal. rewrite writes_app.
    rewrite (fold_writes _ (fun k => [(k, k, kk_value k)]) i1) by reflexivity.
    apply fold_writes. intros x kk _. apply fold_writes. reflexivity.
  Qed.
  Lemma nd_writes x0 : nondeg_deg f4 freq f3 zmat rotcon c i1 i2 1 x0 = writes x0 w_nd.
  Proof.
    unfold nondeg_deg. apply fold_writes. intros x kk _. apply fold_writes. intros y [l l2] _. reflexivity.
  Qed.
  Lemma dd_writes x0 : deg_deg f4 freq f3 zmat rotcon c i1 i2 2 1 ixyz x0 = writes x0 (w_dd1 ++ w_off v_dd).
  Proof.
    unfold deg_deg, deg_deg1. rewrite writes_app.
    rewrite (fold_writes _ (fun '(k, k2) => [(k, k, dd1_value f4 freq f3 c i1 i2 k); (k2, k2, dd1_value f4 freq f3 c i1 i2 k)]) i2)
      by (intros x [k k2] _; reflexivity).
    apply fold_writes. intros x kk _. rewrite (surjective_pairing (nth kk i2 (0, 0))).
    apply fold_writes. intros y ll _. rewrite (surjective_pairing (nth ll i2 (0, 0))). reflexivity.
  Qed.
  Lemma g_writes : make_gcnst f4 freq f3 zmat rotcon c i1 i2 2 1 ixyz = writes (fun _ _ => nz 0) (w_g1 ++ w_off v_g).
  Proof.
    unfold make_gcnst, gcnst1. rewrite writes_app.
    rewrite (fold_writes _ (fun kk => let k := nth kk i2 (0, 0) in
      let v := g1_value f4 freq f3 zmat rotcon c i1 i2 2 (fst k) (snd k) in
      [(fst k, fst k, v); (snd k, snd k, v)]) (range 0 (length i2)))
      by (intros x kk _; rewrite (surjective_pairing (nth kk i2 (0, 0))); reflexivity).
    apply fold_writes. intros x kk _. rewrite (surjective_pairing (nth kk i2 (0, 0))).
    apply fold_writes. intros y ll _. rewrite (surjective_pairing (nth ll i2 (0, 0))). reflexivity.
  Qed.

  (** membership *)
  Lemma in_w_nn1 a b v : In (a, b, v) w_nn1 <-> exists p, at1 modes p a /\ a = b /\ v = kk_value a.
  Proof.
    unfold w_nn1. rewrite in_flat_map. split.
    - intros (k & Hk & [E|[]]). inversion E; subst. apply In_nth_error in Hk as (p & Hp). now exists p.
    - intros (p & Hp & -> & ->). exists b. split; [now apply nth_error_In in Hp|cbn; auto].
  Qed.
  Lemma at1_lt p a : at1 modes p a -> p < length i1.
  Proof. intros E. apply nth_error_Some. unfold at1 in E. congruence. Qed.
  Lemma at2_lt p a b : at2 modes p a b -> p < length i2.
  Proof. intros E. apply nth_error_Some. unfold at2 in E. congruence. Qed.
  Lemma nth_at1 p : p < length i1 -> at1 modes p (nth p i1 0).
  Proof. intros Hp. unfold at1. now apply nth_error_nth'. Qed.
  Lemma nth_at2 p : p < length i2 -> at2 modes p (fst (nth p i2 (0, 0))) (snd (nth p i2 (0, 0))).
  Proof. intros Hp. unfold at2. rewrite <- surjective_pairing. now apply nth_error_nth'. Qed.

  Lemma in_w_nn a b v : In (a, b, v) w_nn <-> exists p q k l, q < p /\ at1 modes p k /\ at1 modes q l /\
    (a = k /\ b = l \/ a = l /\ b = k) /\ v = nn_value f4 freq f3 zmat rotcon c i1 2 k l.
  Proof.
    unfold w_nn. rewrite in_flat_map. split.
    - intros (p & Hp & Hin). apply in_flat_map in Hin as (q & Hq & Hin). apply in_range in Hp, Hq.
      cbv zeta in Hin. exists p, q, (nth p i1 0), (nth q i1 0).
      split; [lia|]. split; [apply nth_at1; lia|]. split; [apply nth_at1; lia|].
      destruct Hin as [E|[E|[]]]; inversion E; subst; auto.
    - intros (p & q & k & l & Hpq & Hk & Hl & Hab & ->). exists p.
      pose proof (at1_lt _ _ Hk). split; [apply in_range; lia|]. apply in_flat_map. exists q.
      split; [apply in_range; lia|]. cbv zeta.
      rewrite (nth_error_nth _ _ 0 Hk), (nth_error_nth _ _ 0 Hl).
      destruct Hab as [[-> ->]|[-> ->]]; cbn; auto.
  Qed.
  Lemma in_w_nd a b v : In (a, b, v) w_nd <-> exists p q k l l2, at1 modes p k /\ at2 modes q l l2 /\
    (a = k /\ (b = l \/ b = l2) \/ (a = l \/ a = l2) /\ b = k) /\ v = nd_value f4 freq f3 zmat rotcon c i1 i2 1 k l.
  Proof.
    unfold w_nd. rewrite in_flat_map. split.
    - intros (k & Hk & Hin). apply in_flat_map in Hin as ([l l2] & Hl & Hin).
      apply In_nth_error in Hk as (p & Hp), Hl as (q & Hq). exists p, q, k, l, l2.
      split; [exact Hp|]. split; [exact Hq|].
      destruct Hin as [E|[E|[E|[E|[]]]]]; inversion E; subst; auto.
    - intros (p & q & k & l & l2 & Hk & Hl & Hab & ->). exists k.
      apply nth_error_In in Hk, Hl. split; [exact Hk|]. apply in_flat_map. exists (l, l2). split; [exact Hl|].
      destruct Hab as [[-> [->| ->]]|[[->| ->] ->]]; cbn; auto.
  Qed.
  Lemma in_w_dd1 a b v : In (a, b, v) w_dd1 <-> exists q k k2, at2 modes q k k2 /\
    a = b /\ (a = k \/ a = k2) /\ v = dd1_value f4 freq f3 c i1 i2 k.
  Proof.
    unfold w_dd1. rewrite in_flat_map. split.
    - intros ([k k2] & Hk & Hin). apply In_nth_error in Hk as (q & Hq). exists q, k, k2.
      split; [exact Hq|]. destruct Hin as [E|[E|[]]]; inversion E; subst; auto.
    - intros (q & k & k2 & Hk & -> & Ha & ->). exists (k, k2).
      apply nth_error_In in Hk. split; [exact Hk|]. destruct Ha as [->| ->]; cbn; auto.
  Qed.
  Lemma in_w_g1 a b v : In (a, b, v) w_g1 <-> exists q k k2, at2 modes q k k2 /\
    a = b /\ (a = k \/ a = k2) /\ v = g1_value f4 freq f3 zmat rotcon c i1 i2 2 k k2.
  Proof.
    unfold w_g1. rewrite in_flat_map. split.
    - intros (q & Hq & Hin). apply in_range in Hq. exists q, (fst (nth q i2 (0, 0))), (snd (nth q i2 (0, 0))).
      split; [apply nth_at2; lia|]. destruct Hin as [E|[E|[]]]; inversion E; subst; auto.
    - intros (q & k & k2 & Hk & -> & Ha & ->). exists q. pose proof (at2_lt _ _ _ Hk).
      split; [apply in_range; lia|]. cbv zeta. rewrite (nth_error_nth _ _ (0, 0) Hk).
      destruct Ha as [->| ->]; cbn; auto.
  Qed.
  Lemma in_w_off val a b v : In (a, b, v) (w_off val) <-> exists p q k k2 l l2, q < p /\
    at2 modes p k k2 /\ at2 modes q l l2 /\
    (a = k /\ b = l \/ a = l /\ b = k \/ a = k2 /\ b = l2 \/ a = l2 /\ b = k2) /\ v = val (k, k2) (l, l2).
  Proof.
    unfold w_off. rewrite in_flat_map. split.
    - intros (p & Hp & Hin). apply in_flat_map in Hin as (q & Hq & Hin). apply in_range in Hp, Hq.
      cbv zeta in Hin. exists p, q, (fst (nth p i2 (0, 0))), (snd (nth p i2 (0, 0))),
        (fst (nth q i2 (0, 0))), (snd (nth q i2 (0, 0))).
      split; [lia|]. split; [apply nth_at2; lia|]. split; [apply nth_at2; lia|].
      rewrite <- !surjective_pairing.
      destruct Hin as [E|[E|[E|[E|[]]]]]; inversion E; subst; auto 6.
    - intros (p & q & k & k2 & l & l2 & Hpq & Hk & Hl & Hab & ->). exists p.
      pose proof (at2_lt _ _ _ Hk). split; [apply in_range; lia|]. apply in_flat_map. exists q.
      split; [apply in_range; lia|]. cbv zeta.
      rewrite (nth_error_nth _ _ (0, 0) Hk), (nth_error_nth _ _ (0, 0) Hl).
      destruct Hab as [[-> ->]|[[-> ->]|[[-> ->]|[-> ->]]]]; cbn; auto 6.
  Qed.

  Ltac spl := repeat match goal with
    | E : _ /\ _ |- _ => destruct E
    | E : _ \/ _ |- _ => destruct E
    | E : exists _, _ |- _ => destruct E
    end.
  (** places decide everything: equal numbers have equal places, equal places have equal
      numbers *)
  Ltac locs loc L1 L2 :=
    repeat match goal with
    | A : at1 modes ?p ?a |- _ => pose proof (L1 p a A); unfold at1 in A
    | A : at2 modes ?p ?a ?b |- _ => pose proof (L2 p a b A); unfold at2 in A
    end.
  Ltac close_it :=
    destruct (places nvib modes Hpart) as (loc & L1 & L2);
    spl; subst; locs loc L1 L2; spl; try (exfalso; lia);
    repeat match goal with
    | A : nth_error ?l ?p = Some ?a, B : nth_error ?l ?p' = Some ?a' |- _ =>
        tryif constr_eq A B then fail else
        (let E := fresh in assert (E : p = p') by lia; rewrite E in A; rewrite A in B;
         injection B; intros; subst; clear B)
    end; try reflexivity.

  Definition w_x : list (nat * nat * F) := w_nn1 ++ w_nn ++ w_nd ++ w_dd1 ++ w_off v_dd.
  Ltac unx Q := unfold w_x in Q; rewrite !in_app_iff, in_w_nn1, in_w_nn, in_w_nd, in_w_dd1, in_w_off in Q.
  Ltac ung Q := rewrite !in_app_iff, in_w_g1, in_w_off in Q.

  Lemma x_kk x0 p k : at1 modes p k -> writes x0 w_x k k = kk_value k.
  Proof.
    intros Hk. apply writes_some.
    - unfold w_x. rewrite in_app_iff, in_w_nn1. eauto.
    - intros u Q. unx Q. close_it.
  Qed.
  Lemma x_nn x0 p q k l : q < p -> at1 modes p k -> at1 modes q l ->
    writes x0 w_x k l = nn_value f4 freq f3 zmat rotcon c i1 2 k l /\
    writes x0 w_x l k = nn_value f4 freq f3 zmat rotcon c i1 2 k l.
  Proof.
    intros Hpq Hk Hl. split; apply writes_some.
    1,3: unfold w_x; rewrite !in_app_iff, in_w_nn; right; left; exists p, q, k, l; auto 7.
    all: intros u Q; unx Q; close_it.
  Qed.
  Lemma x_nd x0 p q k l l2 : at1 modes p k -> at2 modes q l l2 ->
    let v := nd_value f4 freq f3 zmat rotcon c i1 i2 1 k l in
    writes x0 w_x k l = v /\ writes x0 w_x l k = v /\ writes x0 w_x k l2 = v /\ writes x0 w_x l2 k = v.
  Proof.
    intros Hk Hl v. repeat apply conj; apply writes_some.
    1,3,5,7: unfold w_x; rewrite !in_app_iff, in_w_nd; right; right; left; exists p, q, k, l, l2; auto 7.
    all: intros u Q; unx Q; unfold v; close_it.
  Qed.
  Lemma x_dd1 x0 q k k2 : at2 modes q k k2 ->
    let v := dd1_value f4 freq f3 c i1 i2 k in
    writes x0 w_x k k = v /\ writes x0 w_x k2 k2 = v.
  Proof.
    intros Hk v. repeat apply conj; apply writes_some.
    1,3: unfold w_x; rewrite !in_app_iff, in_w_dd1; right; right; right; left; exists q, k, k2; auto 7.
    all: intros u Q; unx Q; unfold v; close_it.
  Qed.
  Lemma x_dd x0 p q k k2 l l2 : q < p -> at2 modes p k k2 -> at2 modes q l l2 ->
    let v := v_dd (k, k2) (l, l2) in
    writes x0 w_x k l = v /\ writes x0 w_x l k = v /\ writes x0 w_x k2 l2 = v /\ writes x0 w_x l2 k2 = v.
  Proof.
    intros Hpq Hk Hl v. repeat apply conj; apply writes_some.
    1,3,5,7: unfold w_x; rewrite !in_app_iff, in_w_off; right; right; right; right; exists p, q, k, k2, l, l2; auto 12.
    all: intros u Q; unx Q; unfold v; close_it.
  Qed.
  (** partners of different kind are never coupled *)
  Lemma x_cross x0 p q k k2 l l2 : at2 modes p k k2 -> at2 modes q l l2 ->
    writes x0 w_x k l2 = x0 k l2 /\ writes x0 w_x l2 k = x0 l2 k.
  Proof.
    intros Hk Hl. split; apply writes_none; intros v Q; unx Q; close_it.
  Qed.
  Lemma g_kk x0 q k k2 : at2 modes q k k2 ->
    let v := g1_value f4 freq f3 zmat rotcon c i1 i2 2 k k2 in
    writes x0 (w_g1 ++ w_off v_g) k k = v /\ writes x0 (w_g1 ++ w_off v_g) k2 k2 = v.
  Proof.
    intros Hk v. repeat apply conj; apply writes_some.
    1,3: rewrite !in_app_iff, in_w_g1; left; exists q, k, k2; auto 7.
    all: intros u Q; ung Q; unfold v; close_it.
  Qed.
  Lemma g_kl x0 p q k k2 l l2 : q < p -> at2 modes p k k2 -> at2 modes q l l2 ->
    let v := v_g (k, k2) (l, l2) in
    let g := writes x0 (w_g1 ++ w_off v_g) in
    g k l = v /\ g l k = v /\ g k2 l2 = v /\ g l2 k2 = v.
  Proof.
    intros Hpq Hk Hl v g. repeat apply conj; apply writes_some.
    1,3,5,7: rewrite !in_app_iff, in_w_off; right; exists p, q, k, k2, l, l2; auto 12.
    all: intros u Q; ung Q; unfold v; close_it.
  Qed.
  (** and no other entry of g is set *)
  Lemma g_other x0 a b : (forall q k k2, at2 modes q k k2 -> a <> k /\ a <> k2) ->
    writes x0 (w_g1 ++ w_off v_g) a b = x0 a b /\ writes x0 (w_g1 ++ w_off v_g) b a = x0 b a.
  Proof.
    intros N. split; apply writes_none; intros v Q; ung Q; spl; subst;
    repeat match goal with A : at2 modes ?q ?k ?k2 |- _ => apply N in A end; intuition congruence.
  Qed.
End Entries.
