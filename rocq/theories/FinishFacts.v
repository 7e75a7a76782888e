(** Lemmas about a whole run. *)
From Coq Require Import List ZArith Arith Lia Bool Permutation.
From Verif Require Import Num Loops ListFacts Index LoadFacts Modes ModesFacts ResFacts ResWitness
  StatesFacts Anharm EnergyFacts FermiFacts VibRot Distort Transform SymAnharm Polyads Report
  OutputFacts VibRotFacts SymRotFacts Finish.
Import ListNotations.
Open Scope nat_scope.

(** ** loops that cannot panic *)
Lemma ofold_total {A S} (f : S -> A -> option S) l s :
  (forall s a, In a l -> exists s', f s a = Some s') -> exists s', ofold f l s = Some s'.
Proof.
  revert s. induction l as [|a l IH]; intros s Hf; cbn [ofold]; [eauto|].
  destruct (Hf s a (or_introl eq_refl)) as (s' & ->). apply IH. intros; apply Hf; now right.
Qed.

Lemma ofold_push_total {A B} (f : A -> option B) l acc :
  (forall a, In a l -> exists b, f a = Some b) ->
  exists r, ofold (fun acc a => let* x := f a in Some (acc ++ [x])) l acc = Some (acc ++ r) /\
    length r = length l /\ forall i a, nth_error l i = Some a -> nth_error r i = f a.
Proof.
  revert acc. induction l as [|a l IH]; intros acc Hf; cbn [ofold].
  - exists []. rewrite app_nil_r. repeat split. intros [|i] a E; discriminate.
  - destruct (Hf a (or_introl eq_refl)) as (b & Eb). rewrite Eb. cbn [obind].
    destruct (IH (acc ++ [b])) as (r & E & L & N); [intros; apply Hf; now right|].
    exists (b :: r). rewrite E, <- app_assoc. split; [reflexivity|]. split; [cbn; lia|].
    intros [|i] a' E'; cbn in *; [congruence|auto].
Qed.

(** writing every entry of a list: the old entries are lost *)
Lemma overwrite_aux {A} (lev : list A) n : forall k (eng : list A),
  length eng = length lev -> k + n = length lev -> firstn k eng = firstn k lev ->
  ofold (fun eng ist => let* v := nth_error lev ist in set_nth eng ist v) (seq k n) eng = Some lev.
Proof.
  induction n as [|n IH]; intros k eng L Hk Hp; cbn [seq ofold].
  - f_equal. rewrite <- (firstn_all lev), <- (firstn_all eng), L. replace (length lev) with k by lia. exact Hp.
  - destruct (nth_error lev k) as [v|] eqn:E; [|apply nth_error_None in E; lia]. cbn [obind].
    destruct (set_nth_spec eng k v) as (e1 & -> & L1 & N1); [lia|].
    apply IH; [lia|lia|].
    apply list_ext; [rewrite !firstn_length; lia|].
    intros i Hi. rewrite firstn_length in Hi.
    assert (F : forall (l : list A) m j, j < m -> nth_error (firstn m l) j = nth_error l j).
    { clear. intros l. induction l as [|a l IH]; intros [|m] [|j] Hj; cbn; try lia; try reflexivity. apply IH; lia. }
    rewrite !F by lia. rewrite N1.
    destruct (Nat.eqb_spec i k) as [->|Ne]; [now rewrite E|].
    assert (Q : nth_error (firstn k eng) i = nth_error (firstn k lev) i) by now rewrite Hp.
    rewrite !F in Q by lia. exact Q.
Qed.
Lemma overwrite {A} (lev eng : list A) : length eng = length lev ->
  ofold (fun eng ist => let* v := nth_error lev ist in set_nth eng ist v) (range 0 (length lev)) eng
  = Some lev.
Proof. intros L. rewrite range_0. now apply overwrite_aux. Qed.

Lemma ofold_set_length {A} (f : nat -> A) l : forall (eng eng' : list A),
  ofold (fun eng ist => set_nth eng ist (f ist)) l eng = Some eng' -> length eng' = length eng.
Proof.
  induction l as [|i l IH]; intros eng eng'; cbn [ofold]; [congruence|].
  destruct (set_nth eng i (f i)) as [e|] eqn:E; [|discriminate].
  intros Q. apply IH in Q. apply set_nth_inv in E as (_ & L & _). lia.
Qed.

Section Total.
  Context {F I : Type} `{Num F}.

  (** ** the resonance searches *)
  Definition comparable (freq : nat -> F) (nvib : nat) : Prop := forall i j k,
    i < nvib -> j < nvib -> k < nvib ->
    aminjm (nsub (nsub (freq i) (freq j)) (freq k)) (nsub (nadd (nopp (freq i)) (freq j)) (freq k))
           (nadd (nsub (nopp (freq i)) (freq j)) (freq k)) <> None.

  Lemma ferm2_total freq f3 nvib i j k : comparable freq nvib -> i < nvib -> j < nvib -> k < nvib ->
    exists r, ferm2_test freq f3 i j k = Some r.
  Proof.
    intros C Hi Hj Hk. unfold ferm2_test. specialize (C i j k Hi Hj Hk).
    destruct (aminjm _ _ _) eqn:E; [|congruence]. cbn [obind]. eauto.
  Qed.
  Lemma ocollect_total' {A B} (l : list A) (f : A -> option (list B)) :
    (forall x, In x l -> exists r, f x = Some r) -> exists r, ocollect l f = Some r.
  Proof.
    induction l as [|a l IH]; intros Hf; cbn; [eauto|].
    destruct (Hf a (or_introl eq_refl)) as (x & ->). cbn.
    destruct IH as (r & ->); [intros; apply Hf; now right|]. cbn. eauto.
  Qed.

  Variables (nvib : nat) (modes : list mode).
  Hypothesis Hpart : Permutation (flat_map members modes) (seq 0 nvib).

  Lemma m1_lt ii : ii < n1dm modes -> m1 modes ii < nvib.
  Proof.
    intros Hi. apply (part_lt nvib modes Hpart). apply in_or_app. left.
    unfold m1. apply nth_In. rewrite <- n1dm_eq. exact Hi.
  Qed.
  Lemma m2_lt ii : ii < n2dm modes -> fst (m2 modes ii) < nvib /\ snd (m2 modes ii) < nvib.
  Proof.
    intros Hi. assert (In (m2 modes ii) (i2mode modes)) as Q
      by (unfold m2; apply nth_In; rewrite <- n2dm_eq; exact Hi).
    split; apply (part_lt nvib modes Hpart); apply in_or_app; right; apply in_or_app; left;
      apply in_flat_map; exists (m2 modes ii); (split; [exact Q|]); destruct (m2 modes ii); cbn; auto.
  Qed.

  Lemma fermi2_total r freq f3 :
    r <> SphericalTop -> r <> NoRotor -> comparable freq nvib ->
    exists ret, fermi2 r modes freq f3 = Some ret.
  Proof.
    intros H1 H2 C.
    assert (A : forall p, In p (range 0 (n1dm modes)) -> m1 modes p < nvib).
    { intros p Hp. apply in_range in Hp. apply m1_lt. lia. }
    assert (B : forall p, p < n2dm modes -> fst (m2 modes p) < nvib) by (intros; now apply m2_lt).
    assert (A' : forall p, p < n1dm modes -> m1 modes p < nvib) by (intros; now apply m1_lt).
    destruct r; try contradiction; cbn [fermi2]; eauto;
    repeat (first [apply oapp_total | apply ocollect_total'; intros ? ?%in_range
                | (eexists; reflexivity)]);
    apply (ferm2_total _ _ nvib _ _ _ C); first [apply A'; lia | apply B; lia].
  Qed.

  Lemma fermi1_bound r freq f3 ret i j : r <> SphericalTop -> r <> NoRotor ->
    fermi1 r modes freq f3 = Some ret -> In (i, j) ret -> i < nvib /\ j < nvib.
  Proof.
    intros H1 H2 E Hin.
    assert (A : forall p, In p (i1mode modes) -> p < nvib).
    { intros p Hp. apply (part_lt nvib modes Hpart). apply in_or_app. now left. }
    assert (B : forall p q, In (p, q) (i2mode modes) -> p < nvib).
    { intros p q Hp. apply (part_lt nvib modes Hpart). apply in_or_app. right. apply in_or_app. left.
      apply in_flat_map. exists (p, q). split; [exact Hp|]. cbn. auto. }
    assert (T : forall a b, In (i, j) (ferm1_test freq f3 a b) -> i = a /\ j = b).
    { intros a b Q. apply in_ferm1_test in Q as [Q _]. now injection Q as -> ->. }
    destruct r; try contradiction; cbn [fermi1] in E; injection E as <-; unfold collect in Hin;
    try contradiction;
    repeat match goal with
    | X : In _ (_ ++ _) |- _ => apply in_app_or in X as [X|X]
    | X : In _ (flat_map _ _) |- _ => apply in_flat_map in X as (? & ? & X)
    | p : (_ * _)%type |- _ => destruct p
    end; apply T in Hin as [-> ->]; eauto.
  Qed.

  Lemma fermi2_bound r freq f3 ret i j k : r <> SphericalTop -> r <> NoRotor ->
    fermi2 r modes freq f3 = Some ret -> In (i, j, k) ret -> i < nvib /\ j < nvib /\ k < nvib.
  Proof.
    intros H1 H2 E Hin.
    assert (A : forall p x, nth_error (i1mode modes) p = Some x -> x < nvib).
    { intros p x Hp. apply (part_lt nvib modes Hpart). apply in_or_app. left. eapply nth_error_In, Hp. }
    assert (B : forall p x, option_map fst (nth_error (i2mode modes) p) = Some x -> x < nvib).
    { intros p x Hp. destruct (nth_error (i2mode modes) p) as [[u v]|] eqn:Q; [|discriminate].
      injection Hp as <-. apply (part_lt nvib modes Hpart). apply in_or_app. right. apply in_or_app. left.
      apply in_flat_map. exists (u, v). split; [eapply nth_error_In, Q|]. cbn. auto. }
    destruct r; try contradiction.
    - cbn in E. injection E as <-. contradiction.
    - apply (fermi2_sym_lemma Linear modes freq f3 ret ltac:(tauto) E i j k) in Hin.
      destruct Hin as [[_ [(p & q & s & Hh)|[(p & q & s & Hh)|(p & q & s & Hh)]]]|[_ (p & q & s & Hh)]];
      intuition eauto.
    - apply (fermi2_sym_lemma OblateSymmTop modes freq f3 ret ltac:(tauto) E i j k) in Hin.
      destruct Hin as [[_ [(p & q & s & Hh)|[(p & q & s & Hh)|(p & q & s & Hh)]]]|[_ (p & q & s & Hh)]];
      intuition eauto.
    - apply (fermi2_sym_lemma ProlateSymmTop modes freq f3 ret ltac:(tauto) E i j k) in Hin.
      destruct Hin as [[_ [(p & q & s & Hh)|[(p & q & s & Hh)|(p & q & s & Hh)]]]|[_ (p & q & s & Hh)]];
      intuition eauto.
    - cbn [fermi2] in E.
      apply (ocollect_in _ _ _ _ E) in Hin as (ii & r1 & I1 & E1 & Hin).
      apply (ocollect_in _ _ _ _ E1) in Hin as (jj & r2 & I2 & E2 & Hin).
      apply (ocollect_in _ _ _ _ E2) in Hin as (kk & r3 & I3 & E3 & Hin).
      apply (ferm2_test_in _ _ _ _ _ _ _ E3) in Hin as [Q _]. injection Q as -> -> ->.
      apply in_range in I1, I2, I3. repeat split; apply m1_lt; lia.
  Qed.

  (** ** the levels *)
  Lemma level_total freq x gc (e0 : F) v1 v2 : gc <> None \/ n2dm modes = 0 ->
    exists e, level freq modes x gc e0 v1 v2 = Some e.
  Proof.
    intros Hg. unfold level. cbv zeta.
    match goal with |- context [obind (ofold ?f ?l ?s) _] => destruct (ofold_total f l s) as (z & E) end.
    - intros s a Ha. apply in_range in Ha. destruct gc as [g|]; [cbn [obind]; eauto|].
      destruct Hg as [Hg|Hg]; [congruence|lia].
    - rewrite E. cbn [obind]. eauto.
  Qed.
  Lemma part1_total freq x gc (e0 : F) states : gc <> None \/ n2dm modes = 0 ->
    exists lev, part1 freq modes x gc e0 states = Some lev /\ length lev = length states.
  Proof.
    intros Hg. unfold part1.
    destruct (ofold_push_total (fun s => level freq modes x gc e0
        (fun ii => nth ii (state_i1 s) 0) (fun ii => nth ii (state_i2 s) (0, 0))) states []) as (r & E & L & _).
    - intros s _. now apply level_total.
    - exists r. split; [exact E|exact L].
  Qed.

  Lemma sym_funds_total freq (x : nat -> nat -> F) g :
    exists h f, make_sym_funds freq modes x (Some g) = Some (h, f) /\
      length h = n1dm modes + n2dm modes /\ length f = n1dm modes + n2dm modes.
  Proof.
    unfold make_sym_funds. cbv zeta. cbn [obind].
    match goal with |- context [ofold ?f ?l []] =>
      destruct (ofold_push_total (fun ii => match f [] ii with Some [v] => Some v | _ => None end) l [])
        as (r & E & L & _) end.
    - intros ii _. cbn [app]. eauto.
    - cbn [app obind] in E. rewrite E. cbn [obind]. do 2 eexists. split; [reflexivity|].
      rewrite !app_length, !map_length, L. unfold range. rewrite !seq_length. lia.
  Qed.

  (** ** rotational constants *)
  Lemma alphas_sum_total (al : nat -> F) s : wide modes s -> exists v, alphas_sum modes al s = Some v.
  Proof.
    intros [W1 W2]. unfold alphas_sum. rewrite n1dm_eq, n2dm_eq, i1mode_eq, i2mode_eq.
    match goal with |- context [obind (ofold ?f ?l ?s) _] => destruct (ofold_total f l s) as (z & E) end.
    - intros a ii Hi. apply in_range in Hi.
      destruct (nth_error (state_i1 s) ii) eqn:Q; [cbn [obind]; eauto|].
      apply nth_error_None in Q. unfold nondeg in W1. lia.
    - rewrite E. cbn [obind]. apply ofold_total.
      intros a ii Hi. apply in_range in Hi.
      destruct (nth_error (state_i2 s) ii) eqn:Q; [cbn [obind]; eauto|].
      apply nth_error_None in Q. unfold degs in W2. lia.
  Qed.
  Lemma alphas_total (B J w : nat -> F) wl zm f3 r states cor :
    r <> SphericalTop -> (forall s, In s states -> wide modes s) ->
    exists rows, alphas B J w wl zm f3 r modes states cor = Some rows /\ length rows = length states.
  Proof.
    intros Hr W.
    assert (Q : exists rows, ofold (fun rows s =>
        let* s2 := (if is_linear r then Some (nz 0) else
                    let* s := alphas_sum modes (fun i => sym_alpha B J w wl zm f3 r modes cor i 2) s in
                    Some (nadd (B 2) s)) in
        let* s1 := alphas_sum modes (fun i => sym_alpha B J w wl zm f3 r modes cor i 1) s in
        Some (rows ++ [(nz 0, nadd (B 1) s1, s2)])) states [] = Some rows /\ length rows = length states).
    { destruct (ofold_push_total (fun s =>
        let* s2 := (if is_linear r then Some (nz 0) else
                    let* s := alphas_sum modes (fun i => sym_alpha B J w wl zm f3 r modes cor i 2) s in
                    Some (nadd (B 2) s)) in
        let* s1 := alphas_sum modes (fun i => sym_alpha B J w wl zm f3 r modes cor i 1) s in
        Some (nz 0, nadd (B 1) s1, s2)) states []) as (rows & E & L & _).
      - intros s Hs. destruct (alphas_sum_total (fun i => sym_alpha B J w wl zm f3 r modes cor i 2) s (W s Hs)) as (a & Ea).
        destruct (alphas_sum_total (fun i => sym_alpha B J w wl zm f3 r modes cor i 1) s (W s Hs)) as (b & Eb).
        rewrite Ea, Eb. destruct (is_linear r); cbn [obind]; eauto.
      - exists rows. split; [|exact L]. cbn [app] in E. rewrite <- E.
        assert (X : forall f g : list (F * F * F) -> state -> option (list (F * F * F)),
          (forall a s, f a s = g a s) -> forall l a, ofold f l a = ofold g l a).
        { clear. intros f g Hfg l. induction l as [|s l IH]; intros a; cbn [ofold]; [reflexivity|].
          rewrite Hfg. destruct (g a s); [apply IH|reflexivity]. }
        apply X. intros a s.
        destruct (if is_linear r then _ else _) as [s2|]; [|reflexivity]. cbn [obind].
        now destruct (alphas_sum modes _ s). }
    unfold alphas. destruct r; try contradiction; exact Q.
  Qed.

  Lemma rots_total (B : nat -> F) r rows states b1 b2 b3 :
    length rows = length states ->
    exists out, rots B r rows states b1 b2 b3 = Some out /\ map rot_state out = filter shown states.
  Proof.
    intros L. unfold rots.
    set (d := I1st []). set (dr := (nz 0, nz 0, nz 0) : F * F * F).
    assert (Q : forall ia ib ic, exists out, ofold (fun ret nst =>
      let* row := nth_error rows nst in
      let* s := nth_error states nst in
      if rots_keep s then
        let vib1 := nsub (row3 row ia) (B ia) in
        let vib2 := nsub (row3 row ib) (B ib) in
        let v := vibr ic vib1 vib2 vib2 in
        let bxs := nadd b1 (v 2) in
        let bys := nadd b2 (v 0) in
        let bzs := nadd b3 (v 1) in
        let '(bys, bzs) := if is_linear r then (bzs, bys) else (bys, bzs) in
        match s with
        | I1st _ | I2st _ => Some (ret ++ [mk_rot s bys bxs bzs])
        | _ => Some ret
        end
      else Some ret) (range 0 (length rows)) [] = Some out /\ map rot_state out = filter shown states).
    { intros ia ib ic. rewrite range_0.
      erewrite (ofold_keep _ (fun i => shown (nth i states d)) (fun i =>
        let row := nth i rows dr in
        let s := nth i states d in
        let vib1 := nsub (row3 row ia) (B ia) in
        let vib2 := nsub (row3 row ib) (B ib) in
        let v := vibr ic vib1 vib2 vib2 in
        let bxs := nadd b1 (v 2) in
        let bys := nadd b2 (v 0) in
        let bzs := nadd b3 (v 1) in
        let '(bys, bzs) := if is_linear r then (bzs, bys) else (bys, bzs) in
        mk_rot s bys bxs bzs)).
      - eexists. split; [reflexivity|]. cbn [app]. rewrite map_map, L.
        rewrite <- (map_nth_filter d shown states). apply map_ext.
        intros i. cbv zeta. now destruct (is_linear r).
      - intros ret i Hi. apply in_seq in Hi.
        rewrite (nth_error_nth_lt rows i dr), (nth_error_nth_lt states i d) by lia.
        cbn [obind]. cbv zeta. unfold shown.
        destruct (rots_keep (nth i states d)); cbn [andb]; [|reflexivity].
        destruct (is_linear r); destruct (nth i states d); reflexivity. }
    destruct (is_prolate r); [|destruct (is_diatomic r)];
      cbn [princ_cart IPTOC ICTOP nth_error obind]; apply Q.
  Qed.

  Lemma rota_total n (B J w : nat -> F) wl zm f3 vs cor nderiv b4 b5 b6 :
    (forall v, In v vs -> length v = n) -> n + 1 <= length vs -> (2 < nderiv)%Z ->
    exists rows out, alphaa n B J w wl zm f3 (singles n) (map I1st vs) cor = Some rows /\
      rota B nderiv rows (map I1st vs) b4 b5 b6 = Some out /\
      map rot_state out = map I1st (firstn (n + 1) vs).
  Proof.
    intros L Hn Hd.
    assert (A : forall (al : nat -> F) v, length v = n -> exists x, alphaa_sum (singles n) al (I1st v) = Some x).
    { intros al v Lv. unfold alphaa_sum. apply ofold_total. intros s ii Hi. apply in_range in Hi.
      rewrite n1dm_singles in Hi. unfold singles. rewrite nth_error_map_seq by lia. cbn [obind].
      destruct (nth_error v ii) eqn:E; [cbn [obind]; eauto|]. apply nth_error_None in E. lia. }
    unfold alphaa.
    match goal with |- context [ofold ?f (range 0 (n + 1)) []] =>
      destruct (ofold_push_total (fun i => match f [] i with Some [x] => Some x | _ => None end)
        (range 0 (n + 1)) []) as (rows & E & Lr & _) end.
    { intros i Hi. apply in_range in Hi. rewrite nth_error_map, (nth_error_nth_lt vs i []) by lia.
      cbn [option_map obind]. assert (Lv : length (nth i vs []) = n) by (apply L, nth_In; lia).
      destruct (A (fun j => alpha n B J w wl zm f3 cor j 0) _ Lv) as (a & ->). cbn [obind].
      destruct (A (fun j => alpha n B J w wl zm f3 cor j 1) _ Lv) as (b & ->). cbn [obind].
      destruct (A (fun j => alpha n B J w wl zm f3 cor j 2) _ Lv) as (c & ->). cbn [obind app]. eauto. }
    exists rows.
    assert (X : forall {S A : Type} (f g : S -> A -> option S) l,
          (forall a s, In s l -> f a s = g a s) -> forall a, ofold f l a = ofold g l a).
    { clear. intros S A f g l. induction l as [|s l IH]; intros Hfg a; cbn [ofold]; [reflexivity|].
      rewrite Hfg by now left. destruct (g a s); [|reflexivity]. apply IH. intros; apply Hfg; now right. }
    match goal with |- context [?a = Some rows] => assert (a = Some rows) as -> end.
    { cbn [app] in E. rewrite <- E. apply X. intros a i Hi. cbn [app].
      destruct (nth_error (map I1st vs) i) as [s|]; [|reflexivity]. cbn [obind].
      destruct (alphaa_sum (singles n) _ s) as [p|]; [|reflexivity]. cbn [obind].
      destruct (alphaa_sum (singles n) _ s) as [q|]; [|reflexivity]. cbn [obind].
      destruct (alphaa_sum (singles n) _ s) as [r|]; reflexivity. }
    unfold range in Lr. rewrite seq_length, Nat.sub_0_r in Lr.
    unfold rota. cbn [princ_cart IPTOC ICTOP nth_error obind].
    apply Z.ltb_lt in Hd. rewrite Hd. cbn [negb]. rewrite range_0, Lr.
    set (dr := (nz 0, nz 0, nz 0) : F * F * F).

    match goal with |- context [ofold ?f _ _] => set (body := f) end.
    rewrite (ofold_keep body (fun _ => true) (fun i =>
      match body [] i with Some [x] => x | _ => mk_rot (I1st []) (nz 0) (nz 0) (nz 0) end)).
    - eexists. split; [reflexivity|]. split; [reflexivity|]. cbn [app].
      rewrite (filter_all (fun _ => true)) by reflexivity. rewrite map_map.
      assert (Q : firstn (n + 1) vs = map (fun i => nth i vs []) (seq 0 (n + 1))).
      { apply list_ext; [rewrite firstn_length, map_length, seq_length; lia|].
        intros i Hi. rewrite firstn_length in Hi. rewrite nth_error_map_seq by lia.
        rewrite <- (firstn_skipn (n + 1) vs) at 2.
        rewrite app_nth1 by (rewrite firstn_length; lia).
        apply nth_error_nth_lt. rewrite firstn_length. lia. }
      rewrite Q, map_map. apply map_ext_in. intros i Hi. apply in_seq in Hi.
      unfold body. rewrite (nth_error_nth_lt rows i dr), nth_error_map, (nth_error_nth_lt vs i []) by lia.
      reflexivity.
    - intros ret i Hi. apply in_seq in Hi. unfold body.
      rewrite (nth_error_nth_lt rows i dr), nth_error_map, (nth_error_nth_lt vs i []) by lia.
      reflexivity.
  Qed.
End Total.

(** ** the constants *)
Section Consts.
  Context {F I : Type} `{Num F}.

  Lemma make_t_total irep (taup : nat -> nat -> F) : irep = 0 \/ irep = 5 ->
    exists c d t, princ_cart irep = Some (c, d) /\ make_t 3 c taup = Some t.
  Proof.
    intros [-> | ->]; (do 3 eexists; split; [reflexivity|]);
      unfold make_t, range; cbn [Nat.sub seq ofold at3 fst snd Nat.ltb Nat.leb andb]; reflexivity.
  Qed.
  Lemma quartic_total r nvib (B J w : nat -> F) wl : r <> SphericalTop -> r <> NoRotor ->
    exists q, quartic_new r nvib B J w wl = Some q.
  Proof.
    intros H1 H2. destruct r; try contradiction; unfold quartic_new.
    - cbn [is_linear obind]. eexists. reflexivity.
    - cbn [is_linear obind]. eexists. reflexivity.
    - destruct (make_t_total 5 (tau_prime (make_tau nvib w J wl)) ltac:(auto)) as (c & d & t & Ep & Et).
      cbn [is_linear obind]. rewrite Ep. cbn [obind]. rewrite Et. cbn [obind is_diatomic is_sym_top].
      destruct (make_tsix t). cbn [andb negb is_linear is_spherical_top].
      cbv zeta. destruct (nltb _ _); cbn [obind princ_cart IPTOC ICTOP nth_error]; eexists; reflexivity.
    - destruct (make_t_total 0 (tau_prime (make_tau nvib w J wl)) ltac:(auto)) as (c & d & t & Ep & Et).
      cbn [is_linear obind]. rewrite Ep. cbn [obind]. rewrite Et. cbn [obind is_diatomic is_sym_top].
      destruct (make_tsix t). cbn [andb negb is_linear is_spherical_top].
      cbv zeta. destruct (nltb _ _); cbn [obind princ_cart IPTOC ICTOP nth_error]; eexists; reflexivity.
    - destruct (make_t_total 0 (tau_prime (make_tau nvib w J wl)) ltac:(auto)) as (c & d & t & Ep & Et).
      cbn [is_linear obind]. rewrite Ep. cbn [obind]. rewrite Et. cbn [obind is_diatomic is_sym_top].
      destruct (make_tsix t). cbn [andb negb is_linear is_spherical_top is_asymm_top].
      cbv zeta. cbn [obind princ_cart IPTOC ICTOP nth_error]; eexists; reflexivity.
  Qed.
  Lemma make_phi_total irep (s : nat -> nat -> nat -> F) : irep = 0 \/ irep = 5 ->
    exists c d t, princ_cart irep = Some (c, d) /\ make_phi 3 c s = Some t.
  Proof.
    intros [-> | ->]; (do 3 eexists; split; [reflexivity|]);
      unfold make_phi, range; cbn [Nat.sub seq ofold at3 fst snd Nat.ltb Nat.leb andb]; reflexivity.
  Qed.
  Lemma sextic_total r nvib nfreq (B J w : nat -> F) wl zm f3 : r <> SphericalTop -> r <> NoRotor ->
    exists q, sextic_new r nvib nfreq B J w wl zm f3 = Some q.
  Proof.
    intros H1 H2.
    assert (C : forall st id t phi, is_sym_top r = Some st ->
        exists q, sextic_consts r st B id t phi = Some q).
    { intros st id t phi E. unfold sextic_consts. destruct (make_tsix t), (make_psix phi).
      destruct r; try contradiction; cbn in E; injection E as <-;
      cbn [negb is_prolate is_asymm_top orb]; cbv zeta;
      cbn [princ_cart IPTOC ICTOP nth_error obind]; eexists; reflexivity. }
    destruct r; try contradiction; unfold sextic_new.
    - cbn [is_diatomic]. eexists. reflexivity.
    - cbn [is_diatomic is_linear]. eexists. reflexivity.
    - cbn [is_diatomic is_linear is_sym_top obind].
      match goal with |- context [make_phi 3 _ ?s] =>
        destruct (make_phi_total 5 s ltac:(auto)) as (c & d & p & Ep & E1) end.
      destruct (make_t_total 5 (tau_prime (make_tau nvib w J wl)) ltac:(auto)) as (c' & d' & t & Ep' & Et).
      assert (c' = c) as -> by congruence.
      rewrite Ep. cbn [obind]. rewrite Et. cbn [obind]. rewrite E1. cbn [obind]. now apply C.
    - cbn [is_diatomic is_linear is_sym_top obind].
      match goal with |- context [make_phi 3 _ ?s] =>
        destruct (make_phi_total 5 s ltac:(auto)) as (c & d & p & Ep & E1) end.
      destruct (make_t_total 5 (tau_prime (make_tau nvib w J wl)) ltac:(auto)) as (c' & d' & t & Ep' & Et).
      assert (c' = c) as -> by congruence.
      rewrite Ep. cbn [obind]. rewrite Et. cbn [obind]. rewrite E1. cbn [obind]. now apply C.
    - cbn [is_diatomic is_linear is_sym_top obind].
      match goal with |- context [make_phi 3 _ ?s] =>
        destruct (make_phi_total 0 s ltac:(auto)) as (c & d & p & Ep & E1) end.
      destruct (make_t_total 0 (tau_prime (make_tau nvib w J wl)) ltac:(auto)) as (c' & d' & t & Ep' & Et).
      assert (c' = c) as -> by congruence.
      rewrite Ep. cbn [obind]. rewrite Et. cbn [obind]. rewrite E1. cbn [obind]. now apply C.
  Qed.

  Lemma storage_length n (a : nat -> nat -> F) : length (storage n a) = n * n.
  Proof.
    unfold storage, collect. rewrite !range_0.
    assert (Q : forall l, length (flat_map (fun j => map (fun i => a i j) (seq 0 n)) l) = n * length l).
    { induction l as [|j l IH]; cbn [flat_map length]; [lia|].
      rewrite app_length, map_length, seq_length, IH. lia. }
    rewrite Q, seq_length. reflexivity.
  Qed.
  Lemma to_vec_storage n (a : nat -> nat -> F) : n <> 0 -> exists v, to_vec n n (storage n a) = Some v.
  Proof.
    intros Hn. destruct (to_vec_spec n n (storage n a) (storage_length n a)) as [Q _].
    destruct (Q eq_refl Hn) as (v & E & _). eauto.
  Qed.
End Consts.

(** ** the whole *)
Section Run.
  Context {F I : Type} `{Num F}.
  Variable eig2 : F -> F -> F -> F * F * (F * F).

  Lemma restst_total r nvib (zm f3 : nat -> nat -> nat -> F) freq modes :
    deg_modes r nvib freq = Some modes ->
    Permutation (flat_map members modes) (seq 0 nvib) ->
    r <> SphericalTop -> r <> NoRotor -> comparable freq nvib ->
    exists rs, restst_new r nvib zm f3 freq = Some rs /\ rs_modes rs = modes /\
      restst_tables nvib (ioff (nvib + 1)) modes = Some (rs_tables rs) /\
      fermi1 r modes freq f3 = Some (rs_fermi1 rs) /\ fermi2 r modes freq f3 = Some (rs_fermi2 rs) /\
      coriolis r modes freq zm = Some (rs_coriolis rs) /\ darling r modes freq = Some (rs_darling rs).
  Proof.
    intros Ed Hp H1 H2 C. unfold restst_new. rewrite Ed. cbn [obind].
    destruct (tables_main nvib modes Hp) as (t & Et & _).
    destruct (fermi2_total nvib modes Hp r freq f3 H1 H2 C) as (fm2 & E2).
    assert (Ec : exists c, coriolis r modes freq zm = Some c)
      by (destruct r; try contradiction; cbn [coriolis]; try destruct (if is_prolate _ then _ else _) as [[? ?] ?]; eauto).
    assert (E1 : exists c, fermi1 r modes freq f3 = Some c)
      by (destruct r; try contradiction; cbn [fermi1]; eauto).
    assert (Er : exists c, darling r modes freq = Some c)
      by (destruct r; try contradiction; cbn [darling]; eauto).
    destruct Ec as (c & Ec), E1 as (fm1 & E1), Er as (dar & Er).
    rewrite Ec, E1, E2, Er, Et. cbn [obind]. eexists. split; [reflexivity|]. cbn. auto 10.
  Qed.

  Lemma finish_total_lemma (m : molecule F) (freql f3l f4l : list F) (irreps : list I) lxm lx modes :
    let r := m_rotor m in
    let nvib := m_nvib m in
    let freq i := nth i freql (nz 0) in
    r <> SphericalTop -> r <> NoRotor ->
    deg_modes r nvib freq = Some modes ->
    Permutation (flat_map members modes) (seq 0 nvib) ->
    comparable freq nvib ->
    nvib <= length freql -> 0 < m_natom m ->
    (r = AsymmTop -> 2 < nth 7 (m_header m) 4)%Z ->
    exists o, finish eig2 false m freql f3l f4l irreps lxm lx = Some o /\
      rs_modes (out_resonances o) = modes /\
      length (o_harms (out_lists o)) = n1dm modes + n2dm modes /\
      length (o_funds (out_lists o)) = n1dm modes + n2dm modes /\
      length (o_corrs (out_lists o)) = n1dm modes + n2dm modes + n3dm modes /\
      o_irreps (out_lists o) = irreps /\
      map rot_state (out_rots o) = fund_states nvib (n1dm modes) (n2dm modes).
  Proof.
    intros r nvib freq H1 H2 Ed Hp C Lf Na Hd. unfold finish. fold r nvib.
    change (fun i => nth i freql (nz 0)) with freq.
    set (f3 := fun i j k => nth (find3 i j k) f3l (nz 0)).
    set (f4 := fun i j k l => nth (find4 i j k l) f4l (nz 0)).
    set (zm := zmat (m_natom m) lxm). set (wl := wila (m_natom m) (m_geom m) (m_w m) lxm).
    set (B := m_rotcon m). set (J := m_primat m). cbv zeta.
    destruct (quartic_total r nvib B J freq wl H1 H2) as (q & Eq). rewrite Eq. cbn [obind].
    destruct (restst_total r nvib zm f3 freq modes Ed Hp H1 H2 C) as (rs & Er & Em & Et & E1 & E2 & Ec & Edar).
    rewrite Er. cbn [obind]. rewrite Em.
    destruct (tables_main nvib modes Hp) as (t' & Et' & St & _).
    assert (t' = rs_tables rs) as -> by congruence. clear Et'.
    set (states := t_states (rs_tables rs)) in *.
    assert (Est : exists sym, is_sym_top r = Some sym) by (destruct r; try contradiction; cbn; eauto).
    destruct Est as (sym & Est). rewrite Est. cbn [obind].
    assert (Asym : sym = false -> modes = singles nvib).
    { intros ->. rewrite deg_modes_asym_lemma in Ed.
      - injection Ed as <-. reflexivity.
      - destruct r; try discriminate; auto. }
    assert (X : exists x g e0, (if sym : bool then
         let* (x, g, e0) := xcals f4 freq f3 zm B r (rs_fermi1 rs) (rs_fermi2 rs) modes wl in Some (x, Some g, e0)
       else Some (xcalc nvib f4 freq f3 zm B (rs_fermi1 rs) (rs_fermi2 rs), None,
                  make_e0 f4 freq f3 (make_fermi_checks (rs_fermi1 rs) (rs_fermi2 rs)) modes)) = Some (x, g, e0) /\
       (sym = true -> g <> None)).
    { destruct sym.
      - unfold xcals, nondeg_nondeg. assert (is_diatomic r = false) as -> by (destruct r; try reflexivity; discriminate).
        cbv zeta. cbn [obind]. do 3 eexists. split; [reflexivity|]. discriminate.
      - do 3 eexists. split; [reflexivity|]. discriminate. }
    destruct X as (x & g & e0 & X & Xg).
    match goal with |- context [obind ?a _] => match type of X with ?b = _ => change a with b end end.
    rewrite X. cbn [obind andb].
    assert (Hg : g <> None \/ n2dm modes = 0).
    { destruct sym; [left; now apply Xg|right]. rewrite Asym by reflexivity. apply n2dm_singles. }
    destruct (part1_total modes freq x g e0 states Hg) as (lev & El & Ll). rewrite El. cbn [obind].
    rewrite <- Ll, overwrite by (now rewrite repeat_length). cbn [obind].
    destruct (ground_kept_lemma eig2 f3 (rs_fermi1 rs) (rs_fermi2 rs) nvib modes (rs_tables rs) lev Hp Et Ll)
      as (eng & Een & Le & G0).
    { intros i j Hin. now apply (fermi1_bound nvib modes Hp r freq f3 _ i j H1 H2 E1) in Hin. }
    { intros i j k Hin. now apply (fermi2_bound nvib modes Hp r freq f3 _ i j k H1 H2 E2) in Hin. }
    rewrite Een. cbn [obind].
    destruct (states_start nvib modes (rs_tables rs) Hp Et) as (Ls & _). fold states in Ls.
    destruct (corrs_lemma modes eng) as (c & E0 & Eco & Z & Lc & _); [lia|].
    assert (FL : exists h f, finish_lists sym nvib modes freql x g eng irreps = Some (mk_lists h f c irreps) /\
       length h = n1dm modes + n2dm modes /\ length f = n1dm modes + n2dm modes).
    { unfold finish_lists. fold freq. destruct sym.
      - destruct g as [g|]; [|exfalso; now apply Xg].
        destruct (sym_funds_total modes freq x g) as (h & f & E & Lh & Lff).
        rewrite E. cbn [obind]. rewrite Eco. cbn [obind]. exists h, f. auto.
      - unfold reported_harms. destruct (Nat.ltb_spec (length freql) nvib); [lia|].
        cbn [obind]. rewrite Eco. do 2 eexists. split; [reflexivity|].
        rewrite Asym by reflexivity. rewrite n1dm_singles, n2dm_singles, firstn_length.
        unfold make_funds. rewrite map_length. unfold range. rewrite seq_length. lia. }
    destruct FL as (h & f & FL & Lh & Lff). rewrite FL. cbn [obind].
    assert (RR : exists rows out,
      (if sym || is_diatomic r
       then alphas B J freq wl zm f3 r modes states (rs_coriolis rs)
       else alphaa nvib B J freq wl zm f3 modes states (rs_coriolis rs)) = Some rows /\
      (if sym || is_diatomic r then
         if is_spherical_top r then None
         else rots B r rows states (bxs q) (bys q) (bzs q)
       else rota B (nth 7 (m_header m) 4%Z) rows states (bxa q) (bya q) (bza q)) = Some out /\
      map rot_state out = fund_states nvib (n1dm modes) (n2dm modes)).
    { destruct (sym || is_diatomic r) eqn:S.
      - assert (is_spherical_top r = false) as -> by (destruct r; try reflexivity; contradiction).
        destruct (alphas_total modes B J freq wl zm f3 r states (rs_coriolis rs) H1) as (rows & Ea & La).
        { intros s Hs. rewrite St in Hs. destruct Hs as [<-|Hs].
          - unfold wide. cbn [state_i1 state_i2]. rewrite !repeat_length. exact (lens nvib modes (fun _ => Rdefinitions.IZR 0) Hp).
          - apply in_map_iff in Hs as (l & <- & Hl). apply in_labels in Hl. now apply (op_wide nvib modes Hp). }
        destruct (rots_total B r rows states (bxs q) (bys q) (bzs q) La) as (out & Eo & Mo).
        exists rows, out. split; [exact Ea|]. split; [exact Eo|]. rewrite Mo. rewrite St.
        now apply shown_states.
      - apply orb_false_iff in S as [-> S].
        assert (r = AsymmTop) as Ra by (destruct r; try discriminate; try contradiction; reflexivity).
        rewrite (Asym eq_refl) in *. clear Asym.
        destruct (states_asym_lemma nvib) as (t & vs & E & Hs & _ & Hin & Hl & Hv).
        assert (t = rs_tables rs) as -> by congruence. fold states in Hs.
        rewrite Hs.
        destruct (rota_total nvib B J freq wl zm f3 vs (rs_coriolis rs) (nth 7 (m_header m) 4%Z)
          (bxa q) (bya q) (bza q)) as (rows & out & Ea & Eo & Mo).
        { intros v Hv'. now apply Hin in Hv'. } { rewrite Hl. lia. } { now apply Hd. }
        exists rows, out. split; [exact Ea|]. split; [exact Eo|]. rewrite Mo, n1dm_singles, n2dm_singles.
        unfold fund_states. cbn [seq map]. rewrite app_nil_r, Hv.
        rewrite Nat.add_1_r. cbn [app firstn map]. f_equal.
        rewrite firstn_app, map_length, seq_length, Nat.sub_diag. cbn [firstn]. rewrite app_nil_r.
        rewrite firstn_all2 by (rewrite map_length, seq_length; lia). now rewrite map_map. }
    destruct RR as (rows & out & Ea & Eo & Mo). rewrite Ea. cbn [obind]. rewrite Eo. cbn [obind].
    destruct (sextic_total r nvib (length freql) B J freq wl zm f3 H1 H2) as (sx & Es). rewrite Es. cbn [obind].
    rewrite Z. cbn [obind].
    destruct (to_vec_storage (3 * m_natom m) lxm) as (v1 & ->); [lia|]. cbn [obind].
    destruct (to_vec_storage (3 * m_natom m) lx) as (v2 & ->); [lia|]. cbn [obind].
    eexists. split; [reflexivity|]. cbn [out_resonances out_lists out_rots o_harms o_funds o_corrs o_irreps].
    auto 10.
  Qed.

  (** ** what stops it *)
  Lemma finish_none_lemma polyad (m : molecule F) (freql f3l f4l : list F) (irreps : list I) lxm lx :
    m_rotor m = SphericalTop \/ m_rotor m = NoRotor \/ m_natom m = 0 \/
    m_rotor m = AsymmTop /\ (nth 7 (m_header m) 4 <= 2)%Z \/
    m_rotor m = AsymmTop /\ length freql < m_nvib m ->
    finish eig2 polyad m freql f3l f4l irreps lxm lx = None.
  Proof.
    intros Hs. destruct (finish eig2 polyad m freql f3l f4l irreps lxm lx) as [o|] eqn:E; [|reflexivity].
    exfalso. unfold finish in E. cbv zeta in E.
    destruct (quartic_new _ _ _ _ _ _) as [q|] eqn:Eq; [|discriminate]. cbn [obind] in E.
    destruct Hs as [Hs|[Hs|Hs]].
    { rewrite Hs in Eq. discriminate. }
    { rewrite Hs in Eq. discriminate. }
    destruct (restst_new _ _ _ _ _) as [rs|] eqn:Er; [|discriminate]. cbn [obind] in E.
    destruct (is_sym_top _) as [sym|] eqn:Est; [|discriminate]. cbn [obind] in E.
    match type of E with obind ?a _ = _ => destruct a as [[[x g] e0]|]; [|discriminate] end. cbn [obind] in E.
    match type of E with obind ?a _ = _ => destruct a as [en1|]; [|discriminate] end. cbn [obind] in E.
    match type of E with obind ?a _ = _ => destruct a as [en2|]; [|discriminate] end. cbn [obind] in E.
    match type of E with obind ?a _ = _ => destruct a as [en3|]; [|discriminate] end. cbn [obind] in E.
    match type of E with obind ?a _ = _ => destruct a as [en4|]; [|discriminate] end. cbn [obind] in E.
    match type of E with obind ?a _ = _ => destruct a as [li|] eqn:El; [|discriminate] end. cbn [obind] in E.
    match type of E with obind ?a _ = _ => destruct a as [rows|] eqn:Ea; [|discriminate] end. cbn [obind] in E.
    match type of E with obind ?a _ = _ => destruct a as [rts|] eqn:Ero; [|discriminate] end. cbn [obind] in E.
    destruct Hs as [Hs|[[Hs Hd]|[Hs Hd]]].
    - match type of E with obind ?a _ = _ => destruct a as [sx|]; [|discriminate] end. cbn [obind] in E.
      match type of E with obind ?a _ = _ => destruct a as [zz|]; [|discriminate] end. cbn [obind] in E.
      rewrite Hs in E. discriminate.
    - rewrite Hs in Est, Ea, Ero. cbn in Est. injection Est as <-. cbn [orb is_diatomic] in Ea, Ero.
      rewrite rota_short_lemma in Ero; [discriminate| |exact Hd].
      intros ->. unfold alphaa in Ea. rewrite range_0, Nat.add_1_r in Ea.
      cbn [seq ofold] in Ea.
      match type of Ea with match ?a with _ => _ end = _ => destruct a as [r1|] eqn:E1; [|discriminate] end.
      assert (G : forall (f : list (F * F * F) -> nat -> option (list (F * F * F))) l s s',
        (forall a i a', f a i = Some a' -> length a < length a') -> ofold f l s = Some s' -> length s <= length s').
      { clear. intros f l. induction l as [|i l IH]; intros s s' Hf E; cbn [ofold] in E.
        - injection E as <-. lia.
        - destruct (f s i) as [s1|] eqn:E1; [|discriminate]. apply Hf in E1. apply IH in E; [lia|exact Hf]. }
      assert (Q : forall a i a', (let* s := nth_error (t_states (rs_tables rs)) i in
          let* s0 := alphaa_sum (rs_modes rs) (fun i0 => alpha (m_nvib m) (m_rotcon m) (m_primat m)
             (fun i => nth i freql (nz 0)) (wila (m_natom m) (m_geom m) (m_w m) lxm) (zmat (m_natom m) lxm)
             (fun i j k => nth (find3 i j k) f3l (nz 0)) (rs_coriolis rs) i0 0) s in
          let* s1 := alphaa_sum (rs_modes rs) (fun i0 => alpha (m_nvib m) (m_rotcon m) (m_primat m)
             (fun i => nth i freql (nz 0)) (wila (m_natom m) (m_geom m) (m_w m) lxm) (zmat (m_natom m) lxm)
             (fun i j k => nth (find3 i j k) f3l (nz 0)) (rs_coriolis rs) i0 1) s in
          let* s2 := alphaa_sum (rs_modes rs) (fun i0 => alpha (m_nvib m) (m_rotcon m) (m_primat m)
             (fun i => nth i freql (nz 0)) (wila (m_natom m) (m_geom m) (m_w m) lxm) (zmat (m_natom m) lxm)
             (fun i j k => nth (find3 i j k) f3l (nz 0)) (rs_coriolis rs) i0 2) s in
          Some (a ++ [(nadd (m_rotcon m 0) s0, nadd (m_rotcon m 1) s1, nadd (m_rotcon m 2) s2)])) = Some a' ->
          length a < length a').
      { intros a i a' Q. destruct (nth_error _ i) as [s|]; [|discriminate]. cbn [obind] in Q.
        do 3 (destruct (alphaa_sum _ _ _); [|discriminate]; cbn [obind] in Q).
        injection Q as <-. rewrite app_length. cbn. lia. }
      pose proof (Q _ _ _ E1) as L1. apply (G _ _ _ _ Q) in Ea. cbn in *. lia.
    - rewrite Hs in Est. cbn in Est. injection Est as <-.
      unfold finish_lists, reported_harms in El.
      destruct (Nat.ltb_spec (length freql) (m_nvib m)); [|lia]. discriminate.
  Qed.

  (** ** the polyads change nothing *)
  Lemma polyad_ignored_lemma (m : molecule F) (freql f3l f4l : list F) (irreps : list I) lxm lx o :
    finish eig2 true m freql f3l f4l irreps lxm lx = Some o ->
    finish eig2 false m freql f3l f4l irreps lxm lx = Some o.
  Proof.
    unfold finish. cbv zeta. intros E.
    destruct (quartic_new _ _ _ _ _ _) as [q|]; [|discriminate]. cbn [obind] in *.
    destruct (restst_new _ _ _ _ _) as [rs|]; [|discriminate]. cbn [obind] in *.
    destruct (is_sym_top _) as [sym|]; [|discriminate]. cbn [obind] in *.
    match type of E with obind ?a _ = _ => destruct a as [[[x g] e0]|]; [|discriminate] end. cbn [obind] in *.
    set (st := t_states (rs_tables rs)) in *.
    assert (P : forall eng lev freq, length eng = length st ->
      part1 freq (rs_modes rs) x g e0 st = Some lev ->
      ofold (fun eng ist => let* v := nth_error lev ist in set_nth eng ist v) (range 0 (length st)) eng = Some lev).
    { intros eng lev freq Le El.
      assert (Ll : length lev = length st).
      { assert (G : forall l acc lev, ofold (fun eng s =>
          let* x0 := level freq (rs_modes rs) x g e0 (fun ii => nth ii (state_i1 s) 0) (fun ii => nth ii (state_i2 s) (0, 0)) in
          Some (eng ++ [x0])) l acc = Some lev -> length lev = length acc + length l).
        { clear. induction l as [|s l IH]; intros acc lev E; cbn [ofold] in E.
          - injection E as <-. cbn. lia.
          - destruct (level _ _ _ _ _ _ _); [|discriminate]. cbn [obind] in E.
            apply IH in E. rewrite app_length in E. cbn [length] in *. lia. }
        apply G in El. cbn in El. exact El. }
      rewrite <- Ll. apply overwrite. congruence. }
    cbn [andb] in *.
    destruct (negb sym) eqn:Es.
    - match type of E with obind ?a _ = _ => destruct a as [en|] eqn:Een; [|discriminate] end. cbn [obind] in *.
      destruct (resona _ _ _ _ _ _ _ _ _ _) as [rm|]; [|discriminate]. cbn [obind] in Een.
      apply ofold_set_length in Een. rewrite repeat_length in Een.
      destruct (part1 _ _ _ _ _ _) as [lev|] eqn:El; [|discriminate]. cbn [obind] in *.
      rewrite (P en lev _ Een El) in E.
      rewrite (P _ lev _ (repeat_length _ _) El). exact E.
    - cbn [obind] in E. exact E.
  Qed.

  Lemma polyad_panics_lemma (m : molecule F) (freql f3l f4l : list F) (irreps : list I) lxm lx :
    m_rotor m = AsymmTop -> 12 < m_nvib m ->
    finish eig2 true m freql f3l f4l irreps lxm lx = None.
  Proof.
    intros Hr Hn. destruct (finish eig2 true m freql f3l f4l irreps lxm lx) as [o|] eqn:E; [|reflexivity].
    exfalso. unfold finish in E. cbv zeta in E. rewrite Hr in E.
    destruct (quartic_new _ _ _ _ _ _) as [q|]; [|discriminate]. cbn [obind] in *.
    destruct (restst_new _ _ _ _ _) as [rs|] eqn:Er; [|discriminate]. cbn [obind is_sym_top andb negb] in *.
    assert (Em : rs_modes rs = singles (m_nvib m)).
    { unfold restst_new in Er. rewrite deg_modes_asym_lemma in Er by auto. cbn [obind] in Er.
      do 4 (match type of Er with obind ?a _ = _ => destruct a; [|discriminate] end; cbn [obind] in Er).
      match type of Er with obind ?a _ = _ => destruct a; [|discriminate] end. cbn [obind] in Er.
      injection Er as <-. reflexivity. }
    unfold resona in E. rewrite Em, i1mode_singles, seq_length in E.
    destruct (Nat.ltb_spec 12 (m_nvib m)); [|lia]. discriminate.
  Qed.
End Run.
