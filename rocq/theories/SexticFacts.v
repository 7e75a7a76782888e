(** Lemmas about the sextic distortion constants. *)
From Coq Require Import Reals Lra Lia List ZArith Arith Bool Psatz SpecFloat Permutation.
From Verif Require Import Num Loops Index Modes Anharm VibRot Distort.
From Verif Require Import ListFacts ModesFacts ResFacts AnharmFacts EnergyFacts VibRotFacts DistortFacts.
Import ListNotations.
Open Scope nat_scope.

(** invariance under all permutations of three axis indices *)
Definition sym3 {A} (f : nat -> nat -> nat -> A) (a b c : nat) : Prop :=
  f a b c = f b a c /\ f a b c = f a c b /\ f a b c = f c b a.

Lemma scc_sym_lemma (F : Type) (N : Num F) maxcor tau rotcon nvib nfreq freq cc f3 c r a b e :
  maxcor = 2 \/ maxcor = 3 -> a < 3 -> b < 3 -> e < 3 ->
  sym3 (scc maxcor tau rotcon nvib nfreq freq cc f3 c r) a b e.
Proof.
  intros Hm Ha Hb Hc. unfold scc. cbv zeta.
  generalize (scc_diag (F:=F) maxcor tau rotcon nvib nfreq freq cc f3 c r) as dg.
  generalize (scc_pair (F:=F) tau rotcon nvib nfreq freq cc f3 c) as pr.
  generalize (scc_triple (F:=F) tau rotcon nvib nfreq freq cc f3 c) as tr.
  intros tr pr dg. unfold sym3.
  destruct (is_linear r), Hm as [->| ->];
    destruct a as [|[|[|]]]; try lia; destruct b as [|[|[|]]]; try lia;
    destruct e as [|[|[|]]]; try lia; repeat split; reflexivity.
Qed.

(** ** the intermediate tensor *)
Lemma wcol1_acol x y : 1 <= x <= 3 -> 1 <= y <= 3 -> wcol1 x y = acol (x - 1) (y - 1).
Proof.
  intros Hx Hy. destruct x as [|[|[|[|]]]]; try lia; destruct y as [|[|[|[|]]]]; try lia; reflexivity.
Qed.

Section CCFacts.
  Context {F : Type} `{Num F}.
  Variables (nvib maxcor : nat) (freq : nat -> F) (c : nat -> nat -> F)
    (zm : nat -> nat -> nat -> F) (rotcon : nat -> F).

  Definition cc_row (cc : nat -> nat -> nat -> nat -> F) (i : nat) :=
    fold_left (fun cc x =>
          let cc := upd4 cc i (x - 1) (x - 1) (x - 1) (cc_diag nvib freq c zm rotcon i x) in
          fold_left (fun cc y =>
            if Nat.eqb x y then cc else
            let v := cc_pair nvib freq c zm rotcon i x y in
            let cc := upd4 cc i (y - 1) (x - 1) (x - 1) v in
            let cc := upd4 cc i (x - 1) (y - 1) (x - 1) v in
            let cc := upd4 cc i (x - 1) (x - 1) (y - 1) v in
            fold_left (fun cc z =>
              if Nat.eqb x z || Nat.eqb y z then cc else
              upd4 cc i (z - 1) (y - 1) (x - 1) (cc_triple nvib freq c zm rotcon i x y z))
            (range 1 (maxcor + 1)%nat) cc)
          (range 1 (maxcor + 1)%nat) cc)
        (range 1 (maxcor + 1)%nat) cc.

  Lemma fold_left_inv {A B} (P : A -> Prop) (f : A -> B -> A) l : forall a,
    (forall a b, P a -> P (f a b)) -> P a -> P (fold_left f l a).
  Proof. induction l as [|b l IH]; intros a E Pa; cbn; auto. Qed.

  Lemma upd4_other (cc : nat -> nat -> nat -> nat -> F) i a b e v i' a' b' e' : i' <> i ->
    upd4 cc i a b e v i' a' b' e' = cc i' a' b' e'.
  Proof. intros N. unfold upd4. destruct (Nat.eqb_spec i' i); [contradiction|]. reflexivity. Qed.

  Lemma cc_row_other cc i i' a b e : i' <> i -> cc_row cc i i' a b e = cc i' a b e.
  Proof.
    intros N. unfold cc_row.
    apply (fold_left_inv (fun k : nat -> nat -> nat -> nat -> F => k i' a b e = cc i' a b e)); [|reflexivity].
    intros k x E. cbv zeta.
    apply (fold_left_inv (fun k : nat -> nat -> nat -> nat -> F => k i' a b e = cc i' a b e)).
    - intros k' y E'. destruct (x =? y); [exact E'|].
      apply (fold_left_inv (fun k : nat -> nat -> nat -> nat -> F => k i' a b e = cc i' a b e)).
      + intros k'' z E''. destruct (_ || _); [exact E''|]. now rewrite upd4_other.
      + now rewrite !upd4_other.
    - now rewrite upd4_other.
  Qed.

  Lemma cc_tensor_row i a b e : i < nvib ->
    exists cc, cc_tensor nvib maxcor freq c zm rotcon i a b e = cc_row cc i i a b e.
  Proof.
    intros Hi. unfold cc_tensor.
    change (fold_left _ (range 0 nvib) (fun _ _ _ _ : nat => nz 0))
      with (fold_left cc_row (range 0 nvib) (fun _ _ _ _ : nat => nz 0 : F)).
    rewrite range_0. replace nvib with (i + S (nvib - i - 1)) by lia.
    rewrite seq_app, fold_left_app. cbn [seq fold_left].
    set (cc := fold_left cc_row (seq 0 i) _). exists cc.
    assert (G : forall l k, (forall j, In j l -> j <> i) -> fold_left cc_row l k i a b e = k i a b e).
    { induction l as [|j l IH]; intros k E; [reflexivity|]. cbn [fold_left].
      rewrite IH by (intros; apply E; cbn; auto). apply cc_row_other. intros ->. apply (E j); cbn; auto. }
    rewrite G; [reflexivity|]. intros j Hj. apply in_seq in Hj. lia.
  Qed.

  Hypothesis Hm : maxcor = 2 \/ maxcor = 3.

  Lemma cc_pairs_lemma i x y : i < nvib -> x < maxcor -> y < maxcor -> x <> y ->
    cc_tensor nvib maxcor freq c zm rotcon i y x x = cc_pair nvib freq c zm rotcon i (x + 1) (y + 1) /\
    cc_tensor nvib maxcor freq c zm rotcon i x y x = cc_pair nvib freq c zm rotcon i (x + 1) (y + 1) /\
    cc_tensor nvib maxcor freq c zm rotcon i x x y = cc_pair nvib freq c zm rotcon i (x + 1) (y + 1).
  Proof.
    intros Hi Hx Hy N.
    assert (G : forall cc, cc_row cc i i y x x = cc_pair nvib freq c zm rotcon i (x + 1) (y + 1) /\
      cc_row cc i i x y x = cc_pair nvib freq c zm rotcon i (x + 1) (y + 1) /\
      cc_row cc i i x x y = cc_pair nvib freq c zm rotcon i (x + 1) (y + 1)).
    { intros cc. unfold cc_row.
      generalize (cc_diag nvib freq c zm rotcon) as dg. generalize (cc_pair nvib freq c zm rotcon) as pr.
      generalize (cc_triple nvib freq c zm rotcon) as tr. intros tr pr dg.
      destruct Hm as [->| ->]; (destruct x as [|[|[|]]]; try lia; destruct y as [|[|[|]]]; try lia);
        cbn; unfold upd4; rewrite !Nat.eqb_refl; cbn; repeat split; reflexivity. }
    destruct (cc_tensor_row i y x x Hi) as (c1 & ->).
    destruct (cc_tensor_row i x y x Hi) as (c2 & ->).
    destruct (cc_tensor_row i x x y Hi) as (c3 & ->).
    split; [apply (G c1)|]. split; [apply (G c2)|apply (G c3)].
  Qed.

  Lemma cc_diag_lemma i x : i < nvib -> x < maxcor ->
    cc_tensor nvib maxcor freq c zm rotcon i x x x = cc_diag nvib freq c zm rotcon i (x + 1).
  Proof.
    intros Hi Hx. destruct (cc_tensor_row i x x x Hi) as (cc & ->). unfold cc_row.
    generalize (cc_diag nvib freq c zm rotcon) as dg. generalize (cc_pair nvib freq c zm rotcon) as pr.
    generalize (cc_triple nvib freq c zm rotcon) as tr. intros tr pr dg.
    destruct Hm as [->| ->]; (destruct x as [|[|[|]]]; try lia);
      cbn; unfold upd4; rewrite !Nat.eqb_refl; cbn; reflexivity.
  Qed.

  Lemma cc_triple_lemma i x y z : maxcor = 3 -> i < nvib -> x < 3 -> y < 3 -> z < 3 ->
    x <> y -> x <> z -> y <> z ->
    cc_tensor nvib maxcor freq c zm rotcon i z y x = cc_triple nvib freq c zm rotcon i (x + 1) (y + 1) (z + 1).
  Proof.
    intros E Hi Hx Hy Hz N1 N2 N3.
    destruct (cc_tensor_row i z y x Hi) as (cc & ->). unfold cc_row. rewrite E.
    generalize (cc_diag nvib freq c zm rotcon) as dg. generalize (cc_pair nvib freq c zm rotcon) as pr.
    generalize (cc_triple nvib freq c zm rotcon) as tr. intros tr pr dg.
    destruct x as [|[|[|]]]; try lia; destruct y as [|[|[|]]]; try lia; destruct z as [|[|[|]]]; try lia;
      cbn; unfold upd4; rewrite !Nat.eqb_refl; cbn; reflexivity.
  Qed.
End CCFacts.

Lemma wcol1_sym x y : wcol1 x y = wcol1 y x.
Proof. unfold wcol1. now rewrite Nat.max_comm, Nat.min_comm. Qed.

Lemma cc_triple_sym nvib (freq : nat -> R) c zm rotcon i x y z :
  cc_triple nvib freq c zm rotcon i x y z = cc_triple nvib freq c zm rotcon i y x z /\
  cc_triple nvib freq c zm rotcon i x y z = cc_triple nvib freq c zm rotcon i x z y /\
  cc_triple nvib freq c zm rotcon i x y z = cc_triple nvib freq c zm rotcon i z y x.
Proof.
  unfold cc_triple. rewrite !nsum_R.
  rewrite (wcol1_sym z y), (wcol1_sym y x), (wcol1_sym z x).
  repeat split; (f_equal; [|reflexivity] || f_equal); apply Rsum_ext; intros j _;
    cbn [nadd nmul ndiv Rnum]; ring.
Qed.

Lemma cc_sym_lemma nvib maxcor (freq : nat -> R) c zm rotcon i a b e :
  maxcor = 2 \/ maxcor = 3 -> i < nvib -> a < maxcor -> b < maxcor -> e < maxcor ->
  sym3 (cc_tensor nvib maxcor freq c zm rotcon i) a b e.
Proof.
  intros Hm Hi Ha Hb He.
  pose proof (fun x y => cc_pairs_lemma nvib maxcor freq c zm rotcon Hm i x y Hi) as P.
  unfold sym3.
  destruct (Nat.eq_dec a b) as [<-|Nab].
  - destruct (Nat.eq_dec a e) as [<-|Nae]; [auto|].
    destruct (P a e Ha He Nae) as (P1 & P2 & P3). rewrite P1, P2, P3. auto.
  - destruct (Nat.eq_dec a e) as [<-|Nae].
    + destruct (P a b Ha Hb Nab) as (P1 & P2 & P3). rewrite P1, P2, P3. auto.
    + destruct (Nat.eq_dec b e) as [<-|Nbe].
      * destruct (P b a Hb Ha (not_eq_sym Nab)) as (P1 & P2 & P3). rewrite P1, P2, P3. auto.
      * assert (maxcor = 3) as M by lia.
        pose proof (fun x y z => cc_triple_lemma nvib maxcor freq c zm rotcon Hm i x y z M Hi) as T.
        rewrite !T by lia.
        destruct (cc_triple_sym nvib freq c zm rotcon i (e + 1) (b + 1) (a + 1)) as (S1 & S2 & S3).
        auto.
Qed.

(** ** A and S reduced constants of an asymmetric top *)
Open Scope R_scope.
Section Asym6.
  Variables (nvib nfreq : nat) (B I w : nat -> R) (wl : nat -> nat -> R)
    (zm f3 : nat -> nat -> nat -> R).
  (** the sextic tensor as computed, axes 0 = z, 1 = x, 2 = y *)
  Definition phi6 : nat -> nat -> nat -> R :=
    let c := c_mat 3 nvib w I wl in
    scc 3 (make_tau nvib w I wl) B nvib nfreq w (cc_tensor nvib 3 w c zm B) f3 c AsymmTop.

  Lemma make_phi_asym (s : nat -> nat -> nat -> R) : exists p,
    make_phi 3 (2, 0, 1)%nat s = Some p /\
    p 0%nat 0%nat 0%nat = s 1%nat 1%nat 1%nat /\ p 1%nat 1%nat 1%nat = s 2%nat 2%nat 2%nat /\
    p 2%nat 2%nat 2%nat = s 0%nat 0%nat 0%nat /\
    p 0%nat 0%nat 1%nat = s 1%nat 1%nat 2%nat /\ p 1%nat 1%nat 0%nat = s 2%nat 2%nat 1%nat.
  Proof. eexists. split; [reflexivity|]. repeat split; reflexivity. Qed.

  Lemma sextic_asym_lemma :
    B 1%nat <> B 2%nat -> 2 * B 0%nat <> B 1%nat + B 2%nat ->
    B 0%nat - (B 1%nat + B 2%nat) / 2
      + 10 / 64 * (taup_spec nvib w I wl 1 1 + taup_spec nvib w I wl 2 2
                   - 2 * taup_spec nvib w I wl 1 2) <> 0 ->
    exists s, sextic_new AsymmTop nvib nfreq B I w wl zm f3 = Some s /\
      phij s + phijk s + phikj s + phik s = phi6 0 0 0 /\
      hj s + hjk s + hkj s + hk s = phi6 0 0 0 /\
      phij s + 2 * sphij s = phi6 1 1 1 /\
      phij s - 2 * sphij s = phi6 2 2 2 /\
      hj s + 2 * h1 s + 2 * h2 s + 2 * h3 s = phi6 1 1 1 /\
      hj s - 2 * h1 s + 2 * h2 s - 2 * h3 s = phi6 2 2 2.
  Proof.
    intros _ _ _.
    destruct (make_t_asym nvib I w wl) as (t & Et & _).
    destruct (make_phi_asym phi6) as (p & Ep & P0 & P1 & P2 & P3 & P4).
    unfold sextic_new. cbn [is_linear is_diatomic is_sym_top obind princ_cart IPTOC ICTOP nth_error].
    rewrite Et. cbn [obind]. fold phi6. rewrite Ep. cbn [obind].
    unfold sextic_consts.
    destruct (make_tsix t) as [t400 t220 t040 t202 t022 t004].
    unfold make_psix. cbn [negb is_prolate is_asymm_top orb princ_cart IPTOC ICTOP nth_error obind].
    eexists. split; [reflexivity|].
    cbn [phij phijk phikj phik sphij hj hjk hkj hk h1 h2 h3].
    cbn [nadd nsub nmul ndiv nopp Rnum]. rewrite !nz_R. rewrite P0, P1, P2, P3, P4.
    repeat split; unfold Rdiv; lra.
  Qed.
End Asym6.

(** ** the diagonal elements of the sextic tensor *)
Section Diag6.
  Variables (nvib nfreq : nat) (B I w : nat -> R) (wl : nat -> nat -> R)
    (zm f3 : nat -> nat -> nat -> R).

  Definition p32 (x : R) : R := x * sqrt x.
  (** the six columns are the pairs of axes (0,0) (1,0) (1,1) (2,0) (2,1) (2,2) *)
  Definition c_spec (v x y : nat) : R :=
    wl v (acol x y) /
    (2 * I x * I y * p32 ((1722212503791076 / 10000000000000000) ^ 2 * w v)).
  Definition cc_spec (v x : nat) : R :=
    Rsum (seq 0 nvib) (fun u =>
      c_spec u x x * zm u v x * B x * p32 (w u) * (1 / w u ^ 2 + 2 / w v ^ 2)) / sqrt (w v).
  Definition diag_spec (x : nat) : R :=
    let tau y := tau_spec nvib w I wl y x x x in
    3 / 16 * Rsum (seq 0 3) (fun y => tau y ^ 2 / B y)
    - 2 * Rsum (seq 0 nvib) (fun v => w v * cc_spec v x ^ 2)
    + / 6 * Rsum (seq 0 nvib) (fun u => Rsum (seq 0 nvib) (fun v => Rsum (seq 0 nvib) (fun k =>
        f3 u v k * c_spec u x x * c_spec v x x * c_spec k x x)))
    + / 4 * Rsum (filter (fun y => negb (y =? x)%nat && Rltb (/ 10000) (Rabs (B x - B y))) (seq 0 3))
        (fun y => tau y ^ 2 / (B x - B y)).

  Definition c_row (c : nat -> nat -> R) (i : nat) : nat -> nat -> R :=
      let cnst := npow32 (nmul (nmul SQLAM SQLAM) (w i)) in
      fold_left (fun c x => fold_left (fun c y =>
        let z := (ioff (x + 1) + y)%nat in
        let div := nmul (nmul (nmul (nz 2) (I x)) (I y)) cnst in
        upd2 c i z (ndiv (wl i z) div)) (range 0 (x + 1)%nat) c) (range 0 3) c.

  Lemma c_row_other c i i' z : i' <> i -> c_row c i i' z = c i' z.
  Proof.
    intros N. unfold c_row, upd2. cbn. destruct (Nat.eqb_spec i' i); [contradiction|]. reflexivity.
  Qed.

  Lemma c_mat_R i x y : (i < nvib)%nat -> (x < 3)%nat -> (y < 3)%nat ->
    c_mat 3 nvib w I wl i (acol x y) = c_spec i x y.
  Proof.
    intros Hi Hx Hy. unfold c_mat.
    change (fold_left _ (range 0 nvib) (fun _ _ : nat => nz 0))
      with (fold_left c_row (range 0 nvib) (fun _ _ : nat => nz 0 : R)).
    rewrite range_0. replace nvib with (i + S (nvib - i - 1))%nat by lia.
    rewrite seq_app, fold_left_app. cbn [seq fold_left].
    set (c := fold_left c_row (seq 0 i) _).
    assert (G : forall l k z, (forall j, In j l -> j <> i) -> fold_left c_row l k i z = k i z).
    { induction l as [|j l IH]; intros k z E; [reflexivity|]. cbn [fold_left].
      rewrite IH by (intros; apply E; cbn; auto). apply c_row_other. intros ->. apply (E j); cbn; auto. }
    rewrite G by (intros j Hj; apply in_seq in Hj; lia).
    clearbody c. clear G. cbn [Nat.add]. unfold c_row, c_spec, upd2, SQLAM, p32.
    destruct x as [|[|[|]]]; try lia; destruct y as [|[|[|]]]; try lia; cbn [acol];
      cbn [range seq Nat.sub Nat.add fold_left ioff Nat.div Nat.divmod fst snd Nat.mul Nat.pred];
      rewrite !Nat.eqb_refl; cbn [Nat.eqb andb];
      cbn [ndiv nmul npow32 nlit Rnum]; rewrite nz_R; cbn [pow]; rewrite ?Rmult_1_r;
      f_equal; ring.
  Qed.

  Lemma fold3_R (f : nat -> nat -> nat -> R) l :
    fold_left (fun v i => fold_left (fun v j => fold_left (fun v k => v + f i j k) l v) l v) l 0
    = Rsum l (fun i => Rsum l (fun j => Rsum l (fun k => f i j k))).
  Proof.
    rewrite (fold_plus_R _ (fun i => Rsum l (fun j => Rsum l (fun k => f i j k)))); [ring|].
    intros x i _. rewrite (fold_plus_R _ (fun j => Rsum l (fun k => f i j k))); [reflexivity|].
    intros y j _. rewrite (fold_plus_R _ (fun k => f i j k)); [reflexivity|].
    intros; reflexivity.
  Qed.

  Lemma cc_diag_R v x : (v < nvib)%nat -> (x < 3)%nat ->
    cc_tensor nvib 3 w (c_mat 3 nvib w I wl) zm B v x x x = cc_spec v x.
  Proof.
    intros Hv Hx. rewrite cc_diag_lemma by (auto || lia). unfold cc_diag, cc_spec.
    replace (x + 1 - 1)%nat with x by lia.
    assert (wdiag1 (x + 1) = acol x x) as ->.
    { destruct x as [|[|[|]]]; try lia; reflexivity. }
    rewrite nsum_R, range_0. cbn [ndiv nsqrt Rnum]. f_equal. apply Rsum_ext. intros u Hu.
    apply in_seq in Hu. rewrite c_mat_R by lia. unfold cc_val1, nsq.
    cbn [ndiv nmul nadd npow32 Rnum]. rewrite !nz_R. cbn [pow]. rewrite !Rmult_1_r. reflexivity.
  Qed.

  Lemma sextic_diag_lemma x : (x < 3)%nat -> nfreq <> 6%nat ->
    phi6 nvib nfreq B I w wl zm f3 x x x = diag_spec x.
  Proof.
    intros Hx Hn. unfold phi6. cbv zeta.
    set (c := c_mat 3 nvib w I wl). set (tau := make_tau nvib w I wl).
    set (cc := cc_tensor nvib 3 w c zm B).
    assert (scc 3 tau B nvib nfreq w cc f3 c AsymmTop x x x
            = scc_diag 3 tau B nvib nfreq w cc f3 c AsymmTop x) as ->.
    { unfold scc. cbv zeta.
      generalize (scc_diag 3 tau B nvib nfreq w cc f3 c AsymmTop) as dg.
      generalize (scc_pair tau B nvib nfreq w cc f3 c) as pr.
      generalize (scc_triple tau B nvib nfreq w cc f3 c) as tr. intros tr pr dg.
      destruct x as [|[|[|]]]; try lia; reflexivity. }
    unfold scc_diag, diag_spec. cbn [is_linear]. cbv zeta.
    assert (wdiag1 (x + 1) = acol x x) as ->.
    { destruct x as [|[|[|]]]; try lia; reflexivity. }
    assert (SR : forall i, srot B nfreq i = B i).
    { intros i. unfold srot. destruct (Nat.eqb_spec nfreq 6); [contradiction|reflexivity]. }
    rewrite !nsum_R, !range_0, !nz_R. cbn [nadd nsub nmul ndiv Rnum].
    rewrite (fold3_R (fun i j k => f3 i j k * c i (acol x x) * c j (acol x x) * c k (acol x x))).
    rewrite (fold_plus_R _ (fun y => if (y =? x)%nat || negb (Rltb (/ 10000) (Rabs (B x - B y))) then 0
       else tau_spec nvib w I wl y x x x ^ 2 / (B x - B y))).
    2:{ intros v y Hy. apply in_seq in Hy. rewrite !SR. rewrite (Nat.eqb_sym x y).
        destruct (y =? x)%nat; cbn [orb]; [ring|].
        unfold ngtb, STOL. cbn [nltb nabs nlit Rnum nsub].
        replace (1 / 10000) with (/ 10000) by lra.
        destruct (Rltb (/ 10000) (Rabs (B x - B y))); cbn [negb]; [|ring].
        unfold nsq. cbn [nadd ndiv nmul Rnum]. unfold tau. rewrite make_tau_R by lia.
        cbn [pow]. rewrite Rmult_1_r. reflexivity. }
    rewrite Rsum_filter.
    rewrite (filter_ext _ (fun y => negb (y =? x)%nat && Rltb (/ 10000) (Rabs (B x - B y)))).
    2:{ intros y. now rewrite negb_orb, negb_involutive. }
    assert (E1 : Rsum (seq 0 3) (fun y => nsq (tau y x x x) / srot B nfreq y)
      = Rsum (seq 0 3) (fun y => tau_spec nvib w I wl y x x x ^ 2 / B y)).
    { apply Rsum_ext. intros y Hy. apply in_seq in Hy. rewrite SR. unfold tau.
      rewrite make_tau_R by lia. unfold nsq. cbn [nmul Rnum pow]. now rewrite Rmult_1_r. }
    assert (E2 : Rsum (seq 0 nvib) (fun i => w i * nsq (cc i x x x))
      = Rsum (seq 0 nvib) (fun v => w v * cc_spec v x ^ 2)).
    { apply Rsum_ext. intros v Hv. apply in_seq in Hv. unfold cc, c. rewrite cc_diag_R by lia.
      unfold nsq. cbn [nmul Rnum pow]. now rewrite Rmult_1_r. }
    assert (E3 : Rsum (seq 0 nvib) (fun i => Rsum (seq 0 nvib) (fun j => Rsum (seq 0 nvib) (fun k =>
        f3 i j k * c i (acol x x) * c j (acol x x) * c k (acol x x))))
      = Rsum (seq 0 nvib) (fun u => Rsum (seq 0 nvib) (fun v => Rsum (seq 0 nvib) (fun k =>
        f3 u v k * c_spec u x x * c_spec v x x * c_spec k x x)))).
    { apply Rsum_ext. intros u Hu. apply Rsum_ext. intros v Hv. apply Rsum_ext. intros k Hk.
      apply in_seq in Hu, Hv, Hk. unfold c. rewrite !c_mat_R by lia. reflexivity. }
    rewrite E1, E2, E3. change (@nlit R Rnum 1 4) with (1 / 4). lra.
  Qed.
End Diag6.
