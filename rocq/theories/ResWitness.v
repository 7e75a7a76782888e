(** Symmetric-top type-2 search, and concrete double-precision witnesses. *)
From Coq Require Import Reals Lra List ZArith Arith Lia Bool Permutation.
From Coq Require Import ZifyBool ZifyNat.
From Verif Require Import Num Loops Index Modes ListFacts ModesFacts ResFacts.
Import ListNotations.

Section Sym.
  Context {F : Type} `{Num F}.

  Lemma oapp_in {B} (x y : option (list B)) ret z :
    oapp x y = Some ret ->
    exists a b, x = Some a /\ y = Some b /\ (In z ret <-> In z a \/ In z b).
  Proof.
    destruct x as [a|], y as [b|]; cbn; try discriminate. intros He. injection He as <-.
    exists a, b. rewrite in_app_iff. tauto.
  Qed.

  Definition hit (freq : nat -> F) f3 i j k : Prop :=
    ferm2_test freq f3 i j k = Some [(i, j, k)].

  Lemma ferm2_test_in freq f3 i j k r x :
    ferm2_test (F:=F) freq f3 i j k = Some r ->
    (In x r <-> x = (i, j, k) /\ hit freq f3 i j k).
  Proof.
    unfold hit. intros E. rewrite E. unfold ferm2_test in E.
    destruct (aminjm _ _ _); [|discriminate]. cbn [obind] in E.
    destruct (_ && _) in E; injection E as <-; cbn; split.
    - intros [<-|[]]. auto.
    - intros [-> _]. auto.
    - intros [].
    - intros [_ He]. discriminate.
  Qed.

  (** the last loop's own test *)
  Definition hit' (freq : nat -> F) f3 i j k : Prop :=
    ferm2_test' freq f3 i j k = [(i, j, k)].
  Lemma ferm2_test'_in freq f3 i j k x :
    In x (ferm2_test' (F:=F) freq f3 i j k) <-> x = (i, j, k) /\ hit' freq f3 i j k.
  Proof.
    unfold hit', ferm2_test'. destruct (_ && _); cbn; split.
    - intros [<-|[]]. auto.
    - intros [-> _]. auto.
    - intros [].
    - intros [_ He]. discriminate.
  Qed.

  Lemma fermi2_sym_lemma r modes (freq : nat -> F) f3 ret :
    r = OblateSymmTop \/ r = ProlateSymmTop \/ r = Linear ->
    fermi2 r modes freq f3 = Some ret ->
    let a p := nth_error (i1mode modes) p in
    let e p := option_map fst (nth_error (i2mode modes) p) in
    forall i j k, In (i, j, k) ret <->
      (hit freq f3 i j k /\
       ((exists p q s, q < p /\ a p = Some i /\ a q = Some j /\ a s = Some k) \/
        (exists p q s, 0 < p /\ a p = Some i /\ e q = Some j /\ e s = Some k) \/
        (exists p q s, 0 < p /\ q < length (i2mode modes) - 1 /\
            e p = Some i /\ e q = Some j /\ (a s = Some k \/ e s = Some k)))) \/
      (hit' freq f3 i j k /\
       exists p q s, q < p /\ e p = Some i /\ e q = Some j /\ (a s = Some k \/ e s = Some k)).
  Proof.
    intros Hr Hret a e.
    assert (A1 : forall p, p < n1dm modes -> a p = Some (m1 modes p)).
    { intros p Hp. unfold a, m1. apply nth_error_nth'. now rewrite <- n1dm_eq. }
    assert (A2 : forall p, p < n2dm modes -> e p = Some (fst (m2 modes p))).
    { intros p Hp. unfold e, m2. rewrite (nth_error_nth' _ (0, 0)); [reflexivity|].
      now rewrite <- n2dm_eq. }
    assert (B1 : forall p x, a p = Some x -> p < n1dm modes /\ m1 modes p = x).
    { intros p x Hp. assert (p < n1dm modes) as Hl
        by (rewrite n1dm_eq; apply nth_error_Some; unfold a in Hp; congruence).
      split; [exact Hl|]. rewrite A1 in Hp by exact Hl. congruence. }
    assert (B2 : forall p x, e p = Some x -> p < n2dm modes /\ fst (m2 modes p) = x).
    { intros p x Hp. assert (p < n2dm modes) as Hl.
      { rewrite n2dm_eq. apply nth_error_Some. unfold e in Hp.
        destruct (nth_error (i2mode modes) p); [congruence|discriminate]. }
      split; [exact Hl|]. rewrite A2 in Hp by exact Hl. congruence. }
    assert (E : fermi2 r modes freq f3 = fermi2 OblateSymmTop modes freq f3)
      by (destruct Hr as [->|[->| ->]]; reflexivity).
    rewrite E in Hret. clear E Hr. cbn [fermi2] in Hret. rewrite <- n2dm_eq.
    intros i j k.
    destruct (oapp_in _ _ _ (i, j, k) Hret) as (r1 & r23 & E1 & E23 & ->).
    destruct (oapp_in _ _ _ (i, j, k) E23) as (r2 & r3 & E2 & E3 & ->).
    injection E3 as <-.
    (* first block *)
    assert (I1' : In (i, j, k) r1 <-> hit freq f3 i j k /\
       ((exists p q s, q < p /\ a p = Some i /\ a q = Some j /\ a s = Some k) \/
        (exists p q s, 0 < p /\ a p = Some i /\ e q = Some j /\ e s = Some k))).
    { rewrite (ocollect_in _ _ _ _ E1). split.
      - intros (p & rp & Hp & Erp & Hin). apply in_range in Hp.
        destruct (oapp_in _ _ _ (i, j, k) Erp) as (u & v & Eu & Ev & Huv).
        rewrite Huv in Hin. destruct Hin as [Hin|Hin].
        + apply (ocollect_in _ _ _ _ Eu) in Hin as (q & rq & Hq & Erq & Hin).
          apply (ocollect_in _ _ _ _ Erq) in Hin as (s & rs & Hs & Ers & Hin).
          apply in_range in Hq, Hs. apply (ferm2_test_in _ _ _ _ _ _ _ Ers) in Hin as [He Hh].
          injection He as -> -> ->. split; [exact Hh|]. left. exists p, q, s.
          rewrite !A1 by lia. repeat split; lia.
        + apply (ocollect_in _ _ _ _ Ev) in Hin as (q & rq & Hq & Erq & Hin).
          apply (ocollect_in _ _ _ _ Erq) in Hin as (s & rs & Hs & Ers & Hin).
          apply in_range in Hq, Hs. apply (ferm2_test_in _ _ _ _ _ _ _ Ers) in Hin as [He Hh].
          injection He as -> -> ->. split; [exact Hh|]. right. exists p, q, s.
          rewrite A1, !A2 by lia. repeat split; lia.
      - intros [Hh [(p & q & s & Hl & Ha & Hb & Hc)|(p & q & s & Hl & Ha & Hb & Hc)]].
        + apply B1 in Ha as [Hp <-], Hb as [Hq <-], Hc as [Hs <-].
          destruct (ocollect_each _ _ _ E1 p) as (rp & Erp); [apply in_range; lia|].
          exists p, rp. split; [apply in_range; lia|]. split; [exact Erp|].
          destruct (oapp_in _ _ _ (m1 modes p, m1 modes q, m1 modes s) Erp)
            as (u & v & Eu & Ev & Huv).
          apply Huv. left. apply (ocollect_in _ _ _ _ Eu).
          destruct (ocollect_each _ _ _ Eu q) as (rq & Erq); [apply in_range; lia|].
          exists q, rq. split; [apply in_range; lia|]. split; [exact Erq|].
          apply (ocollect_in _ _ _ _ Erq). exists s. eexists.
          split; [apply in_range; lia|]. split; [exact Hh|now left].
        + apply B1 in Ha as [Hp <-]. apply B2 in Hb as [Hq <-], Hc as [Hs <-].
          destruct (ocollect_each _ _ _ E1 p) as (rp & Erp); [apply in_range; lia|].
          exists p, rp. split; [apply in_range; lia|]. split; [exact Erp|].
          destruct (oapp_in _ _ _ (m1 modes p, fst (m2 modes q), fst (m2 modes s)) Erp)
            as (u & v & Eu & Ev & Huv).
          apply Huv. right. apply (ocollect_in _ _ _ _ Ev).
          destruct (ocollect_each _ _ _ Ev q) as (rq & Erq); [apply in_range; lia|].
          exists q, rq. split; [apply in_range; lia|]. split; [exact Erq|].
          apply (ocollect_in _ _ _ _ Erq). exists s. eexists.
          split; [apply in_range; lia|]. split; [exact Hh|now left]. }
    assert (I2' : In (i, j, k) r2 <-> hit freq f3 i j k /\
        exists p q s, 0 < p /\ q < n2dm modes - 1 /\
            e p = Some i /\ e q = Some j /\ (a s = Some k \/ e s = Some k)).
    { rewrite (ocollect_in _ _ _ _ E2). split.
      - intros (p & rp & Hp & Erp & Hin). apply in_range in Hp.
        apply (ocollect_in _ _ _ _ Erp) in Hin as (q & rq & Hq & Erq & Hin).
        apply in_range in Hq.
        destruct (oapp_in _ _ _ (i, j, k) Erq) as (u & v & Eu & Ev & Huv).
        rewrite Huv in Hin. destruct Hin as [Hin|Hin].
        + apply (ocollect_in _ _ _ _ Eu) in Hin as (s & rs & Hs & Ers & Hin).
          apply in_range in Hs. apply (ferm2_test_in _ _ _ _ _ _ _ Ers) in Hin as [He Hh].
          injection He as -> -> ->. split; [exact Hh|]. exists p, q, s.
          rewrite !A2, A1 by lia. repeat split; auto; lia.
        + apply (ocollect_in _ _ _ _ Ev) in Hin as (s & rs & Hs & Ers & Hin).
          apply in_range in Hs. apply (ferm2_test_in _ _ _ _ _ _ _ Ers) in Hin as [He Hh].
          injection He as -> -> ->. split; [exact Hh|]. exists p, q, s.
          rewrite !A2 by lia. repeat split; auto; lia.
      - intros [Hh (p & q & s & Hl & Hql & Ha & Hb & Hc)].
        apply B2 in Ha as [Hp <-], Hb as [Hq <-].
        destruct (ocollect_each _ _ _ E2 p) as (rp & Erp); [apply in_range; lia|].
        exists p, rp. split; [apply in_range; lia|]. split; [exact Erp|].
        apply (ocollect_in _ _ _ _ Erp).
        destruct (ocollect_each _ _ _ Erp q) as (rq & Erq); [apply in_range; lia|].
        exists q, rq. split; [apply in_range; lia|]. split; [exact Erq|].
        destruct (oapp_in _ _ _ (fst (m2 modes p), fst (m2 modes q), k) Erq)
          as (u & v & Eu & Ev & Huv).
        apply Huv. destruct Hc as [Hc|Hc].
        + apply B1 in Hc as [Hs <-]. left. apply (ocollect_in _ _ _ _ Eu).
          exists s. eexists. split; [apply in_range; lia|]. split; [exact Hh|now left].
        + apply B2 in Hc as [Hs <-]. right. apply (ocollect_in _ _ _ _ Ev).
          exists s. eexists. split; [apply in_range; lia|]. split; [exact Hh|now left]. }
    match goal with |- context [In (i, j, k) ?r1 \/ In (i, j, k) ?r2 \/ In (i, j, k) ?r3] =>
      assert (I3' : In (i, j, k) r3 <-> hit' freq f3 i j k /\
       exists p q s, q < p /\ e p = Some i /\ e q = Some j /\
         (a s = Some k \/ e s = Some k)) end.
    { rewrite in_collect_range. split.
      - intros (p & Hp & Hin). apply in_collect_range in Hin as (q & Hq & Hin).
        apply in_app_iff in Hin as [Hin|Hin];
          apply in_collect_range in Hin as (s & Hs & Hin);
          apply ferm2_test'_in in Hin as [He Hh]; injection He as -> -> ->;
          (split; [exact Hh|]); exists p, q, s.
        + rewrite !A2, A1 by lia. repeat split; auto; lia.
        + rewrite !A2 by lia. repeat split; auto; lia.
      - intros [Hh (p & q & s & Hl & Ha & Hb & Hc)].
        apply B2 in Ha as [Hp <-], Hb as [Hq <-].
        exists p. split; [lia|]. apply in_collect_range. exists q. split; [lia|].
        apply in_app_iff. destruct Hc as [Hc|Hc].
        + apply B1 in Hc as [Hs <-]. left. apply in_collect_range. exists s.
          split; [lia|]. apply ferm2_test'_in. auto.
        + apply B2 in Hc as [Hs <-]. right. apply in_collect_range. exists s.
          split; [lia|]. apply ferm2_test'_in. auto. }
    rewrite I1', I2', I3'. tauto.
  Qed.
End Sym.

(** ** concrete frequencies in double precision *)
Definition dfreq (l : list (Z * Z)) (i : nat) : f64 :=
  match nth_error l i with Some (n, d) => nlit n (Z.to_pos d) | None => nz 0 end.

(** three modes, neighbours closer than 0.1, the outer two not *)
Lemma deg_modes_chain_witness :
  deg_modes OblateSymmTop 3 (dfreq [(1000, 1); (100006, 100); (100012, 100)]%Z)
  = Some [I2 0 1; I2 1 2].
Proof. vm_compute. reflexivity. Qed.

(** four equal frequencies *)
Lemma deg_modes_four_witness :
  deg_modes OblateSymmTop 4 (dfreq [(1000, 1); (1000, 1); (1000, 1); (1000, 1)]%Z)
  = Some [I3 0 1 2; I3 0 1 3; I3 0 2 3; I3 1 2 3].
Proof. vm_compute. reflexivity. Qed.

Lemma deg_modes_overlap_refuted_lemma :
  (exists nvib (freq : nat -> f64) modes i m m',
     deg_modes OblateSymmTop nvib freq = Some modes /\
     In m modes /\ In m' modes /\ m <> m' /\ In i (members m) /\ In i (members m')) /\
  (exists nvib (freq : nat -> f64) modes i m m',
     deg_modes OblateSymmTop nvib freq = Some modes /\
     (forall a b, a < nvib -> b < nvib -> freq a = freq b) /\
     In m modes /\ In m' modes /\ m <> m' /\ In i (members m) /\ In i (members m')).
Proof.
  split.
  - exists 3, (dfreq [(1000, 1); (100006, 100); (100012, 100)]%Z), [I2 0 1; I2 1 2],
      1, (I2 0 1), (I2 1 2).
    split; [exact deg_modes_chain_witness|]. cbn. repeat split; auto. discriminate.
  - exists 4, (dfreq [(1000, 1); (1000, 1); (1000, 1); (1000, 1)]%Z),
      [I3 0 1 2; I3 0 1 3; I3 0 2 3; I3 1 2 3], 0, (I3 0 1 2), (I3 0 1 3).
    split; [exact deg_modes_four_witness|]. split.
    + intros a b Ha Hb. destruct a as [|[|[|[|a]]]]; try lia;
        destruct b as [|[|[|[|b]]]]; try lia; reflexivity.
    + cbn. repeat split; auto. discriminate.
Qed.

Lemma darling_sym_missed_lemma :
  exists nvib (freq : nat -> f64) modes ret,
    deg_modes OblateSymmTop nvib freq = Some modes /\
    In (I1 0) modes /\ In (I2 1 2) modes /\
    nleb (nabs (nsub (nmul (nz 2) (freq 0)) (nmul (nz 2) (freq 1)))) (nz 300) = true /\
    darling OblateSymmTop modes freq = Some ret /\ ret = [].
Proof.
  exists 3, (dfreq [(600, 1); (550, 1); (550, 1)]%Z), [I2 1 2; I1 0], [].
  split; [vm_compute; reflexivity|]. cbn [In]. split; [auto|]. split; [auto|].
  split; [vm_compute; reflexivity|]. split; [vm_compute; reflexivity|reflexivity].
Qed.

Definition const3 (x : f64) : nat -> nat -> nat -> f64 := fun _ _ _ => x.

Lemma fermi2_sym_missed_lemma :
  exists nvib (freq : nat -> f64) f3 modes,
    deg_modes OblateSymmTop nvib freq = Some modes /\
    In (I1 0) modes /\ In (I1 1) modes /\ In (I2 2 3) modes /\
    (forall i j k, nleb (nz 10) (nabs (f3 i j k)) = true) /\
    neqb (freq 0) (nadd (freq 1) (freq 2)) = true /\
    fermi2 OblateSymmTop modes freq f3 = Some [].
Proof.
  exists 4, (dfreq [(1500, 1); (900, 1); (600, 1); (600, 1)]%Z), (const3 (nz 20)),
    [I2 2 3; I1 0; I1 1].
  split; [vm_compute; reflexivity|]. cbn [In].
  do 3 (split; [auto|]).
  split; [intros; vm_compute; reflexivity|]. split; [vm_compute; reflexivity|].
  vm_compute. reflexivity.
Qed.

Lemma fermi1_self_lemma :
  exists nvib (freq : nat -> f64) f3 modes ret i,
    deg_modes AsymmTop nvib freq = Some modes /\
    fermi1 AsymmTop modes freq f3 = Some ret /\ In (i, i) ret.
Proof.
  exists 1, (dfreq [(150, 1)]%Z), (const3 (nz 20)), [I1 0], [(0, 0)], 0.
  split; [vm_compute; reflexivity|]. split; [vm_compute; reflexivity|]. now left.
Qed.

Lemma fermi2_sym_self_lemma :
  exists nvib (freq : nat -> f64) f3 modes ret i k,
    deg_modes OblateSymmTop nvib freq = Some modes /\
    fermi2 OblateSymmTop modes freq f3 = Some ret /\ In (i, i, k) ret.
Proof.
  exists 7, (dfreq [(1200, 1); (3000, 1); (3000, 1); (600, 1); (600, 1); (2000, 1); (2000, 1)]%Z),
    (const3 (nz 20)).
  do 2 eexists. exists 3, 0.
  split; [vm_compute; reflexivity|].
  split; [vm_compute; reflexivity|]. cbn. tauto.
Qed.

(** ** symmetric tops over the reals *)
Local Open Scope R_scope.

Definition spec_fermi2_any (freq : nat -> R) (f3 : nat -> nat -> nat -> R) (i j k : nat) : Prop :=
  10 <= Rabs (f3 i j k) /\
  (Rabs ((freq i - freq j - freq k) * (- freq i + freq j - freq k)
         * (- freq i - freq j + freq k) * (freq i + freq j + freq k)) <= 1000 \/
   Rabs (freq i - freq j - freq k) <= 200 \/
   Rabs (- freq i + freq j - freq k) <= 200 \/
   Rabs (- freq i - freq j + freq k) <= 200).

Lemma hit'_R freq f3 i j k : hit' freq f3 i j k <-> spec_fermi2_any freq f3 i j k.
Proof.
  unfold hit', spec_fermi2_any, ferm2_test', ngeb, F3TOL, DLTOL, DFTOL. rewrite !nz_R.
  cbn [nsub nadd nopp nmul nabs nleb Rnum].
  rewrite <- !Rleb_true.
  destruct (Rleb 10 (Rabs (f3 i j k))); cbn [andb]; [|split; [discriminate|intros [? _]; discriminate]].
  rewrite <- !orb_true_iff, !orb_assoc.
  destruct (_ || _ || _ || _)%bool; split; auto; try discriminate.
  intros [_ ?]; discriminate.
Qed.

Lemma hit_R freq f3 i j k :
  0 <= freq i -> 0 <= freq j -> 0 <= freq k ->
  (hit freq f3 i j k <-> spec_fermi2_any freq f3 i j k).
Proof.
  intros Hi Hj Hk. rewrite <- hit'_R. unfold hit, hit', ferm2_test, ferm2_test'.
  cbn [nsub nadd nopp nmul nabs nleb Rnum].
  destruct (aminjm_least_abs_lemma (freq i) (freq j) (freq k) Hi Hj Hk)
    as (d & -> & Hd & A1 & A2 & A3). cbn [obind].
  match goal with |- context [Rleb (Rabs (?a * ?b * ?c * ?e)) DLTOL] =>
    set (x := Rleb (Rabs (a * b * c * e)) DLTOL);
    assert (Rleb (Rabs d) DFTOL =
      (Rleb (Rabs a) DFTOL || Rleb (Rabs b) DFTOL || Rleb (Rabs c) DFTOL)%bool) as He
  end.
  { apply Bool.eq_iff_eq_true. rewrite !orb_true_iff, !Rleb_true.
    unfold DFTOL. rewrite nz_R. split.
    - intros Hle. destruct Hd as [Hd|[Hd|Hd]]; rewrite Hd in Hle; auto.
    - intros [[?|?]|?]; lra. }
  rewrite He, !orb_assoc.
  destruct (_ && _)%bool; split; intros; congruence.
Qed.

Lemma aminjm_total_R freq f3 i j k : exists r, ferm2_test (F:=R) freq f3 i j k = Some r.
Proof. unfold ferm2_test. rewrite aminjm_R. cbn [obind]. eauto. Qed.

Lemma ocollect_total {A B} (l : list A) (f : A -> option (list B)) :
  (forall x, exists r, f x = Some r) -> exists r, ocollect l f = Some r.
Proof.
  intros Hf. induction l as [|a l [r IH]]; cbn; [eauto|].
  destruct (Hf a) as (x & ->). cbn. rewrite IH. cbn. eauto.
Qed.
Lemma oapp_total {B} (x y : option (list B)) :
  (exists r, x = Some r) -> (exists r, y = Some r) -> exists r, oapp x y = Some r.
Proof. intros [a ->] [b ->]. cbn. eauto. Qed.

Lemma fermi2_total_R r modes (freq : nat -> R) f3 :
  r <> SphericalTop -> r <> NoRotor -> exists ret, fermi2 r modes freq f3 = Some ret.
Proof.
  intros H1 H2. destruct r; try contradiction; cbn [fermi2]; eauto;
  repeat (first [apply oapp_total | apply ocollect_total; intros
                | apply aminjm_total_R | (eexists; reflexivity)]).
Qed.

Lemma fermi2_sym_R_lemma r modes (freq : nat -> R) f3 :
  r = OblateSymmTop \/ r = ProlateSymmTop \/ r = Linear ->
  (forall i, 0 <= freq i) ->
  exists ret, fermi2 r modes freq f3 = Some ret /\
  let a p := nth_error (flat_map get1 modes) p in
  let e p := option_map fst (nth_error (flat_map get2 modes) p) in
  forall i j k, In (i, j, k) ret <->
    spec_fermi2_any freq f3 i j k /\
     ((exists p q s, (q < p)%nat /\ a p = Some i /\ a q = Some j /\ a s = Some k) \/
      (exists p q s, (0 < p)%nat /\ a p = Some i /\ e q = Some j /\ e s = Some k) \/
      (exists p q s, ((0 < p)%nat /\ (q + 1 < length (flat_map get2 modes))%nat \/ (q < p)%nat) /\
          e p = Some i /\ e q = Some j /\ (a s = Some k \/ e s = Some k))).
Proof.
  intros Hr Hf. destruct (fermi2_total_R r modes freq f3) as (ret & E).
  { intros ->. intuition discriminate. } { intros ->. intuition discriminate. }
  exists ret. split; [exact E|]. cbv zeta. intros i j k.
  rewrite (fermi2_sym_lemma r modes freq f3 ret Hr E i j k).
  rewrite hit'_R, hit_R by apply Hf. rewrite i1mode_eq, i2mode_eq.
  set (spec := spec_fermi2_any freq f3 i j k). clearbody spec. split.
  - intros [[Hs [Hh|[Hh|Hh]]]|[Hs Hh]]; (split; [exact Hs|]).
    + left. exact Hh.
    + right; left. exact Hh.
    + right; right. destruct Hh as (p & q & s & A & B & C & D & G).
      exists p, q, s. split; [left; split; [exact A|lia]|auto].
    + right; right. destruct Hh as (p & q & s & A & C & D & G).
      exists p, q, s. auto.
  - intros [Hs [Hh|[Hh|Hh]]].
    + left. auto.
    + left. auto.
    + destruct Hh as (p & q & s & [[A B]|A] & C & D & G).
      * left. split; [exact Hs|]. right; right. exists p, q, s.
        split; [exact A|]. split; [lia|]. auto.
      * right. split; [exact Hs|]. exists p, q, s. auto.
Qed.

(** frequencies for which the largest difference is not the one closest to zero *)
Lemma aminjm_not_least_lemma :
  exists x y z d : f64,
    aminjm (nsub (nsub x y) z) (nsub (nadd (nopp x) y) z) (nadd (nsub (nopp x) y) z) = Some d /\
    nltb (nabs (nsub (nadd (nopp x) y) z)) (nabs d) = true.
Proof.
  exists (nz (-300)), (nz (-200)), (nz 100), (nz 600).
  split; vm_compute; reflexivity.
Qed.
