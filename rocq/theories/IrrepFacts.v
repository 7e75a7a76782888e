(** Lemmas about the search for symmetry labels. *)
From Coq Require Import Reals Lra Lia List Arith Bool ZArith SpecFloat.
From Verif Require Import Num Loops Geom ListFacts ResFacts.
Import ListNotations.
Open Scope nat_scope.

Section Search.
  Context {F I : Type} `{Num F}.
  Variables (irrep : nat -> F -> option I) (A : I).

  (** the tolerance after [k] failures *)
  Fixpoint raised (eps : F) (k : nat) : F :=
    match k with 0 => eps | S k => nmul (raised eps k) (nz 10) end.
  Lemma raised_S eps k : raised (nmul eps (nz 10)) k = raised eps (S k).
  Proof.
    induction k as [|k IH]; [reflexivity|]. cbn [raised] in *. now rewrite IH.
  Qed.

  (** label [x] of mode [i]: after [k] failures with tolerances below 0.1 a success, or a
      failure with a tolerance of at least 0.1 *)
  Definition found (i : nat) (eps : F) (x : I) : Prop :=
    exists k, (forall j, j < k -> irrep i (raised eps j) = None /\
                                  ngeb (raised eps j) (nlit 1 10) = false) /\
      (irrep i (raised eps k) = Some x \/
       irrep i (raised eps k) = None /\ ngeb (raised eps k) (nlit 1 10) = true /\ x = A).

  Lemma retry_found fuel i eps x :
    retry irrep A fuel i eps (irrep i eps) = Some x -> found i eps x.
  Proof.
    revert eps. induction fuel as [|fuel IH]; intros eps E.
    - destruct (irrep i eps) eqn:Q; cbn in E; [|discriminate].
      exists 0. split; [intros; lia|]. left. cbn. congruence.
    - destruct (irrep i eps) eqn:Q; cbn [retry] in E.
      + exists 0. split; [intros; lia|]. left. cbn. congruence.
      + destruct (ngeb eps (nlit 1 10)) eqn:G.
        * exists 0. split; [intros; lia|]. right. cbn. split; [exact Q|]. split; [exact G|congruence].
        * destruct (IH _ E) as (k & Hk & Hx). exists (S k). split.
          -- intros [|j] Hj; [now split|]. rewrite <- raised_S. apply Hk. lia.
          -- now rewrite <- raised_S.
  Qed.

  Lemma retry_ends fuel i eps k :
    ngeb (raised eps k) (nlit 1 10) = true -> k < fuel ->
    exists x, retry irrep A fuel i eps (irrep i eps) = Some x.
  Proof.
    revert eps k. induction fuel as [|fuel IH]; intros eps k G Hk; [lia|].
    destruct (irrep i eps) eqn:Q; cbn [retry]; [eauto|].
    destruct (ngeb eps (nlit 1 10)) eqn:G'; [eauto|].
    destruct k as [|k]; [cbn in G; congruence|].
    apply (IH _ k); [now rewrite raised_S|lia].
  Qed.

  Lemma irreps_ends fuel cols nvib eps k :
    ngeb (raised eps k) (nlit 1 10) = true -> k < fuel ->
    exists l, compute_irreps_in irrep A fuel cols nvib eps = Some l /\
      length l = Nat.min nvib cols /\
      forall i x, nth_error l i = Some x -> found i eps x.
  Proof.
    intros G Hk. unfold compute_irreps_in. rewrite range_0. generalize (Nat.min nvib cols). intros n.
    induction n as [|n IH].
    - exists []. split; [reflexivity|]. split; [reflexivity|]. intros [|i] x E; discriminate.
    - destruct IH as (l & E & L & Hl). rewrite seq_S, ofold_app, E. cbn [ofold Nat.add].
      destruct (retry_ends fuel n eps k G Hk) as (x & Ex). rewrite Ex. cbn [obind].
      exists (l ++ [x]). split; [reflexivity|]. rewrite app_length. cbn [length].
      split; [lia|]. intros i y Hi. destruct (Nat.lt_ge_cases i n) as [C|C].
      + rewrite nth_error_app1 in Hi by lia. eauto.
      + rewrite nth_error_app2 in Hi by lia. rewrite L in Hi.
        destruct (i - n) as [|m] eqn:D; [|destruct m; discriminate].
        assert (i = n) as -> by lia. injection Hi as <-. eapply retry_found, Ex.
  Qed.

  Lemma retry_never i eps fuel :
    (forall e, irrep i e = None) -> (forall j, ngeb (raised eps j) (nlit 1 10) = false) ->
    retry irrep A fuel i eps None = None.
  Proof.
    intros Hn. revert eps. induction fuel as [|fuel IH]; intros eps G; [reflexivity|].
    cbn [retry]. pose proof (G 0) as G0. cbn in G0. rewrite G0, Hn. apply IH.
    intros j. rewrite raised_S. apply G.
  Qed.

  Lemma irreps_never fuel cols nvib eps :
    (forall e, irrep 0 e = None) -> (forall j, ngeb (raised eps j) (nlit 1 10) = false) ->
    0 < nvib -> 0 < cols -> compute_irreps_in irrep A fuel cols nvib eps = None.
  Proof.
    intros Hn G H1 H2. unfold compute_irreps_in. rewrite range_0.
    destruct (Nat.min nvib cols) as [|n] eqn:E; [lia|]. cbn [seq ofold].
    now rewrite Hn, retry_never by assumption.
  Qed.
End Search.

Open Scope R_scope.
Lemma raised_R (eps : R) k : raised eps k = eps * 10 ^ k.
Proof.
  induction k as [|k IH]; cbn [raised pow]; [lra|].
  rewrite IH, nz_R. cbn [nmul Rnum]. lra.
Qed.
Lemma ngeb_tenth (x : R) : ngeb x (nlit 1 10) = true <-> / 10 <= x.
Proof.
  unfold ngeb. assert (nlit (F := R) 1 10 = / 10) as -> by (cbn; lra).
  cbn [nleb Rnum]. rewrite Rleb_true. reflexivity.
Qed.

(** the same over the reals, in plain words *)
Definition label_of {I} (irrep : nat -> R -> option I) (A : I) (i : nat) (eps : R) (x : I) : Prop :=
  exists k, (forall j, (j < k)%nat -> irrep i (eps * 10 ^ j) = None /\ eps * 10 ^ j < / 10) /\
    (irrep i (eps * 10 ^ k) = Some x \/
     irrep i (eps * 10 ^ k) = None /\ / 10 <= eps * 10 ^ k /\ x = A).

Lemma found_R {I} (irrep : nat -> R -> option I) A i eps x :
  found irrep A i eps x <-> label_of irrep A i eps x.
Proof.
  assert (N : forall y : R, ngeb y (nlit 1 10) = false <-> y < / 10).
  { intros y. pose proof (ngeb_tenth y) as T. destruct (ngeb y (nlit 1 10)).
    - split; [discriminate|]. intros L. assert (/ 10 <= y) by now apply T. lra.
    - split; [|reflexivity]. intros _. destruct (Rle_or_lt (/ 10) y) as [L|L]; [|exact L].
      apply T in L. discriminate. }
  unfold found, label_of. split; intros (k & Hk & Hx); exists k; split.
  - intros j Hj. specialize (Hk j Hj). rewrite raised_R, N in Hk. exact Hk.
  - rewrite raised_R, ngeb_tenth in Hx. exact Hx.
  - intros j Hj. rewrite raised_R, N. auto.
  - rewrite raised_R, ngeb_tenth. exact Hx.
Qed.

Lemma tenth_reached eps : 0 < eps -> exists k, / 10 <= eps * 10 ^ k.
Proof.
  intros He. destruct (Pow_x_infinity 10 ltac:(rewrite Rabs_right; lra) (/ 10 / eps)) as (n & Hn).
  exists n. specialize (Hn n (Nat.le_refl n)).
  assert (0 < 10 ^ n) by (apply pow_lt; lra). rewrite Rabs_right in Hn by lra.
  apply Rge_le in Hn. apply (Rmult_le_compat_l eps) in Hn; [|lra].
  replace (eps * (/ 10 / eps)) with (/ 10) in Hn by (field; lra). exact Hn.
Qed.

Lemma irreps_R_lemma (eps : R) : 0 < eps ->
  exists fuel, forall (I : Type) (irrep : nat -> R -> option I) A cols nvib n, (fuel <= n)%nat ->
  exists l, compute_irreps_in irrep A n cols nvib eps = Some l /\ length l = Nat.min nvib cols /\
    forall i x, nth_error l i = Some x -> label_of irrep A i eps x.
Proof.
  intros He. destruct (tenth_reached eps He) as (k & Hk). exists (S k). intros I irrep A cols nvib n Hn.
  destruct (irreps_ends irrep A n cols nvib eps k) as (l & E & L & Hl);
    [rewrite raised_R; now apply ngeb_tenth|lia|].
  exists l. split; [exact E|]. split; [exact L|]. intros i x Hi. apply found_R. auto.
Qed.

Lemma label_unique {I} (irrep : nat -> R -> option I) A i eps x y :
  label_of irrep A i eps x -> label_of irrep A i eps y -> x = y.
Proof.
  intros (k & Hk & Hx) (m & Hm & Hy). destruct (Nat.lt_trichotomy k m) as [C|[->|C]].
  - destruct (Hm k C). destruct Hx as [Hx|(Hx & Gx & ->)]; [congruence|lra].
  - destruct Hx as [Hx|(Hx & Gx & ->)], Hy as [Hy|(Hy & Gy & ->)]; congruence.
  - destruct (Hk m C). destruct Hy as [Hy|(Hy & Gy & ->)]; [congruence|lra].
Qed.

Definition eps_run : f64 := nlit 1 10000.
Lemma irreps_f64_lemma (I : Type) (irrep : nat -> f64 -> option I) A cols nvib n : (5 <= n)%nat ->
  exists l, compute_irreps_in irrep A n cols nvib eps_run = Some l /\ length l = Nat.min nvib cols /\
    forall i x, nth_error l i = Some x -> found irrep A i eps_run x.
Proof. intros Hn. apply (irreps_ends irrep A n cols nvib eps_run 4); [vm_compute; reflexivity|lia]. Qed.

Lemma irreps_refuted_lemma :
  (forall eps : R, eps <= 0 -> exists irrep : nat -> R -> option unit,
     forall fuel cols nvib, (0 < nvib)%nat -> (0 < cols)%nat ->
       compute_irreps_in irrep tt fuel cols nvib eps = None) /\
  (exists irrep : nat -> f64 -> option unit, forall fuel cols nvib, (0 < nvib)%nat -> (0 < cols)%nat ->
       compute_irreps_in irrep tt fuel cols nvib (nz 0) = None /\
       compute_irreps_in irrep tt fuel cols nvib S754_nan = None).
Proof.
  split.
  - intros eps He. exists (fun _ _ => None). intros fuel cols nvib H1 H2.
    apply irreps_never; [reflexivity| |assumption..].
    intros j. rewrite raised_R. destruct (ngeb (eps * 10 ^ j) (nlit 1 10)) eqn:G; [|reflexivity].
    apply ngeb_tenth in G. assert (0 < 10 ^ j) by (apply pow_lt; lra).
    assert (eps * 10 ^ j <= 0) by (apply (Rmult_le_compat_r (10 ^ j)) in He; lra). lra.
  - exists (fun _ _ => None). intros fuel cols nvib H1 H2.
    split; (apply irreps_never; [reflexivity| |assumption..]); intros j.
    + assert (raised (nz 0 : f64) j = nz 0) as ->; [|vm_compute; reflexivity].
      induction j as [|j IH]; [reflexivity|]. cbn [raised]. rewrite IH.
      vm_compute. reflexivity.
    + assert (raised (S754_nan : f64) j = S754_nan) as ->; [|vm_compute; reflexivity].
      induction j as [|j IH]; [reflexivity|]. cbn [raised]. rewrite IH.
      vm_compute. reflexivity.
Qed.
