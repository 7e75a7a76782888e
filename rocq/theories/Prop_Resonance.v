(** Properties C15-C18, C20-C25, C55, C61: mode classification, resonance searches
    and the list of vibrational states. *)
From Coq Require Import Reals Lra List ZArith Arith Permutation Lia Bool QArith.
From Verif Require Import Num Loops Index Modes ModesFacts StatesFacts ResFacts ResWitness.
Import ListNotations.
Open Scope nat_scope.

(** C15 *)
Theorem asymmetric_modes_in_order : forall (F : Type) (N : Num F) r nvib (freq : nat -> F),
  r = AsymmTop \/ r = Diatomic -> deg_modes r nvib freq = Some (map I1 (seq 0 nvib)).
Proof. exact (@deg_modes_asym_lemma). Qed.
Example asymmetric_modes_in_order_ex :
  deg_modes AsymmTop 3 (dfreq [(1000, 1); (1000, 1); (5, 1)]%Z) = Some [I1 0; I1 1; I1 2].
Proof. apply (asymmetric_modes_in_order f64 F64num). now left. Qed.
Print Assumptions asymmetric_modes_in_order.

(** C16, the part that holds for all frequencies: no mode is lost, and a mode is
    never both single, double and triple *)
Theorem symmetric_modes_covered_partial :
  forall (F : Type) (N : Num F) r nvib (freq : nat -> F),
  is_sym_top r = Some true ->
  exists modes, deg_modes r nvib freq = Some modes /\ NoDup modes /\
    (forall i, i < nvib <-> exists m, In m modes /\ In i (members m)) /\
    (forall i m m', In m modes -> In m' modes -> In i (members m) -> In i (members m') ->
       length (members m) = length (members m')).
Proof. exact (@deg_modes_cover_lemma). Qed.
Print Assumptions symmetric_modes_covered_partial.

(** C16, the exact condition under which the list is a partition: being at one level
    is transitive on the modes and no four modes share a level *)
Theorem symmetric_modes_partition_partial :
  forall (F : Type) (N : Num F) r nvib (freq : nat -> F),
  is_sym_top r = Some true ->
  (forall i j k, i < j -> j < k -> k < nvib ->
     (same_level freq i j -> same_level freq i k -> same_level freq j k) /\
     (same_level freq i j -> same_level freq j k -> same_level freq i k) /\
     (same_level freq i k -> same_level freq j k -> same_level freq i j)) ->
  (forall i j k l, i < j -> j < k -> k < l -> l < nvib ->
     same_level freq i j -> same_level freq i k -> same_level freq i l -> False) ->
  exists modes, deg_modes r nvib freq = Some modes /\
    Permutation (flat_map members modes) (seq 0 nvib).
Proof. exact (@deg_modes_partition_lemma'). Qed.
Example symmetric_modes_partition_ex :
  let freq := dfreq [(3000, 1); (3000, 1); (1500, 1); (1200, 1); (1200, 1); (1200, 1)]%Z in
  (forall i j k, i < j -> j < k -> k < 6 ->
     (same_level freq i j -> same_level freq i k -> same_level freq j k) /\
     (same_level freq i j -> same_level freq j k -> same_level freq i k) /\
     (same_level freq i k -> same_level freq j k -> same_level freq i j)) /\
  (forall i j k l, i < j -> j < k -> k < l -> l < 6 ->
     same_level freq i j -> same_level freq i k -> same_level freq i l -> False) /\
  deg_modes OblateSymmTop 6 freq = Some [I3 3 4 5; I2 0 1; I1 2].
Proof.
  cbv zeta. split; [|split; [|vm_compute; reflexivity]].
  - intros i j k H1 H2 H3. rewrite <- !same_level_test.
    do 6 (destruct i as [|i]; [do 6 (destruct j as [|j]; [do 6 (destruct k as [|k];
      [try lia; vm_compute; repeat split; intros; try reflexivity; discriminate|]); lia|]); lia|]);
    lia.
  - intros i j k l H1 H2 H3 H4. rewrite <- !same_level_test.
    assert (i < 3) as Hi by lia.
    destruct i as [|[|[|i]]]; try lia; intros Hj Hk Hl; clear Hi.
    + assert (k = 2 \/ k = 3 \/ k = 4) as [->|[->| ->]] by lia; vm_compute in Hk; discriminate.
    + assert (k = 3 \/ k = 4) as [->| ->] by lia; vm_compute in Hk; discriminate.
    + assert (k = 4) as -> by lia; vm_compute in Hk; discriminate.
Qed.
Print Assumptions symmetric_modes_partition_partial.

(** C16 is false without these conditions: the first witness has three neighbouring
    levels, the second four equal frequencies *)
Theorem symmetric_modes_partition_refuted :
  (exists nvib (freq : nat -> f64) modes i m m',
     deg_modes OblateSymmTop nvib freq = Some modes /\
     In m modes /\ In m' modes /\ m <> m' /\ In i (members m) /\ In i (members m')) /\
  (exists nvib (freq : nat -> f64) modes i m m',
     deg_modes OblateSymmTop nvib freq = Some modes /\
     (forall a b, a < nvib -> b < nvib -> freq a = freq b) /\
     In m modes /\ In m' modes /\ m <> m' /\ In i (members m) /\ In i (members m')).
Proof. exact deg_modes_overlap_refuted_lemma. Qed.
Print Assumptions symmetric_modes_partition_refuted.

(** C61 *)
Theorem symmetric_modes_content :
  forall (F : Type) (N : Num F) r nvib (freq : nat -> F),
  is_sym_top r = Some true ->
  exists modes, deg_modes r nvib freq = Some modes /\
    (forall i j k, In (I3 i j k) modes <->
       i < j /\ j < k /\ k < nvib /\ same_level freq i j /\ same_level freq i k) /\
    (forall i j, In (I2 i j) modes <->
       i < j /\ j < nvib /\ same_level freq i j /\
       forall x y z, In (I3 x y z) modes -> ~ In i [x; y; z] /\ ~ In j [x; y; z]) /\
    (forall i, In (I1 i) modes <->
       i < nvib /\ (forall x y z, In (I3 x y z) modes -> ~ In i [x; y; z]) /\
       (forall x y, In (I2 x y) modes -> ~ In i [x; y])).
Proof. exact (@deg_modes_content_lemma). Qed.
Example symmetric_modes_content_ex :
  is_sym_top ProlateSymmTop = Some true /\
  deg_modes ProlateSymmTop 4 (dfreq [(900, 1); (500, 1); (50005, 100); (50020, 100)]%Z)
  = Some [I2 1 2; I1 0; I1 3].
Proof. split; [reflexivity|vm_compute; reflexivity]. Qed.
Print Assumptions symmetric_modes_content.

(** C17 *)
Theorem states_of_asymmetric_top : forall n,
  exists t vs, restst_tables n (ioff (n + 1)) (singles n) = Some t /\
    t_states t = map I1st vs /\ NoDup vs /\
    (forall v, In v vs <-> length v = n /\ total v <= 2) /\
    length vs = 1 + n + n + n * (n - 1) / 2 /\
    vs = [repeat 0 n] ++ map (fun i => unit1 n i 1) (seq 0 n)
         ++ map (fun i => unit1 n i 2) (seq 0 n)
         ++ map (fun '(i, j) => unit11 n i j) (pairs_up n).
Proof. exact states_asym_lemma. Qed.
Example states_of_asymmetric_top_ex :
  option_map t_states (restst_tables 2 (ioff 3) (singles 2)) =
  Some [I1st [0; 0]; I1st [1; 0]; I1st [0; 1]; I1st [2; 0]; I1st [0; 2]; I1st [1; 1]].
Proof. reflexivity. Qed.
Print Assumptions states_of_asymmetric_top.

(** C18; [unit1 n p x] is the vector of n zeros with x at place p, [unit11 n p q] has
    ones at p and q, [punit1] and [punit11] the same for pairs (v, l) *)
Theorem state_tables_point_right : forall nvib modes,
  Permutation (flat_map members modes) (seq 0 nvib) ->
  exists t, restst_tables nvib (ioff (nvib + 1)) modes = Some t /\
    let at_ tbl i s := exists p, nth_error tbl i = Some p /\ nth_error (t_states t) p = Some s in
    let a p i := nth_error (flat_map get1 modes) p = Some i in
    let e p i i' := nth_error (flat_map get2 modes) p = Some (i, i') in
    NoDup (t_states t) /\
    length (t_funda t) = nvib /\ length (t_ovrtn t) = nvib /\
    length (t_combn t) = nvib * (nvib + 1) / 2 /\
    (forall p i, a p i ->
       at_ (t_funda t) i (I1st (unit1 nvib p 1)) /\
       at_ (t_ovrtn t) i (I1st (unit1 nvib p 2))) /\
    (forall p i i' x, e p i i' -> x = i \/ x = i' ->
       at_ (t_funda t) x (I2st (punit1 nvib p (1, 1))) /\
       at_ (t_ovrtn t) x (I2st (punit1 nvib p (2, 0)))) /\
    (forall p i i' i'' x, nth_error (flat_map get3 modes) p = Some (i, i', i'') ->
       x = i \/ x = i' \/ x = i'' ->
       at_ (t_funda t) x (I3st (unit1 nvib p 1))) /\
    (forall p q i j, p < q -> a p i -> a q j ->
       at_ (t_combn t) (pair_index i j) (I1st (unit11 nvib p q))) /\
    (forall p q i j j' y, a p i -> e q j j' -> y = j \/ y = j' ->
       at_ (t_combn t) (pair_index i y) (I12st (unit1 nvib p 1) (punit1 nvib q (1, 1)))) /\
    (forall p q i i' j j' x y, p < q -> e p i i' -> e q j j' ->
       x = i \/ x = i' -> y = j \/ y = j' ->
       at_ (t_combn t) (pair_index x y) (I2st (punit11 nvib p q))).
Proof. exact tables_lemma. Qed.
Example state_tables_point_right_ex :
  Permutation (flat_map members [I2 1 2; I1 0; I1 3]) (seq 0 4) /\
  option_map t_funda (restst_tables 4 (ioff 5) [I2 1 2; I1 0; I1 3]) = Some [1; 3; 3; 2] /\
  option_map t_ovrtn (restst_tables 4 (ioff 5) [I2 1 2; I1 0; I1 3]) = Some [4; 6; 6; 5] /\
  option_map t_combn (restst_tables 4 (ioff 5) [I2 1 2; I1 0; I1 3]) =
  Some [0; 8; 0; 8; 0; 0; 7; 9; 9; 0].
Proof.
  split; [|repeat split]. cbn.
  apply NoDup_Permutation; [repeat constructor; cbn; lia..|cbn; lia].
Qed.
Print Assumptions state_tables_point_right.

(** C18: slots of unordered pairs *)
Theorem pair_slots_distinct : forall n i j i' j',
  (i < n /\ j < n <-> pair_index i j < n * (n + 1) / 2) /\
  (pair_index i j = pair_index i' j' -> i = i' /\ j = j' \/ i = j' /\ j = i').
Proof. exact pair_slots_lemma. Qed.
Example pair_slots_distinct_ex : pair_index 1 3 = 7 /\ pair_index 3 1 = 7 /\ pair_index 2 2 = 5.
Proof. repeat split. Qed.
Print Assumptions pair_slots_distinct.

(** C20: in the arithmetic of the program, whatever it is *)
Theorem fermi1_exact : forall (F : Type) (N : Num F) nvib (freq : nat -> F) f3 modes,
  deg_modes AsymmTop nvib freq = Some modes ->
  exists ret, fermi1 AsymmTop modes freq f3 = Some ret /\ NoDup ret /\
    forall i j, In (i, j) ret <->
      i < nvib /\ j < nvib /\
      nleb (nabs (nsub (nmul (nz 2) (freq i)) (freq j))) (nz 200) = true /\
      nleb (nz 10) (nabs (f3 i i j)) = true.
Proof. exact (@fermi1_exact_lemma). Qed.
Example fermi1_exact_ex :
  let freq := dfreq [(3100, 1); (1600, 1); (700, 1)]%Z in
  deg_modes AsymmTop 3 freq = Some [I1 0; I1 1; I1 2] /\
  fermi1 AsymmTop [I1 0; I1 1; I1 2] freq (const3 (nz (-30))) = Some [(1, 0); (2, 1)].
Proof. split; vm_compute; reflexivity. Qed.
Print Assumptions fermi1_exact.

(** C21 *)
Theorem fermi2_exact : forall nvib (freq : nat -> R) f3 modes,
  (forall a b, (a <= b)%nat -> (b < nvib)%nat -> (freq b <= freq a)%R) ->
  deg_modes AsymmTop nvib freq = Some modes ->
  exists ret, fermi2 AsymmTop modes freq f3 = Some ret /\ NoDup ret /\
    forall i j k, In (i, j, k) ret <->
      (k < j /\ j < i /\ i < nvib)%nat /\ spec_fermi2 freq f3 i j k.
Proof. exact fermi2_exact_lemma. Qed.
Example fermi2_exact_ex :
  (forall a b, (a <= b)%nat -> (b < 3)%nat ->
     (nth b [3000; 1800; 1250] 0 <= nth a [3000; 1800; 1250] 0)%R) /\
  spec_fermi2 (fun i => nth i [3000; 1800; 1250] 0)%R (fun _ _ _ => 12%R) 2 1 0.
Proof.
  split.
  - intros a b Hab Hb. destruct a as [|[|[|a]]], b as [|[|[|b]]]; try lia; cbn; lra.
  - unfold spec_fermi2. cbn. split; [rewrite Rabs_right; lra|].
    right. rewrite Rabs_left; lra.
Qed.
Print Assumptions fermi2_exact.

(** C22 *)
Theorem coriolis_exact : forall (F : Type) (N : Num F) nvib (freq : nat -> F) zmat modes,
  deg_modes AsymmTop nvib freq = Some modes ->
  exists ret, coriolis AsymmTop modes freq zmat = Some ret /\ NoDup ret /\
    forall i j ax, In (i, j, ax) ret <->
      j < i /\ i < nvib /\ ax < 3 /\
      nleb (nabs (nsub (freq i) (freq j))) (nz 200) = true /\
      nleb (nlit 1 4) (nabs (zmat i j ax)) = true.
Proof. exact (@coriolis_exact_lemma). Qed.
Example coriolis_exact_ex :
  coriolis AsymmTop [I1 0; I1 1; I1 2] (dfreq [(1800, 1); (1700, 1); (900, 1)]%Z)
    (fun i j ax => match ax with 2 => nlit (-1) 2 | _ => nz 0 end) = Some [(1, 0, 2)].
Proof. vm_compute. reflexivity. Qed.
Print Assumptions coriolis_exact.

(** C23 *)
Theorem darling_exact : forall (F : Type) (N : Num F) nvib (freq : nat -> F) modes,
  deg_modes AsymmTop nvib freq = Some modes ->
  exists ret, darling AsymmTop modes freq = Some ret /\ NoDup ret /\
    forall i j, In (i, j) ret <->
      j < i /\ i < nvib /\
      nleb (nabs (nsub (nmul (nz 2) (freq i)) (nmul (nz 2) (freq j)))) (nz 300) = true.
Proof. exact (@darling_exact_lemma). Qed.
Example darling_exact_ex :
  darling AsymmTop [I1 0; I1 1; I1 2] (dfreq [(1800, 1); (1700, 1); (900, 1)]%Z)
  = Some [(1, 0)].
Proof. vm_compute. reflexivity. Qed.
Print Assumptions darling_exact.

(** C24: what is searched in a symmetric top.  The first nondegenerate mode is never
    compared with a degenerate pair. *)
Theorem darling_symmetric_partial : forall (F : Type) (N : Num F) r modes (freq : nat -> F),
  r = OblateSymmTop \/ r = ProlateSymmTop \/ r = Linear ->
  exists ret, darling r modes freq = Some ret /\
    forall i j, In (i, j) ret <->
      nleb (nabs (nsub (nmul (nz 2) (freq i)) (nmul (nz 2) (freq j)))) (nz 300) = true /\
      ((exists p q, q < p /\ nth_error (flat_map get1 modes) p = Some i /\
                    nth_error (flat_map get1 modes) q = Some j) \/
       (exists p q j', 0 < p /\ nth_error (flat_map get1 modes) p = Some i /\
                    nth_error (flat_map get2 modes) q = Some (j, j')) \/
       (exists p q i' j', q < p /\ nth_error (flat_map get2 modes) p = Some (i, i') /\
                    nth_error (flat_map get2 modes) q = Some (j, j'))).
Proof. exact (@darling_sym_lemma'). Qed.
Example darling_symmetric_ex :
  darling OblateSymmTop [I2 1 2; I1 0; I1 3] (dfreq [(1000, 1); (900, 1); (900, 1); (850, 1)]%Z)
  = Some [(3, 0); (3, 1)].
Proof. vm_compute. reflexivity. Qed.
Print Assumptions darling_symmetric_partial.

(** C24: the same for type-2 Fermi resonances with non-negative frequencies; a
    nondegenerate pair and a degenerate mode are never tested together *)
Theorem fermi2_symmetric_partial : forall r modes (freq : nat -> R) f3,
  r = OblateSymmTop \/ r = ProlateSymmTop \/ r = Linear ->
  (forall i, (0 <= freq i)%R) ->
  exists ret, fermi2 r modes freq f3 = Some ret /\
  let a p := nth_error (flat_map get1 modes) p in
  let e p := option_map fst (nth_error (flat_map get2 modes) p) in
  forall i j k, In (i, j, k) ret <->
    spec_fermi2_any freq f3 i j k /\
     ((exists p q s, q < p /\ a p = Some i /\ a q = Some j /\ a s = Some k) \/
      (exists p q s, 0 < p /\ a p = Some i /\ e q = Some j /\ e s = Some k) \/
      (exists p q s, (0 < p /\ q + 1 < length (flat_map get2 modes) \/ q < p) /\
          e p = Some i /\ e q = Some j /\ (a s = Some k \/ e s = Some k))).
Proof. exact fermi2_sym_R_lemma. Qed.
Example fermi2_symmetric_ex :
  fermi2 OblateSymmTop [I2 1 2; I2 3 4; I1 0]
    (dfreq [(1500, 1); (900, 1); (900, 1); (600, 1); (600, 1)]%Z) (const3 (nz 20))
  = Some [(3, 1, 0); (3, 1, 0)].
Proof. vm_compute. reflexivity. Qed.
Print Assumptions fermi2_symmetric_partial.

(** C24 is false: resonances that are overlooked *)
Theorem darling_symmetric_refuted :
  exists nvib (freq : nat -> f64) modes ret,
    deg_modes OblateSymmTop nvib freq = Some modes /\
    In (I1 0) modes /\ In (I2 1 2) modes /\
    nleb (nabs (nsub (nmul (nz 2) (freq 0)) (nmul (nz 2) (freq 1)))) (nz 300) = true /\
    darling OblateSymmTop modes freq = Some ret /\ ret = [].
Proof. exact darling_sym_missed_lemma. Qed.
Print Assumptions darling_symmetric_refuted.

Theorem fermi2_symmetric_refuted :
  exists nvib (freq : nat -> f64) f3 modes,
    deg_modes OblateSymmTop nvib freq = Some modes /\
    In (I1 0) modes /\ In (I1 1) modes /\ In (I2 2 3) modes /\
    (forall i j k, nleb (nz 10) (nabs (f3 i j k)) = true) /\
    neqb (freq 0) (nadd (freq 1) (freq 2)) = true /\
    fermi2 OblateSymmTop modes freq f3 = Some [].
Proof. exact fermi2_sym_missed_lemma. Qed.
Print Assumptions fermi2_symmetric_refuted.

(** C25: asymmetric tops *)
Theorem fermi2_three_modes : forall (F : Type) (N : Num F) nvib (freq : nat -> F) f3 modes ret,
  deg_modes AsymmTop nvib freq = Some modes ->
  fermi2 AsymmTop modes freq f3 = Some ret ->
  forall i j k, In (i, j, k) ret -> k < j /\ j < i /\ i < nvib.
Proof. exact (@fermi2_distinct_lemma). Qed.
Example fermi2_three_modes_ex :
  fermi2 AsymmTop [I1 0; I1 1; I1 2] (dfreq [(3000, 1); (1800, 1); (1250, 1)]%Z)
    (const3 (nz 12)) = Some [(2, 1, 0)].
Proof. vm_compute. reflexivity. Qed.
Print Assumptions fermi2_three_modes.

Theorem fermi1_no_self_partial : forall nvib (freq : nat -> R) f3 modes ret i,
  deg_modes AsymmTop nvib freq = Some modes ->
  fermi1 AsymmTop modes freq f3 = Some ret ->
  (200 < Rabs (freq i))%R -> ~ In (i, i) ret.
Proof. exact fermi1_no_self_lemma. Qed.
Example fermi1_no_self_ex :
  deg_modes AsymmTop 2 (fun _ => 1595%R) = Some [I1 0; I1 1] /\
  (exists ret, fermi1 AsymmTop [I1 0; I1 1] (fun _ => 1595%R) (fun _ _ _ => 50%R) = Some ret) /\
  (200 < Rabs 1595)%R.
Proof. repeat split; [eexists; reflexivity|rewrite Rabs_right; lra]. Qed.
Print Assumptions fermi1_no_self_partial.

(** C25 is false for low frequencies, and for symmetric tops *)
Theorem fermi1_no_self_refuted :
  exists nvib (freq : nat -> f64) f3 modes ret i,
    deg_modes AsymmTop nvib freq = Some modes /\
    fermi1 AsymmTop modes freq f3 = Some ret /\ In (i, i) ret.
Proof. exact fermi1_self_lemma. Qed.
Print Assumptions fermi1_no_self_refuted.

Theorem fermi2_symmetric_self_refuted :
  exists nvib (freq : nat -> f64) f3 modes ret i k,
    deg_modes OblateSymmTop nvib freq = Some modes /\
    fermi2 OblateSymmTop modes freq f3 = Some ret /\ In (i, i, k) ret.
Proof. exact fermi2_sym_self_lemma. Qed.
Print Assumptions fermi2_symmetric_self_refuted.

(** C55 *)
Theorem mismatch_is_least : forall x y z : R,
  (0 <= x)%R -> (0 <= y)%R -> (0 <= z)%R ->
  exists d, aminjm (x - y - z)%R (- x + y - z)%R (- x - y + z)%R = Some d /\
    (d = x - y - z \/ d = - x + y - z \/ d = - x - y + z)%R /\
    (Rabs d <= Rabs (x - y - z) /\ Rabs d <= Rabs (- x + y - z) /\
     Rabs d <= Rabs (- x - y + z))%R.
Proof. exact aminjm_least_abs_lemma. Qed.
Example mismatch_is_least_ex :
  aminjm (F:=f64) (nz (-200)) (nz (-3000)) (nz (-4000)) = Some (nz (-200)).
Proof. vm_compute. reflexivity. Qed.
Print Assumptions mismatch_is_least.

(** C55 needs real frequencies: with two imaginary modes (negative wavenumbers) the
    chosen mismatch is not the least *)
Theorem mismatch_is_least_refuted :
  exists x y z d : f64,
    aminjm (nsub (nsub x y) z) (nsub (nadd (nopp x) y) z) (nadd (nsub (nopp x) y) z) = Some d /\
    nltb (nabs (nsub (nadd (nopp x) y) z)) (nabs d) = true.
Proof. exact aminjm_not_least_lemma. Qed.
Print Assumptions mismatch_is_least_refuted.
