(** Property C93: the couplings of the resonance polyads are the elements of the effective
    Hamiltonian of coupled oscillators. *)
From Coq Require Import Reals Lra List ZArith Arith Lia Bool.
From Verif Require Import Num Loops Index Modes ModesFacts StatesFacts ResFacts
  Anharm AnharmFacts FermiWitness Polyads PolyadFacts PolyadExact PerturbFacts PerturbSum VanVleck VanVleckModel.
Import ListNotations.
Open Scope nat_scope.
Local Open Scope R_scope.

(** [effective] (VanVleck.v) is the element of the effective Hamiltonian to second order
    between two states, written with the operators of the positions and momenta alone. *)

(** two quanta of one mode against two quanta of another *)
Theorem effective_darling_dennison :
  forall (w : nat -> R) zeta f3 f4 B n fm1 fm2 res iirst s t,
  (forall i j k, f3 i j k = f3 j i k) -> (forall i j k, f3 i j k = f3 i k j) ->
  (forall i j k l, f4 i j k l = f4 j i k l) -> (forall i j k l, f4 i j k l = f4 i k j l) ->
  (forall i j k l, f4 i j k l = f4 i j l k) ->
  (forall i j a, zeta i j a = - zeta j i a) ->
  reported fm1 fm2 res -> asym_lists fm1 fm2 ->
  (forall i, (i < n)%nat -> 0 < w i) ->
  (forall i j m, (i < n)%nat -> (j < n)%nat -> (m < n)%nat ->
     res i j m = false -> w i + w j - w m <> 0) ->
  forall i j,
  let q := fun m => iirst m s in
  let q' := fun m => iirst m t in
  (i < j)%nat -> (j < n)%nat -> apart q q' i 2 -> apart q q' j 2 ->
  (q i + q j = q' i + q' j)%nat ->
  (forall m, (m < n)%nat -> m <> i -> m <> j -> q m = q' m) ->
  genrsa w zeta f3 f4 B (seq 0 n) (init_res_denom w fm1 fm2) n iirst s t
  = Some (effective n w f3 f4 zeta B res q q').
Proof. exact effective_aabb_lemma. Qed.
Example effective_darling_dennison_ex :
  (forall i j k, tri_f3 i j k = tri_f3 j i k) /\ (forall i j k, tri_f3 i j k = tri_f3 i k j) /\
  (forall i j k l, tri_f4 i j k l = tri_f4 j i k l) /\ (forall i j k l, tri_f4 i j k l = tri_f4 i k j l) /\
  (forall i j k l, tri_f4 i j k l = tri_f4 i j l k) /\
  (forall i j a, tri_zeta i j a = - tri_zeta j i a) /\
  reported [] [(2, 1, 0)]%nat tri_res /\ asym_lists [] [(2, 1, 0)]%nat /\
  (forall i, (i < 3)%nat -> 0 < tri_w i) /\
  (forall i j m, (i < 3)%nat -> (j < 3)%nat -> (m < 3)%nat ->
     tri_res i j m = false -> tri_w i + tri_w j - tri_w m <> 0) /\
  let q := fun m => tri_states m 0 in
  let q' := fun m => tri_states m 1 in
  apart q q' 1 2 /\ apart q q' 2 2 /\ (q 1 + q 2 = q' 1 + q' 2)%nat /\
  (forall m, (m < 3)%nat -> m <> 1%nat -> m <> 2%nat -> q m = q' m).
Proof.
  destruct tri_hyps as (H1 & H2 & H3 & H4 & H5 & H6 & H7 & H8 & H9 & H10).
  do 10 (split; [assumption|]). cbv zeta. unfold apart. cbn [tri_states nth].
  repeat split; try lia; try reflexivity; intros m Hm; intros; destruct m as [|[|[|m]]]; cbn; lia.
Qed.
Print Assumptions effective_darling_dennison.

(** two quanta of one mode against one quantum each of two others *)
Theorem effective_aabc :
  forall (w : nat -> R) zeta f3 f4 B n fm1 fm2 res iirst s t,
  (forall i j k, f3 i j k = f3 j i k) -> (forall i j k, f3 i j k = f3 i k j) ->
  (forall i j k l, f4 i j k l = f4 j i k l) -> (forall i j k l, f4 i j k l = f4 i k j l) ->
  (forall i j k l, f4 i j k l = f4 i j l k) ->
  (forall i j a, zeta i j a = - zeta j i a) ->
  reported fm1 fm2 res -> asym_lists fm1 fm2 ->
  (forall i, (i < n)%nat -> 0 < w i) ->
  (forall i j m, (i < n)%nat -> (j < n)%nat -> (m < n)%nat ->
     res i j m = false -> w i + w j - w m <> 0) ->
  forall i j k,
  let q := fun m => iirst m s in
  let q' := fun m => iirst m t in
  i <> j -> i <> k -> (j < k)%nat -> (i < n)%nat -> (k < n)%nat ->
  apart q q' i 2 -> apart q q' j 1 -> apart q q' k 1 ->
  (q i + q j + q k = q' i + q' j + q' k)%nat ->
  (forall m, (m < n)%nat -> m <> i -> m <> j -> m <> k -> q m = q' m) ->
  genrsa w zeta f3 f4 B (seq 0 n) (init_res_denom w fm1 fm2) n iirst s t
  = Some (effective n w f3 f4 zeta B res q q').
Proof. exact effective_aabc_lemma. Qed.
Example effective_aabc_ex :
  (forall i j k, tri_f3 i j k = tri_f3 j i k) /\ (forall i j k, tri_f3 i j k = tri_f3 i k j) /\
  (forall i j k l, tri_f4 i j k l = tri_f4 j i k l) /\ (forall i j k l, tri_f4 i j k l = tri_f4 i k j l) /\
  (forall i j k l, tri_f4 i j k l = tri_f4 i j l k) /\
  (forall i j a, tri_zeta i j a = - tri_zeta j i a) /\
  reported [] [(2, 1, 0)]%nat tri_res /\ asym_lists [] [(2, 1, 0)]%nat /\
  (forall i, (i < 3)%nat -> 0 < tri_w i) /\
  (forall i j m, (i < 3)%nat -> (j < 3)%nat -> (m < 3)%nat ->
     tri_res i j m = false -> tri_w i + tri_w j - tri_w m <> 0) /\
  let q := fun m => tri_states m 2 in
  let q' := fun m => tri_states m 3 in
  apart q q' 0 2 /\ apart q q' 1 1 /\ apart q q' 2 1 /\ (q 0 + q 1 + q 2 = q' 0 + q' 1 + q' 2)%nat /\
  (forall m, (m < 3)%nat -> m <> 0%nat -> m <> 1%nat -> m <> 2%nat -> q m = q' m).
Proof.
  destruct tri_hyps as (H1 & H2 & H3 & H4 & H5 & H6 & H7 & H8 & H9 & H10).
  do 10 (split; [assumption|]). cbv zeta. unfold apart. cbn [tri_states nth].
  repeat split; try lia; try reflexivity; intros m Hm; intros; destruct m as [|[|[|m]]]; cbn; lia.
Qed.
Print Assumptions effective_aabc.

(** one quantum moved from one mode to another *)
Theorem effective_one_one :
  forall (w : nat -> R) zeta f3 f4 B n fm1 fm2 res iirst s t,
  (forall i j k, f3 i j k = f3 j i k) -> (forall i j k, f3 i j k = f3 i k j) ->
  (forall i j k l, f4 i j k l = f4 j i k l) -> (forall i j k l, f4 i j k l = f4 i k j l) ->
  (forall i j k l, f4 i j k l = f4 i j l k) ->
  (forall i j a, zeta i j a = - zeta j i a) ->
  reported fm1 fm2 res -> asym_lists fm1 fm2 ->
  (forall i, (i < n)%nat -> 0 < w i) ->
  (forall i j m, (i < n)%nat -> (j < n)%nat -> (m < n)%nat ->
     res i j m = false -> w i + w j - w m <> 0) ->
  forall i j,
  let q := fun m => iirst m s in
  let q' := fun m => iirst m t in
  (i < j)%nat -> (j < n)%nat -> apart q q' i 1 -> apart q q' j 1 ->
  (q i + q j = q' i + q' j)%nat ->
  (forall m, (m < n)%nat -> m <> i -> m <> j -> q m = q' m) ->
  genrsa w zeta f3 f4 B (seq 0 n) (init_res_denom w fm1 fm2) n iirst s t
  = Some (effective n w f3 f4 zeta B res q q').
Proof. exact effective_one_lemma. Qed.
Example effective_one_one_ex :
  (forall i j k, tri_f3 i j k = tri_f3 j i k) /\ (forall i j k, tri_f3 i j k = tri_f3 i k j) /\
  (forall i j k l, tri_f4 i j k l = tri_f4 j i k l) /\ (forall i j k l, tri_f4 i j k l = tri_f4 i k j l) /\
  (forall i j k l, tri_f4 i j k l = tri_f4 i j l k) /\
  (forall i j a, tri_zeta i j a = - tri_zeta j i a) /\
  reported [] [(2, 1, 0)]%nat tri_res /\ asym_lists [] [(2, 1, 0)]%nat /\
  (forall i, (i < 3)%nat -> 0 < tri_w i) /\
  (forall i j m, (i < 3)%nat -> (j < 3)%nat -> (m < 3)%nat ->
     tri_res i j m = false -> tri_w i + tri_w j - tri_w m <> 0) /\
  let q := fun m => tri_states m 5 in
  let q' := fun m => tri_states m 6 in
  apart q q' 1 1 /\ apart q q' 2 1 /\ (q 1 + q 2 = q' 1 + q' 2)%nat /\
  (forall m, (m < 3)%nat -> m <> 1%nat -> m <> 2%nat -> q m = q' m).
Proof.
  destruct tri_hyps as (H1 & H2 & H3 & H4 & H5 & H6 & H7 & H8 & H9 & H10).
  do 10 (split; [assumption|]). cbv zeta. unfold apart. cbn [tri_states nth].
  repeat split; try lia; try reflexivity; intros m Hm; intros; destruct m as [|[|[|m]]]; cbn; lia.
Qed.
Print Assumptions effective_one_one.

(** three modes change by one quantum: either the two states differ by a reported
    resonance, or no resonance among the three modes is reported *)
Theorem effective_fermi2 :
  forall (w : nat -> R) zeta f3 f4 B n fm1 fm2 res iirst s t,
  (forall i j k, f3 i j k = f3 j i k) -> (forall i j k, f3 i j k = f3 i k j) ->
  (forall i j k l, f4 i j k l = f4 j i k l) -> (forall i j k l, f4 i j k l = f4 i k j l) ->
  (forall i j k l, f4 i j k l = f4 i j l k) ->
  (forall i j a, zeta i j a = - zeta j i a) ->
  reported fm1 fm2 res -> asym_lists fm1 fm2 ->
  (forall i, (i < n)%nat -> 0 < w i) ->
  (forall i j m, (i < n)%nat -> (j < n)%nat -> (m < n)%nat ->
     res i j m = false -> w i + w j - w m <> 0) ->
  forall i j k,
  let q := fun m => iirst m s in
  let q' := fun m => iirst m t in
  (i < j)%nat -> (j < k)%nat -> (k < n)%nat ->
  apart q q' i 1 -> apart q q' j 1 -> apart q q' k 1 ->
  (forall m, (m < n)%nat -> m <> i -> m <> j -> m <> k -> q m = q' m) ->
  near n res q' q = true \/ res j k i = false /\ res i k j = false /\ res i j k = false ->
  genrsa w zeta f3 f4 B (seq 0 n) (init_res_denom w fm1 fm2) n iirst s t
  = Some (effective n w f3 f4 zeta B res q q').
Proof. exact effective_abc_lemma. Qed.
Example effective_fermi2_ex :
  (forall i j k, tri_f3 i j k = tri_f3 j i k) /\ (forall i j k, tri_f3 i j k = tri_f3 i k j) /\
  (forall i j k l, tri_f4 i j k l = tri_f4 j i k l) /\ (forall i j k l, tri_f4 i j k l = tri_f4 i k j l) /\
  (forall i j k l, tri_f4 i j k l = tri_f4 i j l k) /\
  (forall i j a, tri_zeta i j a = - tri_zeta j i a) /\
  reported [] [(2, 1, 0)]%nat tri_res /\ asym_lists [] [(2, 1, 0)]%nat /\
  (forall i, (i < 3)%nat -> 0 < tri_w i) /\
  (forall i j m, (i < 3)%nat -> (j < 3)%nat -> (m < 3)%nat ->
     tri_res i j m = false -> tri_w i + tri_w j - tri_w m <> 0) /\
  let q := fun m => tri_states m 3 in
  let q' := fun m => tri_states m 4 in
  apart q q' 0 1 /\ apart q q' 1 1 /\ apart q q' 2 1 /\
  (forall m, (m < 3)%nat -> m <> 0%nat -> m <> 1%nat -> m <> 2%nat -> q m = q' m) /\
  near 3 tri_res q' q = true.
Proof.
  destruct tri_hyps as (H1 & H2 & H3 & H4 & H5 & H6 & H7 & H8 & H9 & H10).
  do 10 (split; [assumption|]). cbv zeta. unfold apart. cbn [tri_states nth].
  repeat split; try lia; try reflexivity; intros m Hm; intros; destruct m as [|[|[|m]]]; cbn; lia.
Qed.
Print Assumptions effective_fermi2.

(** one mode changes by two quanta and one by one: either the two states differ by a
    reported resonance, or the resonance is not reported *)
Theorem effective_fermi1 :
  forall (w : nat -> R) zeta f3 f4 B n fm1 fm2 res iirst s t,
  (forall i j k, f3 i j k = f3 j i k) -> (forall i j k, f3 i j k = f3 i k j) ->
  (forall i j k l, f4 i j k l = f4 j i k l) -> (forall i j k l, f4 i j k l = f4 i k j l) ->
  (forall i j k l, f4 i j k l = f4 i j l k) ->
  (forall i j a, zeta i j a = - zeta j i a) ->
  reported fm1 fm2 res -> asym_lists fm1 fm2 ->
  (forall i, (i < n)%nat -> 0 < w i) ->
  (forall i j m, (i < n)%nat -> (j < n)%nat -> (m < n)%nat ->
     res i j m = false -> w i + w j - w m <> 0) ->
  forall i j,
  let q := fun m => iirst m s in
  let q' := fun m => iirst m t in
  i <> j -> (i < n)%nat -> (j < n)%nat -> apart q q' i 2 -> apart q q' j 1 ->
  (forall m, (m < n)%nat -> m <> i -> m <> j -> q m = q' m) ->
  near n res q' q = true \/ res i i j = false ->
  genrsa w zeta f3 f4 B (seq 0 n) (init_res_denom w fm1 fm2) n iirst s t
  = Some (effective n w f3 f4 zeta B res q q').
Proof. exact effective_aab_lemma. Qed.
Example effective_fermi1_ex :
  (forall i, (i < 2)%nat -> 0 < ex_w i) /\
  (forall i j m, (i < 2)%nat -> (j < 2)%nat -> (m < 2)%nat ->
     ex_res i j m = false -> ex_w i + ex_w j - ex_w m <> 0) /\
  reported [(1, 0)]%nat [] ex_res /\ asym_lists [(1, 0)]%nat [] /\
  let q := fun m : nat => nth m [0; 2]%nat 0%nat in
  let q' := fun m : nat => nth m [1; 0]%nat 0%nat in
  apart q q' 1 2 /\ apart q q' 0 1 /\
  (forall m, (m < 2)%nat -> m <> 1%nat -> m <> 0%nat -> q m = q' m) /\
  near 2 ex_res q' q = true.
Proof.
  destruct ex_hyps as (H1 & H2 & H3 & H4 & H5).
  do 4 (split; [assumption|]). cbv zeta. unfold apart. cbn [nth].
  repeat split; try lia; try reflexivity; intros m Hm; intros; lia.
Qed.
Print Assumptions effective_fermi1.

