(** Properties C01-C08, C51, C56: index formulas, storage and loading.
    All of them hold for every type of number and every arithmetic. *)
From Coq Require Import List ZArith NArith Arith Permutation QArith.
From Verif Require Import Num Loops Index IndexFacts LoadFacts.
Import ListNotations.
Open Scope nat_scope.

(** C01 *)
Theorem cubic_read_any_order : forall (F : Type) (n : nat) (v : list F),
  length v = n * (n + 1) * (n + 2) / 6 ->
  (forall i j k i' j' k', Permutation [i; j; k] [i'; j'; k'] ->
     f3qcm_get v i j k = f3qcm_get v i' j' k') /\
  (forall i j k, i < n -> j < n -> k < n -> f3qcm_get v i j k <> None) /\
  (forall i j k, n <= i \/ n <= j \/ n <= k -> f3qcm_get v i j k = None).
Proof. exact (@find3_reads). Qed.
Example cubic_read_any_order_ex :
  length [10; 11; 12; 13]%Z = 2 * (2 + 1) * (2 + 2) / 6 /\
  f3qcm_get [10; 11; 12; 13]%Z 1 0 0 = Some 11%Z /\
  f3qcm_get [10; 11; 12; 13]%Z 0 0 1 = Some 11%Z /\
  f3qcm_get [10; 11; 12; 13]%Z 0 2 0 = None.
Proof. repeat split. Qed.
Print Assumptions cubic_read_any_order.

(** C02 *)
Theorem cubic_storage_bijection : forall n,
  (forall i j k, i < n -> j < n -> k < n -> find3 i j k < n * (n + 1) * (n + 2) / 6) /\
  (forall i j k i' j' k', find3 i j k = find3 i' j' k' ->
                          Permutation [i; j; k] [i'; j'; k']) /\
  (forall p, p < n * (n + 1) * (n + 2) / 6 ->
     exists i j k, i < n /\ j < n /\ k < n /\ find3 i j k = p).
Proof. exact find3_bijection_lemma. Qed.
Example cubic_storage_bijection_ex :
  find3 2 0 1 = 5 /\ find3 2 2 2 = 9 /\ 3 * (3 + 1) * (3 + 2) / 6 = 10.
Proof. repeat split. Qed.
Print Assumptions cubic_storage_bijection.

(** C03 *)
Theorem quartic_access_any_order : forall (F : Type) (n : nat) (v : list F),
  length v = n * (n + 1) * (n + 2) * (n + 3) / 24 ->
  (forall i j k l i' j' k' l', Permutation [i; j; k; l] [i'; j'; k'; l'] ->
     f4qcm_get v i j k l = f4qcm_get v i' j' k' l' /\
     forall x, f4qcm_set v i j k l x = f4qcm_set v i' j' k' l' x) /\
  (forall i j k l x, i < n -> j < n -> k < n -> l < n ->
     f4qcm_get v i j k l <> None /\
     exists v', f4qcm_set v i j k l x = Some v' /\ length v' = length v /\
       (forall a b c d,
          (Permutation [a; b; c; d] [i; j; k; l] -> f4qcm_get v' a b c d = Some x) /\
          (~ Permutation [a; b; c; d] [i; j; k; l] ->
           f4qcm_get v' a b c d = f4qcm_get v a b c d))) /\
  (forall i j k l x, n <= i \/ n <= j \/ n <= k \/ n <= l ->
     f4qcm_get v i j k l = None /\ f4qcm_set v i j k l x = None).
Proof. exact (@find4_reads). Qed.
Example quartic_access_any_order_ex :
  length [10; 11; 12; 13; 14]%Z = 2 * (2 + 1) * (2 + 2) * (2 + 3) / 24 /\
  f4qcm_get [10; 11; 12; 13; 14]%Z 1 0 1 0 = Some 12%Z /\
  f4qcm_set [10; 11; 12; 13; 14]%Z 0 1 1 1 7%Z = Some [10; 11; 12; 7; 14]%Z /\
  f4qcm_set [10; 11; 12; 13; 14]%Z 0 2 1 1 7%Z = None.
Proof. repeat split. Qed.
Print Assumptions quartic_access_any_order.

(** C04 *)
Theorem quartic_storage_bijection : forall n,
  (forall i j k l, i < n -> j < n -> k < n -> l < n ->
     find4 i j k l < n * (n + 1) * (n + 2) * (n + 3) / 24) /\
  (forall i j k l i' j' k' l', find4 i j k l = find4 i' j' k' l' ->
     Permutation [i; j; k; l] [i'; j'; k'; l']) /\
  (forall p, p < n * (n + 1) * (n + 2) * (n + 3) / 24 ->
     exists i j k l, i < n /\ j < n /\ k < n /\ l < n /\ find4 i j k l = p).
Proof. exact find4_bijection_lemma. Qed.
Example quartic_storage_bijection_ex :
  find4 2 0 1 1 = 7 /\ find4 2 2 2 2 = 14 /\ 3 * (3 + 1) * (3 + 2) * (3 + 3) / 24 = 15.
Proof. repeat split. Qed.
Print Assumptions quartic_storage_bijection.

(** C05 *)
Theorem index_arithmetic_fits_u64 :
  (forall i j k, i < 2097151 -> j < 2097151 -> k < 2097151 ->
     exists p, find3_u64 i j k = Some p /\
               N.to_nat p = find3 (N.to_nat i) (N.to_nat j) (N.to_nat k))%N /\
  (forall i j k l, i < 65535 -> j < 65535 -> k < 65535 -> l < 65535 ->
     exists p, find4_u64 i j k l = Some p /\
               N.to_nat p = find4 (N.to_nat i) (N.to_nat j) (N.to_nat k) (N.to_nat l))%N /\
  (forall n, 0 < n -> n <= 4294967296 ->
     exists p, ioff_u64 n = Some p /\ N.to_nat p = ioff (N.to_nat n))%N.
Proof. exact index_u64_lemma. Qed.
(** the bound 65535 of the quartic formula is sharp *)
Theorem quartic_index_overflows_at_65535 : forall i : N,
  (65535 <= i -> i < 4294967295 -> find4_u64 i i i i = None)%N.
Proof. exact find4_u64_overflow. Qed.
Example index_arithmetic_fits_u64_ex :
  (find4_u64 65534 65534 65534 65534 = Some 768637792473661439 /\
   find4_u64 65535 65535 65535 65535 = None /\
   find3_u64 65534 3 65534 = Some 46912496041988 /\ ioff_u64 10 = Some 45)%N.
Proof. repeat split. Qed.
Print Assumptions index_arithmetic_fits_u64.
Print Assumptions quartic_index_overflows_at_65535.

(** C06 *)
Theorem load_cubic : forall (F : Type) (N : Num F) (n : nat) (l : list F),
  let want := n * (n + 1) * (n + 2) / 6 in
  (forall h data, l = h ++ data -> (h = [] \/ length h = 2) -> length data = want ->
     exists t, new_fc3 n l = Some t /\
       forall i j k, k <= j -> j <= i -> i < n ->
       forall a b c, Permutation [a; b; c] [i; j; k] ->
         nth_error data (k + j * (j + 1) / 2 + i * (i + 1) * (i + 2) / 6)
         = Some (t a b c)) /\
  (length l <> want -> length l <> want + 2 -> new_fc3 n l = None).
Proof. exact (@new_fc3_main). Qed.
Example load_cubic_ex :
  let want := 2 * (2 + 1) * (2 + 2) / 6 in
  length [10; 11; 12; 13]%Q = want /\
  option_map (fun t => (t 0 0 1, t 0 1 0, t 1 0 0, t 1 1 0, t 1 1 1))%nat
    (new_fc3 2 [7; 8; 10; 11; 12; 13]%Q) = Some (11, 11, 11, 12, 13)%Q /\
  new_fc3 2 [10; 11; 12]%Q = None.
Proof. vm_compute. repeat split. Qed.
Print Assumptions load_cubic.

(** C07 *)
Theorem load_quartic : forall (F : Type) (N : Num F) (n : nat) (l : list F),
  let want := n * (n + 1) * (n + 2) * (n + 3) / 24 in
  (forall h data, l = h ++ data -> (h = [] \/ length h = 2) -> length data = want ->
     exists t, new_fc4 n l = Some t /\
       forall i j k m, m <= k -> k <= j -> j <= i -> i < n ->
       forall a b c d, Permutation [a; b; c; d] [i; j; k; m] ->
         nth_error data (m + k * (k + 1) / 2 + j * (j + 1) * (j + 2) / 6
                           + i * (i + 1) * (i + 2) * (i + 3) / 24)
         = Some (t a b c d)) /\
  (length l <> want -> length l <> want + 2 -> new_fc4 n l = None).
Proof. exact (@new_fc4_main). Qed.
Example load_quartic_ex :
  length [10; 11; 12; 13; 14]%Q = 2 * (2 + 1) * (2 + 2) * (2 + 3) / 24 /\
  option_map (fun t => (t 0 0 1 0, t 0 1 0 1, t 1 1 0 1, t 1 1 1 1))%nat
    (new_fc4 2 [10; 11; 12; 13; 14]%Q) = Some (11, 12, 13, 14)%Q /\
  new_fc4 2 [10; 11; 12]%Q = None.
Proof. vm_compute. repeat split. Qed.
Print Assumptions load_quartic.

(** C08.  The list with a header is read by rows, the list without one by columns,
    so the two results are transposes; they agree exactly for symmetric data. *)
Theorem load_hessian_header : forall (F : Type) (n : nat) (h data : list F),
  length h = 2 -> length data = n * n ->
  exists m m', load_fc2 n data = Some m /\ load_fc2 n (h ++ data) = Some m' /\
    (forall i j, i < n -> j < n -> m i j = nth_error data (j * n + i)) /\
    (forall i j, m' i j = m j i) /\
    ((forall i j, m' i j = m i j) <->
     (forall i j, i < n -> j < n ->
        nth_error data (i * n + j) = nth_error data (j * n + i))).
Proof. exact (@load_fc2_header_lemma). Qed.
Theorem load_hessian_bad_length : forall (F : Type) (n : nat) (data : list F),
  length data <> n * n -> length data <> n * n + 2 -> load_fc2 n data = None.
Proof. exact (@load_fc2_reject). Qed.
(** the property as stated is false for unsymmetric data *)
Theorem load_hessian_same_refuted :
  exists (n : nat) (h data : list Z) m m' (i j : nat),
    length h = 2 /\ length data = n * n /\
    load_fc2 n data = Some m /\ load_fc2 n (h ++ data) = Some m' /\
    m i j = Some 3%Z /\ m' i j = Some 2%Z.
Proof. exact load_fc2_refuted_lemma. Qed.
Example load_hessian_header_ex :
  length [9; 9]%Q = 2 /\ length [1; 2; 2; 4]%Q = 2 * 2 /\
  option_map (fun m => m 0 1)%nat (load_fc2 2 [9; 9; 1; 2; 2; 4]%Q) = Some (Some 2%Q) /\
  option_map (fun m => m 0 1)%nat (load_fc2 2 [1; 2; 2; 4]%Q) = Some (Some 2%Q) /\
  load_fc2 2 [1; 2; 2]%Q = None.
Proof. repeat split. Qed.
Print Assumptions load_hessian_header.
Print Assumptions load_hessian_bad_length.
Print Assumptions load_hessian_same_refuted.

(** C51 *)
Theorem counting_of_modes : forall (natoms : nat) (linear : bool),
  (natoms < 2 -> make_sizes natoms linear = None) /\
  (2 <= natoms ->
   exists s, make_sizes natoms linear = Some s /\
     sz_n3n s = 3 * natoms /\
     sz_nvib s + (if linear then 5 else 6) = 3 * natoms /\
     (forall L, NoDup L -> (forall i j, In (i, j) L <-> j <= i /\ i < sz_nvib s) ->
        sz_i2vib s = length L) /\
     (forall n L, NoDup L ->
        (forall i j k, In (i, j, k) L <-> k <= j /\ j <= i /\ i < n) ->
        (n = sz_nvib s -> sz_i3vib s = length L) /\
        (n = sz_n3n s -> sz_i3n3n s = length L)) /\
     (forall n L, NoDup L ->
        (forall i j k l, In (i, j, k, l) L <-> l <= k /\ k <= j /\ j <= i /\ i < n) ->
        (n = sz_nvib s -> sz_i4vib s = length L) /\
        (n = sz_n3n s -> sz_i4n3n s = length L))).
Proof. exact make_sizes_lemma. Qed.
Example counting_of_modes_ex :
  make_sizes 3 false = Some {| sz_n3n := 9; sz_i3n3n := 165; sz_i4n3n := 495;
    sz_nvib := 3; sz_i2vib := 6; sz_i3vib := 10; sz_i4vib := 15 |} /\
  option_map sz_nvib (make_sizes 4 true) = Some 7 /\ make_sizes 1 true = None.
Proof. repeat split. Qed.
Print Assumptions counting_of_modes.

(** C56.  [st] is the column-major storage of an [r] by [c] matrix. *)
Theorem mode_vectors_by_column : forall (A : Type) (r c : nat) (st : list A),
  length st = r * c ->
  (r = c -> r <> 0 ->
   exists v, to_vec r c st = Some v /\ length v = c /\
     forall i j, i < r -> j < c ->
       exists col, nth_error v j = Some col /\ length col = r /\
                   nth_error col i = nth_error st (j * r + i)) /\
  (r <> c -> to_vec r c st = None) /\
  (r = 0 -> to_vec r c st = None).
Proof. exact (@to_vec_spec). Qed.
Example mode_vectors_by_column_ex :
  length [1; 2; 3; 4]%Z = 2 * 2 /\
  to_vec 2 2 [1; 2; 3; 4]%Z = Some [[1; 2]; [3; 4]]%Z /\
  to_vec 2 3 [1; 2; 3; 4; 5; 6]%Z = None.
Proof. repeat split. Qed.
Print Assumptions mode_vectors_by_column.
