(** Model of the flat index formulas and of the containers that use them. *)
From Coq Require Import List ZArith Arith NArith Lia Bool.
From Verif Require Import Num Loops.
Import ListNotations.

(** utils.rs:99-102 [sort_indices], for three and four indices: an ascending
    sort.  Written as insertion sort. *)
Fixpoint insert_sorted (x : nat) (l : list nat) : list nat :=
  match l with
  | [] => [x]
  | y :: t => if x <=? y then x :: y :: t else y :: insert_sorted x t
  end.
Definition sort_indices (l : list nat) : list nat := fold_right insert_sorted [] l.

(** utils.rs:111-114 [find3].  Unbounded naturals; the 64-bit version is
    [find3_u64] below. *)
Definition find3 (i j k : nat) : nat :=
  match sort_indices [i + 1; j + 1; k + 1] with
  | [a; b; c] => a + (b - 1) * b / 2 + (c - 1) * c * (c + 1) / 6 - 1
  | _ => 0 (* unreachable: sorting keeps the length *)
  end.

(** utils.rs:119-125 [find4] *)
Definition find4 (i j k l : nat) : nat :=
  match sort_indices [i + 1; j + 1; k + 1; l + 1] with
  | [a; b; c; d] =>
      a + (b - 1) * b / 2 + (c - 1) * c * (c + 1) / 6
        + (d - 1) * d * (d + 1) * (d + 2) / 24 - 1
  | _ => 0 (* unreachable *)
  end.

(** utils.rs:128-130 [ioff].  For [n = 0] Rust panics in debug builds; no caller
    passes 0 (every call site has the shape [ioff(x + 1)]). *)
Definition ioff (n : nat) : nat := ((n - 1) * n) / 2.

(** index of an unordered pair, as written out at resonance.rs:229, 246-247,
    263-266, enrgy.rs:59, 73, 94 and utils.rs:444-445 *)
Definition pair_index (i j : nat) : nat := ioff (Nat.max i j + 1) + Nat.min i j.

(** f3qcm.rs:8, 24-32: [F3qcm] is a vector; reading is [find3] then a checked
    index.  [None] is the panic. *)
Definition f3qcm_get {F} (v : list F) (i j k : nat) : option F :=
  nth_error v (find3 i j k).

(** f4qcm.rs:11, 26-45: reading and writing [F4qcm] *)
Definition f4qcm_get {F} (v : list F) (i j k l : nat) : option F :=
  nth_error v (find4 i j k l).
Definition f4qcm_set {F} (v : list F) (i j k l : nat) (x : F) : option (list F) :=
  set_nth v (find4 i j k l) x.

(** The same formulas in checked 64-bit unsigned arithmetic: [None] when an
    intermediate result does not fit or a subtraction underflows (a panic in
    debug builds, a wrapped value in release builds). *)
Definition u64_max : N := 18446744073709551615.
Definition uadd (a b : N) : option N :=
  if N.leb (a + b) u64_max then Some (a + b)%N else None.
Definition umul (a b : N) : option N :=
  if N.leb (a * b) u64_max then Some (a * b)%N else None.
Definition usub (a b : N) : option N :=
  if N.leb b a then Some (a - b)%N else None.
Definition udiv (a b : N) : option N :=
  if N.eqb b 0 then None else Some (a / b)%N.

Fixpoint insert_sortedN (x : N) (l : list N) : list N :=
  match l with
  | [] => [x]
  | y :: t => if N.leb x y then x :: y :: t else y :: insert_sortedN x t
  end.
Definition sort_indicesN (l : list N) : list N := fold_right insert_sortedN [] l.

(** utils.rs:111-114, evaluation order as in Rust (left to right) *)
Definition find3_u64 (i j k : N) : option N :=
  let* i1 := uadd i 1 in
  let* j1 := uadd j 1 in
  let* k1 := uadd k 1 in
  match sort_indicesN [i1; j1; k1] with
  | [a; b; c] =>
      let* b1 := usub b 1 in
      let* b2 := umul b1 b in
      let* b3 := udiv b2 2 in
      let* s1 := uadd a b3 in
      let* c1 := usub c 1 in
      let* c2 := umul c1 c in
      let* c3 := uadd c 1 in
      let* c4 := umul c2 c3 in
      let* c5 := udiv c4 6 in
      let* s2 := uadd s1 c5 in
      usub s2 1
  | _ => None
  end.

(** utils.rs:119-125 *)
Definition find4_u64 (i j k l : N) : option N :=
  let* i1 := uadd i 1 in
  let* j1 := uadd j 1 in
  let* k1 := uadd k 1 in
  let* l1 := uadd l 1 in
  match sort_indicesN [i1; j1; k1; l1] with
  | [a; b; c; d] =>
      let* b1 := usub b 1 in
      let* b2 := umul b1 b in
      let* b3 := udiv b2 2 in
      let* s1 := uadd a b3 in
      let* c1 := usub c 1 in
      let* c2 := umul c1 c in
      let* c3 := uadd c 1 in
      let* c4 := umul c2 c3 in
      let* c5 := udiv c4 6 in
      let* s2 := uadd s1 c5 in
      let* d1 := usub d 1 in
      let* d2 := umul d1 d in
      let* d3 := uadd d 1 in
      let* d4 := umul d2 d3 in
      let* d5 := uadd d 2 in
      let* d6 := umul d4 d5 in
      let* d7 := udiv d6 24 in
      let* s3 := uadd s2 d7 in
      usub s3 1
  | _ => None
  end.

(** utils.rs:128-130 in checked arithmetic *)
Definition ioff_u64 (n : N) : option N :=
  let* n1 := usub n 1 in
  let* p := umul n1 n in
  udiv p 2.

(** load.rs:413-442 [new_fc3].  The table is a function of three indices,
    initially 0.  The length test is as in the code; [fl - 2] underflows for
    [fl < 2], which panics in debug builds and wraps to a value different from
    [want] in release builds, so it is a panic either way. *)
Section Load.
  Context {F : Type} `{Num F}.

  Definition trim_header (want : nat) (l : list F) : option (list F) :=
    if length l =? want then Some l
    else if (2 <=? length l) && (length l - 2 =? want) then Some (skipn 2 l)
    else None.

  Definition fc3_write (f : nat -> nat -> nat -> F) (i j k : nat) (v : F) :=
    fold_left (fun f '(a, b, c) => upd3 f a b c v)
      [(i, j, k); (i, k, j); (j, i, k); (j, k, i); (k, i, j); (k, j, i)] f.

  (** loop indices of load.rs:427-429 in iteration order *)
  Definition tri_indices (n : nat) : list (nat * nat * nat) :=
    flat_map (fun i => flat_map (fun j => map (fun k => (i, j, k)) (range 0 (j + 1)))
                                (range 0 (i + 1)))
             (range 0 n).

  Definition new_fc3 (n3n : nat) (f33 : list F) : option (nat -> nat -> nat -> F) :=
    let want := n3n * (n3n + 1) * (n3n + 2) / 6 in
    let* f := trim_header want f33 in
    let* r := ofold (fun '(t, labc) '(i, j, k) =>
                       let* v := nth_error f labc in
                       Some (fc3_write t i j k v, labc + 1))
                    (tri_indices n3n) (fun _ _ _ => nz 0, 0) in
    Some (fst r).

  (** load.rs:455-504 [new_fc4]; the 24 assignments in source order *)
  Definition fc4_write (f : nat -> nat -> nat -> nat -> F) (i j k l : nat) (v : F) :=
    fold_left (fun f '(a, b, c, d) => upd4 f a b c d v)
      [(i, j, k, l); (i, j, l, k); (i, k, j, l); (i, k, l, j);
       (i, l, j, k); (i, l, k, j); (j, i, k, l); (j, i, l, k);
       (j, k, i, l); (j, k, l, i); (j, l, i, k); (j, l, k, i);
       (k, i, j, l); (k, i, l, j); (k, j, i, l); (k, j, l, i);
       (k, l, i, j); (k, l, j, i); (l, i, j, k); (l, i, k, j);
       (l, j, i, k); (l, j, k, i); (l, k, i, j); (l, k, j, i)] f.

  Definition tetra_indices (n : nat) : list (nat * nat * nat * nat) :=
    flat_map (fun i =>
      flat_map (fun j =>
        flat_map (fun k => map (fun l => (i, j, k, l)) (range 0 (k + 1)))
                 (range 0 (j + 1)))
               (range 0 (i + 1)))
      (range 0 n).

  Definition new_fc4 (n3n : nat) (f44 : list F)
    : option (nat -> nat -> nat -> nat -> F) :=
    let want := n3n * (n3n + 1) * (n3n + 2) * (n3n + 3) / 24 in
    let* f := trim_header want f44 in
    let* r := ofold (fun '(t, mabc) '(i, j, k, l) =>
                       let* v := nth_error f mabc in
                       Some (fc4_write t i j k l v, mabc + 1))
                    (tetra_indices n3n) (fun _ _ _ _ => nz 0, 0) in
    Some (fst r).

  (** load.rs:380-400 [load_fc2], after the file has been parsed into numbers.
      [Dmat::from_iterator] fills column by column, [Dmat::from_row_slice] row by
      row.  The result is an [n3n] by [n3n] matrix; [None] outside. *)
  Definition mat_from_iterator (r c : nat) (l : list F) (i j : nat) : option F :=
    if (i <? r) && (j <? c) then nth_error l (j * r + i) else None.
  Definition mat_from_row_slice (r c : nat) (l : list F) (i j : nat) : option F :=
    if (i <? r) && (j <? c) then nth_error l (i * c + j) else None.

  Definition load_fc2 (n3n : nat) (data : list F)
    : option (nat -> nat -> option F) :=
    let dl := length data in
    if dl =? n3n * n3n then Some (mat_from_iterator n3n n3n data)
    else if (2 <=? dl) && (dl - 2 =? n3n * n3n)
         then Some (mat_from_row_slice n3n n3n (skipn 2 data))
         else None.
End Load.

(** [slice::chunks(n)]; the fuel is the length of the slice.  Rust panics for
    [n = 0]; see [to_vec]. *)
Fixpoint chunks {A} (fuel n : nat) (l : list A) : list (list A) :=
  match fuel, l with
  | _, [] => []
  | O, _ => []
  | S f, _ => firstn n l :: chunks f n (skipn n l)
  end.

(** run.rs:357-363 [to_vec]: the matrix storage [st] is column major (nalgebra); a
    non-square shape fails the assertion, and [chunks(0)] panics. *)
Definition to_vec {A} (r c : nat) (st : list A) : option (list (list A)) :=
  if negb (r =? c) then None
  else if r =? 0 then None
  else Some (chunks (length st) r st).

(** load.rs:237-245: sizes derived from the number of atoms.  [n3n - 6] panics in
    debug builds when it underflows (a single atom). *)
Record sizes := {
  sz_n3n : nat; sz_i3n3n : nat; sz_i4n3n : nat; sz_nvib : nat;
  sz_i2vib : nat; sz_i3vib : nat; sz_i4vib : nat }.
Definition make_sizes (natoms : nat) (linear : bool) : option sizes :=
  let n3n := 3 * natoms in
  if n3n <? 6 then None
  else
    let nvib := n3n - 6 + (if linear then 1 else 0) in
    Some {| sz_n3n := n3n;
            sz_i3n3n := n3n * (n3n + 1) * (n3n + 2) / 6;
            sz_i4n3n := n3n * (n3n + 1) * (n3n + 2) * (n3n + 3) / 24;
            sz_nvib := nvib;
            sz_i2vib := ioff (nvib + 1);
            sz_i3vib := nvib * (nvib + 1) * (nvib + 2) / 6;
            sz_i4vib := nvib * (nvib + 1) * (nvib + 2) * (nvib + 3) / 24 |}.
