(** Model of the transformations of the force constants: rotation to the principal axes,
    the secular matrix and its eigenpairs, wavenumbers, and the change to normal
    coordinates.

    Matrices and tensors are functions of their indices.  The sums of a matrix product are
    taken in ascending order of the inner index; nalgebra may group them differently. *)
From Coq Require Import List ZArith Arith Bool.
From Verif Require Import Num Loops Index Anharm.
Import ListNotations.

Section Transform.
  Context {F : Type} `{Num F}.
  Local Open Scope num_scope.

  (** product of matrices whose common dimension is [n] *)
  Definition mm (n : nat) (a b : nat -> nat -> F) : nat -> nat -> F :=
    fun i j => nsum (range 0 n) (fun k => a i k * b k j).
  Definition tr (a : nat -> nat -> F) : nat -> nat -> F := fun i j => a j i.

  (** consts.rs:13-19, 26-42, 61-70.  [PI] is the double nearest to pi, here its decimal
      digits as in core::f64::consts. *)
  Definition PI64 : F := nlit 314159265358979323846264338327950288 100000000000000000000000000000000000.
  Definition HE : F := nlit 4359813653 1000000000.
  Definition A0 : F := nlit 52917706 100000000.
  Definition FACT2 : F := HE / (A0 * A0).
  Definition FUNIT3 : F := HE / (A0 * A0 * A0).
  Definition FUNIT4 : F := HE / (A0 * A0 * A0 * A0).
  Definition CL : F := nlit 299792458 100000000.
  Definition PH : F := nlit 6626176 1000000.
  Definition AVN : F := nlit 6022045 1000000.
  Definition ALAM : F := nlit 4 100 * (PI64 * PI64 * CL) / (PH * AVN).
  Definition SQLAM3 : F := nlit 1722212503791076 10000000000000000.
  Definition FACT3 : F := nz 1000000 / (SQLAM3 * SQLAM3 * SQLAM3 * PH * CL).
  Definition FACT4 : F := nz 1000000 / (ALAM * ALAM * PH * CL).
  Definition SQRT_AVN : F := nlit 2453985533779692 1000000000000000.
  Definition WAVE : F := nz 10000 * SQRT_AVN / (nz 2 * PI64 * CL).

  (** ** rotation to the principal axes *)

  (** the 3x3 block of a matrix that starts at (ia, ib), and its replacement *)
  Definition block (f : nat -> nat -> F) (ia ib : nat) : nat -> nat -> F :=
    fun a b => f (ia + a)%nat (ib + b)%nat.
  Definition set_block (f : nat -> nat -> F) (ia ib : nat) (t : nat -> nat -> F)
    : nat -> nat -> F :=
    fun a b =>
      if ((ia <=? a) && (a <? ia + 3) && (ib <=? b) && (b <? ib + 3))%nat
      then t (a - ia)%nat (b - ib)%nat else f a b.

  (** [axes.transpose() * a * axes] *)
  Definition turn (axes a : nat -> nat -> F) : nat -> nat -> F :=
    mm 3 (mm 3 (tr axes) a) axes.

  (** lib.rs:361-376 [rot2nd]; [(0..3 * natom).step_by(3)] is 0, 3, .., 3 natom - 3 *)
  Definition rot2nd (natom : nat) (axes fx : nat -> nat -> F) : nat -> nat -> F :=
    fold_left (fun ret ia =>
      fold_left (fun ret ib =>
        set_block ret ia ib (turn axes (block fx ia ib)))
      (map (fun q => 3 * q)%nat (range 0 natom)) ret)
    (map (fun q => 3 * q)%nat (range 0 natom)) (fun _ _ => nz 0).

  (** lib.rs:380-423 [rot3rd].  First the blocks of the first two indices ... *)
  Definition rot3rd_12 (natom n3n : nat) (axes : nat -> nat -> F)
    (f : nat -> nat -> nat -> F) : nat -> nat -> nat -> F :=
    fold_left (fun ret i => fold_left (fun ret j => fold_left (fun ret k =>
        let ib := (j * 3)%nat in
        let ic := (k * 3)%nat in
        let t := turn axes (block (fun a b => f a b i) ib ic) in
        fun a b c => if Nat.eqb c i then set_block (fun a b => ret a b i) ib ic t a b
                     else ret a b c)
      (range 0 natom) ret) (range 0 natom) ret) (range 0 n3n)
      (fun _ _ _ => nz 0).
  (** ... then the third, in place *)
  Definition rot3rd (natom n3n : nat) (axes : nat -> nat -> F)
    (f : nat -> nat -> nat -> F) : nat -> nat -> nat -> F :=
    fold_left (fun ret j => fold_left (fun ret k => fold_left (fun ret i =>
        let ia := (i * 3)%nat in
        let val := map (fun ii =>
          ret j k ia * axes 0%nat ii + ret j k (ia + 1)%nat * axes 1%nat ii
          + ret j k (ia + 2)%nat * axes 2%nat ii) (range 0 3) in
        fold_left (fun r ii => upd3 r j k (ia + ii) (nth ii val (nz 0))) (range 0 3) ret)
      (range 0 natom) ret) (range 0 n3n) ret) (range 0 n3n)
      (rot3rd_12 natom n3n axes f).

  (** lib.rs:428-478 [rot4th]: the blocks of the last two indices, then of the first two,
      in place *)
  Definition rot4th_34 (natom n3n : nat) (axes : nat -> nat -> F)
    (f : nat -> nat -> nat -> nat -> F) : nat -> nat -> nat -> nat -> F :=
    fold_left (fun ret i => fold_left (fun ret j => fold_left (fun ret k => fold_left (fun ret l =>
        let ic := (k * 3)%nat in
        let id := (l * 3)%nat in
        let t := turn axes (block (f i j) ic id) in
        fun a b c d => if (Nat.eqb a i && Nat.eqb b j) then set_block (ret i j) ic id t c d
                       else ret a b c d)
      (range 0 natom) ret) (range 0 natom) ret) (range 0 n3n) ret) (range 0 n3n)
      (fun _ _ _ _ => nz 0).
  Definition rot4th (natom n3n : nat) (axes : nat -> nat -> F)
    (f : nat -> nat -> nat -> nat -> F) : nat -> nat -> nat -> nat -> F :=
    fold_left (fun ret k => fold_left (fun ret l => fold_left (fun ret i => fold_left (fun ret j =>
        let ia := (i * 3)%nat in
        let ib := (j * 3)%nat in
        let t := turn axes (block (fun a b => ret a b k l) ia ib) in
        fun a b c d => if (Nat.eqb c k && Nat.eqb d l)
                       then set_block (fun a b => ret a b k l) ia ib t a b
                       else ret a b c d)
      (range 0 natom) ret) (range 0 natom) ret) (range 0 n3n) ret) (range 0 n3n)
      (rot4th_34 natom n3n axes f).

  (** ** secular matrix, eigenpairs and wavenumbers *)

  (** lib.rs:277-287 [form_sec]; the last step copies the upper triangle to the lower *)
  Definition form_sec (n3n : nat) (fx : nat -> nat -> F) (sqm : nat -> F) : nat -> nat -> F :=
    let fx := fold_left (fun fx i => fold_left (fun fx j =>
        upd2 fx i j (sqm (i / 3)%nat * fx i j * sqm (j / 3)%nat))
      (range i n3n) fx) (range 0 n3n) fx in
    fun a b => if (b <? a)%nat then fx b a else fx a b.

  (** run.rs:186 *)
  Definition make_sqm (w : nat -> F) : nat -> F := fun i => nz 1 / nsqrt (w i).

  (** lib.rs:329-338 [make_lx] *)
  Definition make_lx (n3n : nat) (sqm : nat -> F) (lxm : nat -> nat -> F) : nat -> nat -> F :=
    fold_left (fun lx i => fold_left (fun lx j =>
        upd2 lx i j (sqm (i / 3)%nat * lxm i j)) (range 0 n3n) lx) (range 0 n3n)
      (fun _ _ => nz 0).

  (** utils/linalg.rs:12-35 [symm_eigen_decomp] after the call of the eigensolver, whose
      result [vals], [vecs] is an argument.  The pairs (position, value) are sorted by
      value with a stable sort; two values that do not compare count as equal.  Rust's
      merge sort and this insertion sort agree when the order is total, that is, when no
      value is NaN; otherwise Rust leaves the order unspecified. *)
  Definition before (reverse : bool) (a b : F) : bool := if reverse then b <? a else a <? b.
  Fixpoint insert_pair (reverse : bool) (p : nat * F) (l : list (nat * F)) : list (nat * F) :=
    match l with
    | [] => [p]
    | q :: t => if before reverse (snd q) (snd p) then q :: insert_pair reverse p t
                else p :: q :: t
    end.
  Definition sort_pairs (reverse : bool) (l : list (nat * F)) : list (nat * F) :=
    fold_right (insert_pair reverse) [] l.
  (** returns [None] when there are fewer values than columns ([pairs[i]] out of range) *)
  Definition sort_eigen (vals : list F) (vecs : nat -> nat -> F) (cols : nat) (reverse : bool)
    : option (list F * (nat -> nat -> F)) :=
    let pairs := sort_pairs reverse (combine (range 0 (length vals)) vals) in
    let* ret := ofold (fun ret i =>
        let* p := nth_error pairs i in
        Some (fun a b => if Nat.eqb b i then vecs a (fst p) else ret a b))
      (range 0 cols) (fun _ _ => nz 0) in
    Some (map snd pairs, ret).

  (** utils.rs:134-145 [to_wavenumbers], one entry *)
  Definition to_wavenumber (f : F) : F :=
    if f <? nz 0 then - nz 1 * WAVE * nsqrt (- f) else WAVE * nsqrt f.

  (** run.rs:178-187: the matrix given to the eigensolver *)
  Definition secular (natom : nat) (axes fc2 : nat -> nat -> F) (w : nat -> F) : nat -> nat -> F :=
    let fc2 := rot2nd natom axes fc2 in
    let fc2 := fun a b => FACT2 * fc2 a b in
    form_sec (3 * natom) fc2 (make_sqm w).
  (** run.rs:188-189: frequencies and modes.  [eig] is the eigensolver. *)
  Definition harmonic (natom : nat) (axes fc2 : nat -> nat -> F) (w : nat -> F)
    (eig : (nat -> nat -> F) -> list F * (nat -> nat -> F)) : option (list F * (nat -> nat -> F)) :=
    let '(vals, vecs) := eig (secular natom axes fc2 w) in
    let* (harms, lxm) := sort_eigen vals vecs (3 * natom) true in
    Some (map to_wavenumber harms, lxm).
  (** run.rs:202: the frequencies reported by a harmonic run *)
  Definition reported_harms (nvib : nat) (freq : list F) : option (list F) :=
    if (length freq <? nvib)%nat then None else Some (firstn nvib freq).

  (** ** normal coordinates *)

  (** utils.rs:165-198 [force3].  [submatrix] and [set_submatrix] (crate tensor) address
      one slab, of the third index, stored by columns: their end point (n3n, n3n - 1) is
      the element after the last one only in that order.  [from_row_slice] therefore
      reads the transposed slab and [set_submatrix] stores the product as it is. *)
  Definition slab3 (n3n : nat) (lx : nat -> nat -> F) (f : nat -> nat -> F) : nat -> nat -> F :=
    mm n3n (mm n3n (tr lx) (fun a b => f b a * FUNIT3)) lx.
  Definition force3 (n3n : nat) (f3x : nat -> nat -> nat -> F) (lx : nat -> nat -> F)
    (nvib : nat) (freq : nat -> F) : option (list F) :=
    let f3x := fold_left (fun f kabc =>
        let ee := slab3 n3n lx (fun a b => f a b kabc) in
        fun a b c => if Nat.eqb c kabc then ee a b else f a b c) (range 0 n3n) f3x in
    (* [nvib - 1] *)
    if Nat.eqb nvib 0 then None else
    Some (collect (range 0 nvib) (fun i => collect (range 0 (i + 1)) (fun j =>
      collect (range 0 (j + 1)) (fun k =>
        let wijk := freq i * freq j * freq k in
        let fact := FACT3 / nsqrt wijk in
        let val := nsum (range 0 n3n) (fun l => f3x i j l * lx l k) in
        [val * fact])))).

  (** utils.rs:202-258 [force4], with the same reading of the slabs *)
  Definition slab4 (n3n : nat) (lx : nat -> nat -> F) (f : nat -> nat -> F) : nat -> nat -> F :=
    mm n3n (mm n3n (tr lx) (fun a b => f b a * FUNIT4)) lx.
  Definition f4q_of (n3n : nat) (f4x : nat -> nat -> nat -> nat -> F) (lx : nat -> nat -> F)
    : nat -> nat -> nat -> nat -> F :=
    fold_left (fun q kabc => fold_left (fun q labc =>
        let ee := slab4 n3n lx (fun a b => f4x a b kabc labc) in
        fun a b c d => if (Nat.eqb c kabc && Nat.eqb d labc) then ee a b else q a b c d)
      (range 0 n3n) q) (range 0 n3n) (fun _ _ _ _ => nz 0).
  Definition force4 (n3n : nat) (f4x : nat -> nat -> nat -> nat -> F) (lx : nat -> nat -> F)
    (nvib : nat) (freq : nat -> F) : option (list F) :=
    let f4q := f4q_of n3n f4x lx in
    if Nat.eqb nvib 0 then None else
    let n := (nvib - 1)%nat in
    ofold (fun v i => ofold (fun v j =>
        let dd := f4q i j in
        let ee := mm n3n (mm n3n (tr lx) dd) lx in
        ofold (fun v k => ofold (fun v l =>
            let wijkl := freq i * freq j * freq k * freq l in
            let fact := FACT4 / nsqrt wijkl in
            f4qcm_set v k l i j (ee k l * fact))
          (range 0 (k + 1)) v) (range 0 nvib) v)
      (range 0 (i + 1)) v) (range 0 nvib) (repeat (nz 0) (find4 n n n n + 1)).
End Transform.
