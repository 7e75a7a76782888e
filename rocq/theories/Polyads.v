(** Model of spectro/src/polyads.rs: resonance polyads of asymmetric tops (compiled with the
    feature [polyad] only). *)
From Coq Require Import List ZArith Arith Bool.
From Verif Require Import Num Loops Modes Anharm.
Import ListNotations.
Local Open Scope num_scope.

(** polyads.rs:507-525 [Sign] *)
Inductive sign := Plus (i : nat) | Minus (i : nat).
Definition sg_abs (s : sign) : nat := match s with Plus n | Minus n => n end.
Definition sg_num (s : sign) : Z := match s with Plus _ => 1%Z | Minus _ => (-1)%Z end.

(** polyads.rs:592-621 [make_resin]: the vectors put into the hash set, in order of
    insertion; the rows of the result are the members of the set in an unspecified order *)
Definition resin_inserts (n : nat) (fermi1 : list (nat * nat)) (fermi2 : list (nat * nat * nat))
  : option (list (list nat)) :=
  let* a := ofold (fun acc '(i, j) =>
      let* t1 := set_nth (repeat 0%nat n) i 2%nat in
      let* t2 := set_nth (repeat 0%nat n) j 1%nat in
      Some (acc ++ [t1; t2])) fermi1 [] in
  ofold (fun acc '(i, j, k) =>
      let* t1 := set_nth (repeat 0%nat n) i 1%nat in
      let* t1 := set_nth t1 j 1%nat in
      let* t2 := set_nth (repeat 0%nat n) k 1%nat in
      Some (acc ++ [t1; t2])) fermi2 a.

(** one mode whose quantum numbers differ: index, right minus left, smaller of the two;
    polyads.rs:131-153 keeps these in the vectors indx, ndiff, nmin *)
Record diff := mk_diff { df_idx : nat; df_d : Z; df_min : nat }.

(** polyads.rs:127-154: the comparison of two states, [iirst mode state]; None is the early
    return of 0, otherwise ndelta, ndel and the differing modes ([idiff] is their number) *)
Definition scan_step (iirst : nat -> nat -> nat) (istate jstate : nat)
  (acc : option (Z * Z * list diff)) (i : nat) : option (Z * Z * list diff) :=
  match acc with
  | None => None
  | Some (ndelta, ndel, l) =>
      let nnleft := iirst i istate in
      let nnright := iirst i jstate in
      let ndiffer := (Z.of_nat nnright - Z.of_nat nnleft)%Z in
      if (ndiffer =? 0)%Z then Some (ndelta, ndel, l) else
      let ndelta := (ndelta + Z.abs ndiffer)%Z in
      let ndel := (ndel + ndiffer)%Z in
      let l := l ++ [mk_diff i ndiffer (Nat.min nnleft nnright)] in
      if (4 <? length l)%nat || (4 <? ndelta)%Z then None else Some (ndelta, ndel, l)
  end.
Definition scan (n1dm : nat) (iirst : nat -> nat -> nat) (istate jstate : nat)
  : option (Z * Z * list diff) :=
  fold_left (scan_step iirst istate jstate) (range 0 n1dm) (Some (0%Z, 0%Z, [])).

Section Polyads.
  Context {F : Type} `{Num F}.
  Variables (freq : nat -> F).

  (** polyads.rs:532-557 [Denom::denom] *)
  Definition denom (dnm : nat -> nat -> nat -> F) (is js ks : sign) : F :=
    let i := sg_abs is in
    let j := sg_abs js in
    let k := sg_abs ks in
    let isign := sg_num is in
    let jsign := sg_num js in
    let ksign := sg_num ks in
    let iglobsgn := (isign * jsign * ksign)%Z in
    let inneg := Z.quot (3 - isign - jsign - ksign) 2 in
    let isign := (isign * iglobsgn)%Z in
    let jsign := (jsign * iglobsgn)%Z in
    if (inneg =? 0)%Z || (inneg =? 3)%Z then
      nz 1 / (freq i + freq j + freq k) * nz iglobsgn
    else if (0 <? isign)%Z then dnm i j k * nz iglobsgn
    else if (0 <? jsign)%Z then dnm j i k * nz iglobsgn
    else dnm k i j * nz iglobsgn.

  (** polyads.rs:562-587 [init_res_denom]; every element with indices below n is set by the
      first loop *)
  Definition init_res_denom (fermi1 : list (nat * nat)) (fermi2 : list (nat * nat * nat))
    : nat -> nat -> nat -> F :=
    let dnom := fun i j k => nz 1 / (freq i - freq j - freq k) in
    let dnom := fold_left (fun d '(i, j) => upd3 d j i i (nz 0)) fermi1 dnom in
    fold_left (fun d '(j, k, i) => upd3 (upd3 d i j k (nz 0)) i k j (nz 0)) fermi2 dnom.

  Variables (zmat : nat -> nat -> nat -> F) (f3 : nat -> nat -> nat -> F)
    (f4 : nat -> nat -> nat -> nat -> F) (rotcon : nat -> F) (i1mode : list nat)
    (dnm : nat -> nat -> nat -> F).

  Definition mode_at (ii : nat) : nat := nth ii i1mode 0%nat.
  Definition over (f : nat -> F) : F := acc_add (range 0 (length i1mode)) (fun mm => f (mode_at mm)) (nz 0).
  Definition over_sub (f : nat -> F) : F := acc_sub (range 0 (length i1mode)) (fun mm => f (mode_at mm)) (nz 0).
  Definition cor (a b c d : nat) : F :=
    rotcon 0 * zmat a b 0%nat * zmat c d 0%nat + rotcon 1 * zmat a b 1%nat * zmat c d 1%nat
    + rotcon 2 * zmat a b 2%nat * zmat c d 2%nat.
  Notation den := (denom dnm).

  (** polyads.rs:358-390, case 1 *)
  Definition res2a_aabb (i j : nat) : F :=
    let val1 := f4 i i j j / nz 4 in
    let val2 := cor i j i j in
    let val2 := - val2 * nsq (freq i + freq j) / (freq i * freq j) in
    let val3 := over (fun k =>
      f3 i i k * f3 j j k * nlit 1 8
      * (den (Minus i) (Minus i) (Minus k) + den (Plus i) (Plus i) (Minus k)
         + den (Minus j) (Minus j) (Minus k) + den (Plus j) (Plus j) (Minus k))
      * nlit 1 2) in
    let val4 := over (fun k =>
      - nlit 1 2 * nsq (f3 i j k)
      * (den (Plus i) (Minus j) (Minus k) + den (Minus i) (Plus j) (Minus k))
      * - nlit 1 2) in
    val1 + val2 + val3 + val4.
  (** polyads.rs:391-419, case 2; val3 and val4 are independent sums, val2 stays 0 *)
  Definition res2a_aaab (i j : nat) : F :=
    let val1 := f4 i i i j / nz 2 in
    let val3 := over_sub (fun k =>
      let temp := - nlit 1 2 * (- nz 4 / freq k + den (Plus i) (Plus i) (Minus k)
                                + den (Minus i) (Minus i) (Minus k)) in
      nlit 1 4 * f3 i i k * f3 i j k * temp) in
    let val4 := over_sub (fun k =>
      let temp := - nlit 1 2 * (nz 2 * (den (Plus i) (Minus j) (Minus k) + den (Minus i) (Plus j) (Minus k))
                                + den (Plus i) (Plus j) (Minus k) + den (Minus i) (Minus j) (Minus k)) in
      nlit 1 4 * f3 i i k * f3 i j k * temp) in
    val1 + nz 0 + val3 + val4.
  (** polyads.rs:420-456, case 3 *)
  Definition res2a_acbc (i k j : nat) : F :=
    let val1 := f4 i k j k / nz 2 in
    let val2 := cor i k j k in
    let val2 := nz 2 * val2 * (freq i * freq j + nsq (freq k)) / (freq k * nsqrt (freq i * freq j)) in
    let val3 := over_sub (fun l =>
      let temp := nz 1 / freq l
        - nlit 1 2 * (den (Plus i) (Minus j) (Minus l) + den (Minus i) (Plus j) (Minus l)) in
      nlit 1 4 * f3 i j l * f3 k k l * temp) in
    let val4 := over_sub (fun l =>
      let temp := - nlit 1 4
        * ((den (Plus i) (Plus k) (Minus l) + den (Plus i) (Minus k) (Minus l)
            + den (Minus i) (Plus k) (Minus l) + den (Minus i) (Minus k) (Minus l))
           + (den (Plus j) (Plus k) (Minus l) + den (Plus j) (Minus k) (Minus l)
              + den (Minus j) (Plus k) (Minus l) + den (Minus j) (Minus k) (Minus l))) in
      nlit 1 2 * f3 i k l * f3 j k l * temp) in
    val1 + val2 + val3 + val4.
  (** polyads.rs:457-499, case 4 *)
  Definition res2a_aabc (i j k : nat) : F :=
    let val1 := nlit 1 2 * f4 i i j k in
    let val2 := cor i j i k in
    let val2 := - nz 2 * val2 * (freq i + freq j) * (freq i + freq k) / (freq i * nsqrt (freq j * freq k)) in
    let val3 := over_sub (fun l =>
      let temp1 := - nlit 1 2 * (den (Plus j) (Plus k) (Minus l) + den (Minus j) (Minus k) (Minus l)) in
      let temp2 := - nlit 1 2 * (den (Plus i) (Plus i) (Minus l) + den (Minus i) (Minus i) (Minus l)) in
      f3 i i l * f3 j k l * (temp1 + temp2) * nlit 1 4) in
    let val4 := over_sub (fun l =>
      let temp := - nlit 1 2
        * ((den (Plus i) (Minus k) (Minus l) + den (Minus i) (Plus k) (Minus l))
           + (den (Plus i) (Minus j) (Minus l) + den (Minus i) (Plus j) (Minus l))) in
      nlit 1 2 * f3 i j l * f3 i k l * temp) in
    val1 + val2 + val3 + val4.
  (** polyads.rs:341-505 [res2a]; None is the todo!() of case 5 *)
  Definition res2a (ii jj kk ll : nat) : option F :=
    if (ii =? jj)%nat && (kk =? ll)%nat then
      Some (res2a_aabb (mode_at ii) (mode_at kk))
    else if (ii =? jj)%nat && (ii =? kk)%nat then
      Some (res2a_aaab (mode_at ii) (mode_at ll))
    else if (jj =? ll)%nat && negb (ii =? kk)%nat && negb (ii =? jj)%nat then
      Some (res2a_acbc (mode_at ii) (mode_at jj) (mode_at kk))
    else if (ii =? jj)%nat && negb (ii =? kk)%nat && negb (kk =? ll)%nat then
      Some (res2a_aabc (mode_at ii) (mode_at kk) (mode_at ll))
    else None.

  (** polyads.rs:186-196: exchanges the entry with |ndiff| = 2 and the first one in nmin and indx *)
  Definition sort2a (a b c : diff) : diff * diff * diff :=
    let '(a', b') := if (Z.abs (df_d b) =? 2)%Z then (b, a) else (a, b) in
    if (Z.abs (df_d c) =? 2)%Z then (c, b', a') else (a', b', c).

  (** polyads.rs:115-334 [genrsa]; None is a panic (todo!); products of quantum numbers are
      taken without overflow; the two messages of the early return are not modelled *)
  Definition genrsa (n1dm : nat) (iirst : nat -> nat -> nat) (istate jstate : nat) : option F :=
    match scan n1dm iirst istate jstate with
    | None => Some (nz 0)
    | Some (ndelta, ndel, l) =>
      match l with
      | [a; b; c; d] =>
          if (ndel =? 0)%Z then
            let* v := res2a (df_idx a) (df_idx b) (df_idx c) (df_idx d) in
            Some (v * nsqrt (nnat ((df_min a + 1) * (df_min b + 1) * (df_min c + 1) * (df_min d + 1)) / nz 16))
          else None
      | [a; b; c] =>
          if (ndelta =? 4)%Z then
            if (ndel =? 0)%Z then
              let '(a, b, c) := sort2a a b c in
              let* v := res2a (df_idx a) (df_idx a) (df_idx b) (df_idx c) in
              Some (v * nsqrt (nnat ((df_min a + 1) * (df_min a + 2) * (df_min b + 1) * (df_min c + 1)) / nz 16))
            else None
          else if (ndelta =? 3)%Z then
            let ii := df_idx a in
            let jj := df_idx b in
            let kk := df_idx c in
            if neqb (dnm ii jj kk) (nz 0) || neqb (dnm jj kk ii) (nz 0) || neqb (dnm kk ii jj) (nz 0) then
              Some (f3 ii jj kk * nsqrt (nnat ((df_min a + 1) * (df_min b + 1) * (df_min c + 1)) / nz 8))
            else Some (nz 0)
          else None
      | [a; b] =>
          let ii := df_idx a in
          let jj := df_idx b in
          let na := df_min a in
          let nb := df_min b in
          if (ndelta =? 4)%Z then
            if (ndel =? 0)%Z then
              let* v := res2a ii ii jj jj in
              Some (v * nsqrt (nnat ((na + 1) * (na + 2) * (nb + 1) * (nb + 2)) / nz 16))
            else None
          else if (ndelta =? 3)%Z then
            if (Z.abs (df_d a) =? 2)%Z then
              if neqb (dnm jj ii ii) (nz 0) then
                Some (nlit 1 2 * f3 ii ii jj * nsqrt (nnat ((na + 1) * (na + 2) * (nb + 1)) / nz 8))
              else Some (nz 0)
            else if neqb (dnm ii jj jj) (nz 0) then
              Some (nlit 1 2 * f3 ii jj jj * nsqrt (nnat ((nb + 1) * (nb + 2) * (na + 1)) / nz 8))
            else Some (nz 0)
          else if (ndelta =? 2)%Z then
            let* v1 := res2a ii ii ii jj in
            let val1 := v1 * nsqrt (nnat (Nat.pow (na + 1) 3 * (nb + 1)) / nz 16) in
            let* v2 := res2a jj jj jj ii in
            let val2 := v2 * nsqrt (nnat (Nat.pow (nb + 1) 3 * (na + 1)) / nz 16) in
            let* val3 := ofold (fun val3 k =>
              if negb (k =? ii)%nat && negb (k =? jj)%nat then
                let nk1 := iirst k istate in
                let nk2 := iirst k jstate in
                if negb (nk1 =? nk2)%nat then None else
                let* v := res2a ii k jj k in
                Some (val3 + nz 2 * v
                      * nsqrt (nnat ((na + 1) * (nb + 1)) * nsq (nnat nk1 + nlit 1 2) / nz 16))
              else Some val3) (range 0 n1dm) (nz 0) in
            Some (val1 + val2 + val3)
          else Some (nz 0)
      | _ => Some (nz 0)
      end
    end.

  (** polyads.rs:68-81: energy of a state from the constants, with the zero point energy of
      polyads.rs:34-42 subtracted; [q ii] is the quantum number of mode [i1mode[ii]] *)
  Variables (e0 : F) (xcnst : nat -> nat -> F).
  Definition polyad_zpe : F :=
    fold_left (fun zpe ii =>
        let i := mode_at ii in
        acc_add (range 0 (ii + 1)) (fun jj => xcnst i (mode_at jj) * nlit 1 4) (zpe + freq i * nlit 1 2))
      (range 0 (length i1mode)) e0.
  Definition polyad_energy (q : nat -> nat) : F :=
    let e := fold_left (fun e ii =>
        let i := mode_at ii in
        acc_add (range 0 (ii + 1)) (fun jj =>
            xcnst i (mode_at jj) * (nnat (q ii) + nlit 1 2) * (nnat (q jj) + nlit 1 2))
          (e + freq i * (nnat (q ii) + nlit 1 2)))
      (range 0 (length i1mode)) e0 in
    e - polyad_zpe.

  (** polyads.rs:88-101: the resonance matrix; only the lower triangle is filled.  None is a
      panic.  The result is given row by row, each row up to the diagonal. *)
  Definition resmat (nreson : nat) (iirst : nat -> nat -> nat) : option (list (list F)) :=
    ofold (fun rows i =>
      let* row := ofold (fun row j =>
          if (j =? i)%nat then Some (row ++ [polyad_energy (fun ii => iirst ii i)]) else
          let* v := genrsa (length i1mode) iirst i j in Some (row ++ [v]))
        (range 0 (i + 1)) [] in
      Some (rows ++ [row])) (range 0 nreson) [].
End Polyads.

(** polyads.rs:50-62: the states, one row per state as written in the source; the matrix is
    transposed before use *)
Definition fixed_states : list (list nat) :=
  [[0; 0; 1; 0; 0; 0; 0; 0; 0; 0; 0; 0];
   [0; 0; 0; 0; 1; 0; 0; 0; 0; 0; 0; 0];
   [0; 0; 0; 1; 0; 0; 0; 0; 0; 0; 0; 0];
   [0; 0; 0; 0; 1; 1; 0; 0; 0; 0; 0; 0];
   [0; 0; 0; 0; 1; 0; 1; 0; 0; 0; 0; 0];
   [0; 0; 0; 0; 2; 0; 0; 0; 0; 0; 0; 0];
   [0; 0; 0; 0; 0; 0; 0; 0; 0; 0; 0; 2]]%nat.
Definition fixed_iirst (mode state : nat) : nat := nth mode (nth state fixed_states []) 0%nat.

(** polyads.rs:17-110 [resona] up to the construction of the resonance matrix, for an
    asymmetric top; None if [iirst] is indexed outside its 12 rows (polyads.rs:71) or a
    coupling panics.  The caller's vector eng has an element for every vibrational state and
    is long enough whenever there are three modes or more. *)
Definition resona {F} `{Num F} (zmat f3 : nat -> nat -> nat -> F) (f4 : nat -> nat -> nat -> nat -> F)
  (e0 : F) (modes : list mode) (freq : nat -> F) (rotcon : nat -> F) (xcnst : nat -> nat -> F)
  (fermi1 : list (nat * nat)) (fermi2 : list (nat * nat * nat)) : option (list (list F)) :=
  let i1 := i1mode modes in
  let dnm := init_res_denom freq fermi1 fermi2 in
  if (12 <? length i1)%nat then None else
  resmat freq zmat f3 f4 rotcon i1 dnm e0 xcnst (length fixed_states) fixed_iirst.
