(** Orientation of symmetric tops, alignment of degenerate modes and symmetry labels
    (load.rs, lib.rs, run.rs). *)
From Coq Require Import List Arith Bool ZArith Reals.
From Verif Require Import Num Loops Modes Transform.
Import ListNotations.

(** the trigonometric operations the program uses; operations only, no laws *)
Class Trig (F : Type) := MkTrig {
  natan : F -> F; ncos : F -> F; nsin : F -> F;
  npi : F                                            (** std::f64::consts::PI *)
}.
#[global] Instance Rtrig : Trig R := {| natan := atan; ncos := cos; nsin := sin; npi := PI |}.

(** ** the atom that fixes the orientation *)

(** symm::Axis; [v[axis as usize]] reads the coordinates in the order x, y, z *)
Inductive axis := AX | AY | AZ.
Definition axis_eqb (a b : axis) : bool :=
  match a, b with AX, AX => true | AY, AY => true | AZ, AZ => true | _, _ => false end.
(** symm::Plane: the two axes in the plane *)
Definition plane : Type := axis * axis.
(** [Plane::perp] (crate symm): the axis not in the plane *)
Definition perp (p : plane) : option axis :=
  match p with
  | (AX, AY) | (AY, AX) => Some AZ
  | (AX, AZ) | (AZ, AX) => Some AY
  | (AY, AZ) | (AZ, AY) => Some AX
  | _ => None
  end.
(** [plane ^ axis] (crate symm): the other axis of the plane *)
Definition xor_axis (p : plane) (a : axis) : option axis :=
  if axis_eqb (fst p) a then Some (snd p) else if axis_eqb (snd p) a then Some (fst p) else None.
(** [Axis::not] (crate symm): the other two axes *)
Definition not_axis (a : axis) : axis * axis :=
  match a with AX => (AY, AZ) | AY => (AX, AZ) | AZ => (AX, AY) end.

(** symm::PointGroup: the groups [make_iatl] knows, with the data it reads *)
Inductive group :=
| C2h (a : axis) | C3 (a : axis)
| C2v (a : axis) (plane0 : plane) | C3v (a : axis) (p : plane) | C5v (a : axis) (p : plane)
| C6h (c6 : axis) (sh : plane) | D2h (axis2 : axis) (plane1 : plane)
| D3h (c3 : axis) (sv : plane) | D5h (c5 : axis) (sv : plane)
| OtherGroup.

(** [Iterator::position] *)
Fixpoint position {A} (f : A -> bool) (l : list A) : option nat :=
  match l with
  | [] => None
  | a :: l' => if f a then Some 0 else option_map S (position f l')
  end.

Section Geom.
  Context {F : Type} `{Num F}.
  Local Open Scope num_scope.

  Definition vec3 : Type := F * F * F.
  Definition coord (v : vec3) (a : axis) : F :=
    let '(x, y, z) := v in match a with AX => x | AY => y | AZ => z end.

  (** load.rs:154 [TOL] *)
  Definition GTOL : F := nlit 1 1000000.

  (** load.rs:36-60 [helper], without the axis order it records *)
  Definition find_plane_atom (atoms : list vec3) (a : axis) (p : plane) : option nat :=
    let* pa := perp p in
    let* o := xor_axis p a in
    position (fun v => (nabs (coord v pa) <? GTOL) && ngtb (nabs (coord v o)) GTOL) atoms.
  (** load.rs:66-69 and load.rs:84-88 *)
  Definition find_off_axis (atoms : list vec3) (a : axis) : option nat :=
    let axes := not_axis a in
    position (fun v => ngtb (nabs (coord v (fst axes))) GTOL || ngtb (nabs (coord v (snd axes))) GTOL)
      atoms.

  (** load.rs:30-138 [make_iatl]: the atom, the order of the axis and the new value of
      [self.axis], which was [old].  [None] is a panic. *)
  Definition make_iatl (atoms : list vec3) (old : axis) (g : group) : option (nat * nat * axis) :=
    match g with
    | C2h a => let* i := find_off_axis atoms a in Some (i, 2%nat, old)
    | C3 a => let* i := find_off_axis atoms a in Some (i, 3%nat, old)
    | C2v a p => let* i := find_plane_atom atoms a p in Some (i, 2%nat, a)
    | C3v a p => let* i := find_plane_atom atoms a p in Some (i, 3%nat, a)
    | C5v a p => let* i := find_plane_atom atoms (fst p) p in Some (i, 5%nat, a)
    | C6h a p => let* i := find_plane_atom atoms (fst p) p in Some (i, 6%nat, a)
    | D2h a p => let* i := find_plane_atom atoms a p in Some (i, 2%nat, a)
    | D3h a p => let* i := find_plane_atom atoms a p in Some (i, 3%nat, a)
    | D5h a p => let* i := find_plane_atom atoms a p in Some (i, 5%nat, a)
    | OtherGroup => None
    end.

  (** ** orientation *)

  (** load.rs:202-206 *)
  Definition egr (x y : F) : nat -> nat -> F :=
    let c := nsqrt (x * x + y * y) in
    fun i j => match i, j with
    | 0, 0 => x / c | 0, 1 => - y / c
    | 1, 0 => y / c | 1, 1 => x / c
    | 2, 2 => nz 1
    | _, _ => nz 0
    end.

  (** load.rs:208-218, one atom *)
  Definition turn_atom (e : nat -> nat -> F) (v : vec3) : vec3 :=
    let '(c1, c2, c3) := v in
    (e 0 0 * c1 + e 1 0 * c2 + e 2 0 * c3,
     e 0 1 * c1 + e 1 1 * c2 + e 2 1 * c3,
     e 0 2 * c1 + e 1 2 * c2 + e 2 2 * c3).

  (** load.rs:196-224: the new atoms and axes *)
  Definition orient (iatl : nat) (atoms : list vec3) (axes : nat -> nat -> F)
    : option (list vec3 * (nat -> nat -> F)) :=
    let* a := nth_error atoms iatl in
    let '(x, y, _) := a in
    let e := egr x y in
    Some (map (turn_atom e) atoms, tr (mm 3 (tr e) (tr axes))).

  (** load.rs:237-241; [matrix.abs()] is taken entry by entry *)
  Definition fix_linear (axes : nat -> nat -> F) : nat -> nat -> F :=
    if (nabs (axes 0%nat 2%nat) =? nz 0) && (nabs (axes 1%nat 2%nat) =? nz 0)
       && (nabs (axes 2%nat 2%nat) =? nz 1)
    then fun i j => match j with
                    | 0 => if Nat.eqb i 0 then nz 1 else nz 0
                    | 1 => if Nat.eqb i 1 then nz 1 else nz 0
                    | _ => axes i j
                    end
    else axes.

  (** load.rs:161-245 [process_geom] from the normalised geometry (crate symm) on.  [sym]
      and [linear] are [rotor.is_sym_top()] and [rotor.is_linear()], [g] the point group.
      The result is the geometry, the axes and, for symmetric tops, the chosen atom, the
      axis order and the axis. *)
  Definition orient_geom (sym linear : bool) (g : group) (old : axis) (atoms : list vec3)
    (axes : nat -> nat -> F)
    : option (list vec3 * (nat -> nat -> F) * option (nat * nat * axis)) :=
    let* (atoms, axes, r) :=
      (if sym && negb linear then
         let* r := make_iatl atoms old g in
         let* (atoms, axes) := orient (fst (fst r)) atoms axes in
         Some (atoms, axes, Some r)
       else Some (atoms, axes, None)) in
    Some (atoms, if linear then fix_linear axes else axes, r).

  (** consts.rs:31 [CONST] and load.rs:169-173: rotational constants from the principal
      moments of inertia *)
  Definition ROTCONST : F := nz 100 * (PH * AVN) / (nz 8 * PI64 * PI64 * CL).
  Definition rot_const (m : F) : F := if ngtb m (nlit 1 100) then ROTCONST / m else nz 0.
End Geom.

(** ** alignment of degenerate modes *)
Section Align.
  Context {F : Type} `{Num F} `{Trig F}.
  Local Open Scope num_scope.

  (** [linear] is [rotor.is_linear()]; [buddy] is the atom the rotation by one step
      carries [iatom] to, from crate symm, [None] if there is none.  [natom] atoms,
      [n3n] = 3 [natom]; [iatom] is below [natom] (C52), so all indices are in range. *)
  Variables (linear : bool) (natom nvib iatom axis_order : nat) (buddy : option nat).
  Let n3n := (3 * natom)%nat.

  (** lib.rs:533-534, lib.rs:540 *)
  Definition align_tol : F := if linear then nz 1 else nlit 1 20.
  Definition TOLER : F := nlit 1 100000.
  Definition small (x : F) : bool := nabs x <? TOLER.

  (** lib.rs:542-564 *)
  Definition izero4 (lxm : nat -> nat -> F) (a b : nat) : bool :=
    let n1 := (3 * iatom)%nat in
    let n2 := (n1 + 1)%nat in
    small (lxm n1 a) && small (lxm n1 b) && small (lxm n2 a) && small (lxm n2 b).

  (** lib.rs:567-611: the angle; [None] for [todo!] and [panic!].  FRAC_PI_2 is exactly
      half of PI in double precision as well. *)
  Definition align_angle (lxm : nat -> nat -> F) (a b : nat) : option F :=
    let n1 := (3 * iatom)%nat in
    let n2 := (n1 + 1)%nat in
    let n3 := (n1 + 2)%nat in
    let half_pi := npi / nz 2 in
    if negb (izero4 lxm a b) then
      Some (if negb (small (lxm n1 a)) then natan (lxm n1 b / lxm n1 a)
            else if negb (small (lxm n1 b)) then half_pi
            else if negb (small (lxm n2 b)) then natan (nz (-1) * lxm n2 a / lxm n1 b)
            else half_pi)
    else if linear then None
    else if ngtb (nabs (lxm n3 b)) TOLER then Some (natan (nz (-1) * lxm n3 a / lxm n3 b))
    else if ngtb (nabs (lxm n3 a)) TOLER then Some half_pi
    else None.

  (** lib.rs:613-620 *)
  Definition rotate_pair (c s : F) (a b : nat) (lxm : nat -> nat -> F) : nat -> nat -> F :=
    fold_left (fun lxm i =>
        let temp := c * lxm i a + s * lxm i b in
        let lxm := upd2 lxm i b (c * lxm i b - s * lxm i a) in
        upd2 lxm i a temp)
      (range 0 n3n) lxm.

  (** the loops that negate a column *)
  Definition negate (b : nat) (lxm : nat -> nat -> F) : nat -> nat -> F :=
    fold_left (fun lxm i => upd2 lxm i b (lxm i b * nz (-1))) (range 0 n3n) lxm.

  (** lib.rs:656-707: the relative sign for nonlinear molecules; [iatom2] is [buddy] *)
  Definition fix_sign (zero4 : bool) (iatom2 a b : nat) (lxm : nat -> nat -> F) : nat -> nat -> F :=
    let nabs_ := nnat axis_order in
    let alpha := nz (-2) * npi / nabs_ in
    let n1 := (3 * iatom)%nat in
    let n21 := (3 * iatom2)%nat in
    let n22 := (3 * iatom2 + 1)%nat in
    let n23 := (3 * iatom2 + 2)%nat in
    let n3 := (n1 + 2)%nat in
    let '(lxm, _, _) := fold_left (fun '(lxm, s, iflag) is =>
        let is2 := nnat (is + is) in
        let s := s + nz 1 in
        if ngeb is2 nabs_ then (lxm, s, iflag)
        else if iflag : bool then (lxm, s, iflag)
        else if negb zero4 then
          let '(test, test2, test3) :=
            if ngtb (nabs (ncos alpha)) TOLER then
              let test := ncos alpha * lxm n1 a - ncos (alpha * s) * lxm n21 a in
              let test2 := lxm n21 b * nsin (- alpha * s) in
              (test, test2, (nabs test - nabs test2) / lxm n1 a)
            else
              let test := nsin alpha * lxm n1 a - ncos (alpha * s) * lxm n22 a in
              let test2 := lxm n22 b * nsin (- alpha * s) in
              (test, test2, (nabs test - nabs test2) / lxm n1 a) in
          if nabs test3 <? nlit 1 1000 then
            ((if test * test2 <? nz 0 then negate b lxm else lxm), s, true)
          else (lxm, s, iflag)
        else
          let test := lxm n3 b - ncos (alpha * s) * lxm n23 b in
          let test2 := nz (-1) * lxm n23 a * nsin (- alpha * s) in
          let test3 := (nabs test - nabs test2) / lxm n3 b in
          ((if (nabs test3 <? nlit 1 1000) && (test * test2 <? nz 0) then negate b lxm else lxm),
           s, iflag))
      (range 0 5) (lxm, nz 0, false) in
    lxm.

  (** lib.rs:628-708 *)
  Definition relative_sign (zero4 : bool) (a b : nat) (lxm : nat -> nat -> F)
    : option (nat -> nat -> F) :=
    if linear then
      let n1 := (3 * iatom)%nat in
      Some (if ngtb (lxm n1 a * lxm (n1 + 1)%nat b) (nz 0) then negate b lxm else lxm)
    else
      let* iatom2 := buddy in
      Some (fix_sign zero4 iatom2 a b lxm).

  (** lib.rs:710-722 *)
  Definition refresh_lx (w : nat -> F) (a b : nat) (lxm lx : nat -> nat -> F) : nat -> nat -> F :=
    fold_left (fun lx ijj => fold_left (fun lx ia =>
        let vmass := nz 1 / nsqrt (w ia) in
        fold_left (fun lx ix =>
            let ii := (3 * ia + ix)%nat in
            upd2 lx ii ijj (lxm ii ijj * vmass))
          (range 0 3) lx)
      (range 0 natom) lx) [a; b] lx.

  (** lib.rs:538-722: one pair of modes *)
  Definition align_pair (w : nat -> F) (a b : nat) (st : (nat -> nat -> F) * (nat -> nat -> F))
    : option ((nat -> nat -> F) * (nat -> nat -> F)) :=
    let '(lxm, lx) := st in
    let zero4 := izero4 lxm a b in
    let* theta := align_angle lxm a b in
    let lxm := rotate_pair (ncos theta) (nsin theta) a b lxm in
    let* lxm := relative_sign zero4 a b lxm in
    Some (lxm, refresh_lx w a b lxm lx).

  (** lib.rs:531-726 [bdegnl]; with no vibrations [nvib - 1] overflows *)
  Definition bdegnl (freq w : nat -> F) (lxm lx : nat -> nat -> F)
    : option ((nat -> nat -> F) * (nat -> nat -> F)) :=
    if Nat.eqb nvib 0 then None else
    ofold (fun st ii => ofold (fun st jj =>
        if nabs (freq ii - freq jj) <? align_tol then align_pair w ii jj st else Some st)
      (range (ii + 1) nvib) st) (range 0 (nvib - 1)) (lxm, lx).
End Align.

(** ** symmetry labels *)
Section Irreps.
  Context {F I : Type} `{Num F}.
  Local Open Scope num_scope.
  (** [irrep i eps] is the label crate symm finds for mode [i] with tolerance [eps],
      [None] for an error; [A] is [Irrep::A] *)
  Variables (irrep : nat -> F -> option I) (A : I).

  (** run.rs:390-403: the loop of one mode.  [fuel] bounds the number of iterations;
      [None] says that it was not enough *)
  Fixpoint retry (fuel : nat) (i : nat) (eps : F) (r : option I) : option I :=
    match r, fuel with
    | Some x, _ => Some x
    | None, 0 => None
    | None, S fuel =>
        if ngeb eps (nlit 1 10) then Some A
        else let eps := eps * nz 10 in retry fuel i eps (irrep i eps)
    end.

  (** run.rs:377-405 [compute_irreps_in]; [cols] is the number of columns of [lxm] *)
  Definition compute_irreps_in (fuel cols nvib : nat) (eps : F) : option (list I) :=
    ofold (fun acc i => let* x := retry fuel i eps (irrep i eps) in Some (acc ++ [x]))
      (range 0 (Nat.min nvib cols)) [].
End Irreps.
