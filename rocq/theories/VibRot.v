(** Model of the vibration-rotation part: Coriolis constants, Wilson A vectors,
    vibration-rotation constants and the averaged rotational constants. *)
From Coq Require Import List ZArith Arith Bool.
From Verif Require Import Num Loops Index Modes Anharm.
Import ListNotations.

(** lib.rs:975-982 [make_icorol]: a hash map from mode pairs to one axis *)
Definition make_icorol (coriolis : list coriolis_t) : map2 :=
  fold_left (fun m '(i, j, axis) => insert2 (insert2 m (i, j) axis) (j, i) axis)
    coriolis empty2.

(** consts.rs:47-59 [IPTOC] and [ICTOP] row by row, columns are representations *)
Definition IPTOC (i irep : nat) : option nat :=
  let* row := nth_error [[2;1;0;2;0;1]; [0;2;1;1;2;0]; [1;0;2;0;1;2]] i in
  nth_error row irep.
Definition ICTOP (i irep : nat) : option nat :=
  let* row := nth_error [[1;2;0;2;0;1]; [2;0;1;1;2;0]; [0;1;2;0;1;2]] i in
  nth_error row irep.

(** [usize; 3] *)
Definition axes3 : Type := nat * nat * nat.
Definition at3 (c : axes3) (i : nat) : nat :=
  match i with 0 => fst (fst c) | 1 => snd (fst c) | _ => snd c end.

(** utils.rs:465-469 [princ_cart]; an index outside the 3x6 tables panics *)
Definition princ_cart (irep : nat) : option (axes3 * axes3) :=
  let* c0 := IPTOC 0 irep in
  let* c1 := IPTOC 1 irep in
  let* c2 := IPTOC 2 irep in
  let* d0 := ICTOP 0 irep in
  let* d1 := ICTOP 1 irep in
  let* d2 := ICTOP 2 irep in
  Some ((c0, c1, c2), (d0, d1, d2)).

(** [Rotor::is_linear], [is_diatomic] of the external crate [symm] as they are used here.
    [Spectro::is_linear], lib.rs:289-291, is [Linear] or [Diatomic]; the crate's own
    [is_linear] is taken to be the same.  The theorems do not depend on it for
    [Diatomic], see DESIGN.md. *)
Definition is_linear (r : rotor) : bool :=
  match r with Linear | Diatomic => true | _ => false end.
Definition is_diatomic (r : rotor) : bool :=
  match r with Diatomic => true | _ => false end.

(** rot.rs:8-13 [Rot] *)
Record rot (F : Type) := mk_rot { rot_state : state; rot_a : F; rot_b : F; rot_c : F }.
Arguments mk_rot {F}. Arguments rot_state {F}.
Arguments rot_a {F}. Arguments rot_b {F}. Arguments rot_c {F}.

(** rows of the x, y and z displacement of atom [i]: [3 * i], [+ 1], [+ 2] *)
Definition cx (i : nat) : nat := 3 * i.
Definition cy (i : nat) : nat := 3 * i + 1.
Definition cz (i : nat) : nat := 3 * i + 2.

Section VibRot.
  Context {F : Type} `{Num F}.
  Local Open Scope num_scope.

  (** lib.rs:985-1010 [make_zmat]: one cell.  [lxm] is total; rows 3*i+2 with
      i < natom and columns below nvib exist. *)
  Definition zmat (natom : nat) (lxm : nat -> nat -> F) (k l axis : nat) : F :=
    match axis with
    | 0 => nsum (range 0 natom) (fun i =>
             lxm (cy i) k * lxm (cz i) l - lxm (cz i) k * lxm (cy i) l)
    | 1 => nsum (range 0 natom) (fun i =>
             lxm (cz i) k * lxm (cx i) l - lxm (cx i) k * lxm (cz i) l)
    | _ => nsum (range 0 natom) (fun i =>
             lxm (cx i) k * lxm (cy i) l - lxm (cy i) k * lxm (cx i) l)
    end.

  (** lib.rs:826-847 [zeta]: the Wilson A vectors.  [w] are the masses, [geom i] the
      coordinates of atom [i]. *)
  Definition wila (natom : nat) (geom : nat -> F * F * F) (w : nat -> F)
    (lxm : nat -> nat -> F) (k s : nat) : F :=
    let px i := fst (fst (geom i)) in
    let py i := snd (fst (geom i)) in
    let pz i := snd (geom i) in
    let r i := nsqrt (w i) in
    let lx i := lxm (cx i) k in
    let ly i := lxm (cy i) k in
    let lz i := lxm (cz i) k in
    let at_ := range 0 natom in
    nz 2 *
    match s with
    | 0 => nsum at_ (fun i => r i * (py i * ly i + pz i * lz i))
    | 1 => acc_sub at_ (fun i => r i * px i * ly i) (nz 0)
    | 2 => nsum at_ (fun i => r i * (px i * lx i + pz i * lz i))
    | 3 => acc_sub at_ (fun i => r i * px i * lz i) (nz 0)
    | 4 => acc_sub at_ (fun i => r i * py i * lz i) (nz 0)
    | _ => nsum at_ (fun i => r i * (px i * lx i + py i * ly i))
    end.

  (** consts.rs:45 [ALPHA_CONST] *)
  Definition ALPHA_CONST : F := nlit 86112 1000000.

  (** Fields of [Spectro] and matrices shared by the functions below; all are read at
      indices below their dimensions. *)
  Variables (nvib : nat) (rotcon primat : nat -> F) (freq : nat -> F)
    (wl : nat -> nat -> F) (zm : nat -> nat -> nat -> F)
    (f3 : nat -> nat -> nat -> F).

  (** lib.rs:214-218, alphas.rs:110-113 and the other copies: a resonant pair *)
  Definition cor_res (z : F) (wi wj : F) : F :=
    nlit 1 2 * nsq z * nsq (wi - wj) / (wj * (wi + wj)).
  (** lib.rs:220-222 and alphas.rs:115-116: a pair that is not resonant *)
  Definition cor_def (z : F) (wi wj : F) : F :=
    nsq z * (nz 3 * nsq wi + nsq wj) / (nsq wi - nsq wj).
  (** alphas.rs:168-175 and others: the same, with the quotient formed first *)
  Definition cor_def' (z : F) (wi wj : F) : F :=
    nsq z * ((nz 3 * nsq wi + nsq wj) / (nsq wi - nsq wj)).

  (** lib.rs:187-234 [alpha], one cell *)
  Definition alpha (coriolis : list coriolis_t) (i x : nat) : F :=
    let icorol := make_icorol coriolis in
    let ii := (ioff (x + 2) - 1)%nat in
    let valu0 := nz 2 * nsq (rotcon x) / freq i in
    let valu1 := nsum (range 0 3) (fun y =>
      nsq (wl i (ioff (Nat.max x y + 1) + Nat.min x y)%nat) / primat y) * nlit 3 4 in
    let valu2 := fold_left (fun valu2 j =>
      if Nat.eqb j i then valu2
      else if check2 icorol i j x then valu2 - cor_res (zm i j x) (freq i) (freq j)
      else valu2 + cor_def (zm i j x) (freq i) (freq j))
      (range 0 nvib) (nz 0) in
    let valu3 := nsum (range 0 nvib) (fun j =>
      wl j ii * f3 i i j * freq i / npow32 (freq j)) in
    valu0 * (valu1 + valu2 + valu3 * ALPHA_CONST).

  (** lib.rs:257-270: the sum of [alphaa] for one state.  [todo!] and a missing entry are
      [None]. *)
  Definition alphaa_sum (modes : list mode) (al : nat -> F) (s : state) : option F :=
    ofold (fun suma ii =>
      let* m := nth_error modes ii in
      match m, s with
      | I1 i, I1st v =>
          let* n := nth_error v ii in
          Some (suma + al i * (nnat n + nlit 1 2))
      | _, _ => None
      end) (range 0 (n1dm modes)) (nz 0).

  (** lib.rs:237-274 [alphaa]: row by row, the three axes of each state *)
  Definition alphaa (modes : list mode) (states : list state)
    (coriolis : list coriolis_t) : option (list (F * F * F)) :=
    ofold (fun rows n =>
      let* s := nth_error states n in
      let* s0 := alphaa_sum modes (fun i => alpha coriolis i 0) s in
      let* s1 := alphaa_sum modes (fun i => alpha coriolis i 1) s in
      let* s2 := alphaa_sum modes (fun i => alpha coriolis i 2) s in
      Some (rows ++ [(rotcon 0 + s0, rotcon 1 + s1, rotcon 2 + s2)]))
    (range 0 (nvib + 1)%nat) [].

  Definition row3 (r : F * F * F) (i : nat) : F :=
    match i with 0 => fst (fst r) | 1 => snd (fst r) | _ => snd r end.

  (** [vibr[ic[0]] = a; vibr[ic[1]] = b; vibr[ic[2]] = c] on three zeros *)
  Definition vibr (ic : axes3) (a b c : F) : nat -> F :=
    upd1 (upd1 (upd1 (fun _ => nz 0) (at3 ic 0) a) (at3 ic 1) b) (at3 ic 2) c.

  (** lib.rs:481-521 [rota].  [nderiv] is [header[7]] or 4 if the header is shorter;
      the assertion is inside the loop over the states. *)
  Definition rota (nderiv : Z) (rotnst : list (F * F * F)) (states : list state)
    (b4a b5a b6a : F) : option (list (rot F)) :=
    let* (ic, _) := princ_cart 0 in
    ofold (fun ret nst =>
      if negb (2 <? nderiv)%Z then None else
      let* r := nth_error rotnst nst in
      let* s := nth_error states nst in
      let v := vibr ic (row3 r 0 - rotcon 0) (row3 r 1 - rotcon 1) (row3 r 2 - rotcon 2) in
      match s with
      | I1st _ => Some (ret ++ [mk_rot s (b6a + v 2) (b4a + v 0) (b5a + v 1)])
      | _ => Some ret
      end) (range 0 (length rotnst)) [].

  (** lib.rs:850-922 [rots]; the first [match] decides which states are skipped *)
  Definition rots_keep (s : state) : bool :=
    match s with
    | I1st v | I3st v => negb (1 <? fold_left Nat.add v 0)%nat
    | I2st v => Nat.eqb (length (filter (fun p => Nat.eqb (fst p) 1 && Nat.eqb (snd p) 1) v)) 1
    | I12st _ _ => false
    end.
  Definition rots (r : rotor) (rotnst : list (F * F * F)) (states : list state)
    (b1s b2s b3s : F) : option (list (rot F)) :=
    let '(ia, ib, irep) :=
      if is_prolate r then (2, 1, 2)
      else if is_diatomic r then (0, 1, 2)
      else (2, 1, 5) in
    let* (ic, _) := princ_cart irep in
    ofold (fun ret nst =>
      let* row := nth_error rotnst nst in
      let* s := nth_error states nst in
      if rots_keep s then
        let vib1 := row3 row ia - rotcon ia in
        let vib2 := row3 row ib - rotcon ib in
        let v := vibr ic vib1 vib2 vib2 in
        let bxs := b1s + v 2 in
        let bys := b2s + v 0 in
        let bzs := b3s + v 1 in
        let '(bys, bzs) := if is_linear r then (bzs, bys) else (bys, bzs) in
        match s with
        | I1st _ | I2st _ => Some (ret ++ [mk_rot s bys bxs bzs])
        | _ => Some ret
        end
      else Some ret) (range 0 (length rotnst)) [].

  (** The four loops of [make_alpha], alphas.rs:71-273.  Every body writes the cell
      [alpha[(k, ia)]] or [alpha[(k, ib)]] of its own mode [k] only. *)
  Section MakeAlpha.
    Variables (r : rotor) (modes : list mode) (icorol : map2).
    Variables (ia ib ic iaia iaib ibib ibic : nat).

    (** alphas.rs:102, 150, 192, 267: the cubic sums.  In the A loops the product starts
        with [wila], in the B loops with [f3qcm]. *)
    Definition cubic_a (k : nat) : F :=
      nsum (range 0 (n1dm modes)) (fun jj => let j := m1 modes jj in
        wl j iaia * f3 j k k * freq k / npow32 (freq j)).
    Definition cubic_b (k : nat) : F :=
      nsum (range 0 (n1dm modes)) (fun jj => let j := m1 modes jj in
        f3 j k k * wl j ibib * freq k / npow32 (freq j)).

    (** alphas.rs:168-185, 215-232, 242-259: the two terms of one partner *)
    Definition bc_step (k : nat) (acc : F) (j : nat) : F :=
      let acc :=
        if check2 icorol j k ic then acc - cor_res (zm k j ic) (freq k) (freq j)
        else acc + cor_def' (zm k j ic) (freq k) (freq j) in
      if check2 icorol j k ib then acc - cor_res (zm k j ib) (freq k) (freq j)
      else acc + cor_def' (zm k j ib) (freq k) (freq j).

    (** alphas.rs:92-120 *)
    Definition alpha_a_nondeg (k : nat) : F :=
      let valu0 := nz 2 * nsq (rotcon ia) / freq k in
      let valu1 := nlit 3 4 * nsq (wl k iaia) / primat ia in
      let valu2 := fold_left (fun valu2 jj =>
        let j := m1 modes jj in
        if Nat.eqb j k then valu2
        else if check2 icorol j k ia then valu2 - cor_res (zm j k ia) (freq k) (freq j)
        else valu2 + cor_def (zm j k ia) (freq k) (freq j))
        (range 0 (n1dm modes)) (nz 0) in
      valu0 * (valu1 + valu2 + ALPHA_CONST * cubic_a k).

    (** alphas.rs:122-153 *)
    Definition alpha_a_deg (kk : nat) : F :=
      let k := fst (m2 modes kk) in
      let valu0 := nz 2 * nsq (rotcon ia) / freq k in
      let valu1 := nlit 3 4 * nsq (wl k iaib) / primat ib in
      let valu2 := fold_left (fun valu2 jj =>
        let '(j1, j2) := m2 modes jj in
        if Nat.eqb jj kk then valu2
        else if check2 icorol j1 k ia
             then valu2 - cor_res (zm k j2 ia) (freq k) (freq j1)
        else valu2 + cor_def (zm k j2 ia) (freq k) (freq j1))
        (range 0 (n2dm modes)) (nz 0) in
      valu0 * (valu1 + valu2 + ALPHA_CONST * cubic_a k).

    (** alphas.rs:156-195 *)
    Definition alpha_b_nondeg (k : nat) : F :=
      let valu0 := nz 2 * nsq (rotcon ib) / freq k in
      let valu1 := nlit 3 4 * (nsq (wl k ibib) + nsq (wl k ibic)) / primat ib in
      let valu2 := fold_left (fun acc jj => bc_step k acc (fst (m2 modes jj)))
        (range 0 (n2dm modes)) (nz 0) in
      valu0 * (valu1 + valu2 + ALPHA_CONST * cubic_b k).

    (** alphas.rs:197-271 *)
    Definition alpha_b_deg (kk : nat) : F :=
      let k := fst (m2 modes kk) in
      let valu0 := nz 2 * nsq (rotcon ib) / freq k in
      let '(valu1, valu2) :=
        match r with
        | Linear => (nz 0, nz 0)
        | _ =>
            (nlit 375 1000 * (nz 2 * nsq (wl k ibib) / primat ib
                              + nsq (wl k iaib) / primat ia),
             fold_left (fun acc jj =>
               if Nat.eqb jj kk then acc else bc_step k acc (fst (m2 modes jj)))
               (range 0 (n2dm modes)) (nz 0))
        end in
      let valu4 := fold_left (fun acc jj => bc_step k acc (m1 modes jj))
        (range 0 (n1dm modes)) (nz 0) * nlit 1 2 in
      valu0 * (valu1 + valu2 + valu4 + ALPHA_CONST * cubic_b k).

    Definition make_alpha : nat -> nat -> F :=
      let n1 := n1dm modes in
      let n2 := n2dm modes in
      let al := fold_left (fun al kk => let k := m1 modes kk in
        upd2 al k ia (alpha_a_nondeg k)) (range 0 n1) (fun _ _ => nz 0) in
      let al := fold_left (fun al kk =>
        upd2 al (fst (m2 modes kk)) ia (alpha_a_deg kk)) (range 0 n2) al in
      let al := fold_left (fun al kk => let k := m1 modes kk in
        upd2 al k ib (alpha_b_nondeg k)) (range 0 n1) al in
      fold_left (fun al kk =>
        upd2 al (fst (m2 modes kk)) ib (alpha_b_deg kk)) (range 0 n2) al.
  End MakeAlpha.

  (** alphas.rs:24-39: the matrix used by [alphas] *)
  Definition sym_alpha (r : rotor) (modes : list mode) (coriolis : list coriolis_t)
    : nat -> nat -> F :=
    let '(iaib, ibib) := match r with ProlateSymmTop => (3, 0) | _ => (4, 2) end in
    make_alpha r modes (make_icorol coriolis) 2 1 0 5 iaib ibib 1.

  (** alphas.rs:50-62: the sum for one state and one axis; a missing entry panics *)
  Definition alphas_sum (modes : list mode) (al : nat -> F) (s : state) : option F :=
    let* suma := ofold (fun suma ii =>
      let* n := nth_error (state_i1 s) ii in
      Some (suma + al (m1 modes ii) * (nnat n + nlit 1 2)))
      (range 0 (n1dm modes)) (nz 0) in
    ofold (fun suma ii =>
      let* n := nth_error (state_i2 s) ii in
      Some (suma + al (fst (m2 modes ii)) * (nnat (fst n) + nz 1)))
      (range 0 (n2dm modes)) suma.

  (** alphas.rs:13-67 [alphas].  The column of an axis that is not computed stays 0. *)
  Definition alphas (r : rotor) (modes : list mode) (states : list state)
    (coriolis : list coriolis_t) : option (list (F * F * F)) :=
    match r with
    | SphericalTop => None
    | _ =>
        let al := sym_alpha r modes coriolis in
        ofold (fun rows s =>
          let* s2 := (if is_linear r then Some (nz 0) else
                      let* s := alphas_sum modes (fun i => al i 2) s in
                      Some (rotcon 2 + s)) in
          let* s1 := alphas_sum modes (fun i => al i 1) s in
          Some (rows ++ [(nz 0, rotcon 1 + s1, s2)])) states []
    end.
End VibRot.
