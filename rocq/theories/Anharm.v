(** Model of the anharmonic constants, E0 and the energy levels of asymmetric and
    symmetric tops (lib.rs, utils.rs, enrgy.rs). *)
From Coq Require Import List ZArith Arith Bool.
From Verif Require Import Num Loops Index Modes.
Import ListNotations.

(** ** look-up of Fermi resonances *)

(** [HashMap] with [insert] and [get] only *)
Definition map1 := nat -> option nat.
Definition map2 := nat -> nat -> option nat.
Definition empty1 : map1 := fun _ => None.
Definition empty2 : map2 := fun _ _ => None.
Definition insert1 (m : map1) (k v : nat) : map1 := upd1 m k (Some v).
Definition insert2 (m : map2) (k : nat * nat) (v : nat) : map2 :=
  upd2 m (fst k) (snd k) (Some v).

(** ifrm1.rs:20-23 and ifrm2.rs:33-36 [check] *)
Definition check1 (m : map1) (k v : nat) : bool :=
  match m k with Some x => x =? v | None => false end.
Definition check2 (m : map2) (a b v : nat) : bool :=
  match m a b with Some x => x =? v | None => false end.
(** ifrm2.rs:24-30 [get_either] *)
Definition get_either (m : map2) (a b : nat) : option nat :=
  match m a b with Some e => Some e | None => m b a end.
(** ifrm2.rs:40-47 [check_either] *)
Definition check_either (m : map2) (a b v : nat) : bool :=
  if check2 m a b v then true else check2 m b a v.

(** lib.rs:301-326 [make_fermi_checks].  The tensor is a function; its indices are mode
    numbers. *)
Record fermi_checks := mk_checks {
  ifrmchk : nat -> nat -> nat -> nat;
  ifrm1 : map1;
  ifrm2 : map2 }.

Definition make_fermi_checks (fermi1 : list (nat * nat)) (fermi2 : list (nat * nat * nat))
  : fermi_checks :=
  let c := mk_checks (fun _ _ _ => 0) empty1 empty2 in
  let c := fold_left (fun c '(i, j) =>
      mk_checks (upd3 (ifrmchk c) i i j 1) (insert1 (ifrm1 c) i j)
                (insert2 (ifrm2 c) (i, i) j)) fermi1 c in
  fold_left (fun c '(i, j, k) =>
      mk_checks (upd3 (upd3 (ifrmchk c) i j k 1) j i k 1) (ifrm1 c)
                (insert2 (ifrm2 c) (i, j) k)) fermi2 c.

(** [if ifrmchk[(i,j,k)] != 0] *)
Definition flagged (c : fermi_checks) (i j k : nat) : bool := negb (ifrmchk c i j k =? 0).

Section Numeric.
  Context {F : Type} `{Num F}.
  Local Open Scope num_scope.

  (** [x += f(i)] and [x -= f(i)] over a loop *)
  Definition acc_add {A} (l : list A) (f : A -> F) (x : F) : F :=
    fold_left (fun acc i => acc + f i) l x.
  Definition acc_sub {A} (l : list A) (f : A -> F) (x : F) : F :=
    fold_left (fun acc i => acc - f i) l x.
  (** [.sum()], starting at zero *)
  Definition nsum {A} (l : list A) (f : A -> F) : F := acc_add l f (nz 0).

  (** ** anharmonic constants of asymmetric tops *)
  Variables (nvib : nat) (f4 : nat -> nat -> nat -> nat -> F) (freq : nat -> F)
    (f3 : nat -> nat -> nat -> F) (zmat : nat -> nat -> nat -> F) (rotcon : nat -> F).

  (** lib.rs:753-770: one diagonal constant *)
  Definition xcalc_diag (c : fermi_checks) (k : nat) : F :=
    let wk := nsq (freq k) in
    let valu := acc_sub (range 0 nvib) (fun l =>
        let val2 := nsq (f3 k k l) in
        if flagged c k k l then
          let val3 := nz 1 / (nz 8 * freq l) in
          let val4 := nz 1 / (nz 32 * (nz 2 * freq k + freq l)) in
          val2 * (val3 + val4)
        else
          let wl := nsq (freq l) in
          let val3 := nz 8 * wk - nz 3 * wl in
          let val4 := nz 16 * freq l * (nz 4 * wk - wl) in
          val2 * val3 / val4) (nz 0) in
    f4 k k k k / nz 16 + valu.

  (** lib.rs:780-812: the factor of -f3(k,l,m)^2 *)
  Definition xcalc_term (c : fermi_checks) (k l m : nat) : F :=
    let d1 := freq k + freq l + freq m in
    let d2 := freq k - freq l + freq m in
    let d3 := freq k + freq l - freq m in
    let d4 := - freq k + freq l + freq m in
    if flagged c l m k && (m =? l)%nat then
      nz 1 / (nz 8 * (nz 2 * freq l + freq k))
    else if flagged c k m l && (k =? m)%nat then
      nz 1 / (nz 8 * (nz 2 * freq k + freq l))
    else if flagged c k l m then
      nz 1 * (nz 1 / d1 + nz 1 / d2 + nz 1 / d4) / nz 8
    else if flagged c l m k then
      nz 1 * (nz 1 / d1 + nz 1 / d2 - nz 1 / d3) / nz 8
    else if flagged c k m l then
      (nz 1 / d1 - nz 1 / d3 + nz 1 / d4) / nz 8
    else
      nlit 1 2 * freq m * (nsq (freq m) - nsq (freq k) - nsq (freq l))
      / (- d1 * d2 * d3 * d4).

  (** lib.rs:773-818: one off-diagonal constant *)
  Definition xcalc_off (c : fermi_checks) (k l : nat) : F :=
    let v2 := acc_sub (range 0 nvib) (fun m => f3 k k m * f3 l l m / (nz 4 * freq m)) (nz 0) in
    let v3 := nsum (range 0 nvib) (fun m => (- nsq (f3 k l m)) * xcalc_term c k l m) in
    let val7 := rotcon 0 * nsq (zmat k l 0) + rotcon 1 * nsq (zmat k l 1)
                + rotcon 2 * nsq (zmat k l 2) in
    let v4 := (freq k / freq l + freq l / freq k) * val7 in
    f4 k k l l / nz 4 + v2 + v3 + v4.

  (** lib.rs:740-820 [xcalc], the matrix; E0 is [make_e0] below *)
  Definition xcalc (fermi1 : list (nat * nat)) (fermi2 : list (nat * nat * nat))
    : nat -> nat -> F :=
    let c := make_fermi_checks fermi1 fermi2 in
    let x := fun _ _ => nz 0 in
    let x := fold_left (fun x k => upd2 x k k (xcalc_diag c k)) (range 0 nvib) x in
    fold_left (fun x k =>
      fold_left (fun x l =>
          let value := xcalc_off c k l in
          upd2 (upd2 x k l value) l k value)
        (range 0 k) x)
      (range 1 nvib) x.

  (** ** E0 *)

  (** utils.rs:283-294: kkl terms *)
  Definition e0_kkl (c : fermi_checks) (k l : nat) : F :=
    let wk := nsq (freq k) in
    let wl := nsq (freq l) in
    let zval1 := nsq (f3 k k l) in
    if check1 (ifrm1 c) k l then
      let delta := nz 2 * freq k + freq l in
      nz 3 * zval1 / (nz 128 * delta)
    else
      let delta := nz 4 * wk - wl in
      nz 3 * zval1 * freq l / (nz 64 * delta).

  (** utils.rs:301-315: klm terms (subtracted) *)
  Definition e0_klm (c : fermi_checks) (k l m : nat) : F :=
    let zval3 := nsq (f3 k l m) in
    let xklm := freq k * freq l * freq m in
    let d1 := freq k + freq l + freq m in
    let d2 := freq k - freq l + freq m in
    let d3 := freq k + freq l - freq m in
    let d4 := freq k - freq l - freq m in
    if flagged c k l m then zval3 * (nz 1 / d1 + nz 1 / d2 + nz 1 / d4) / nz 16
    else if flagged c l m k then zval3 * (nz 1 / d1 + nz 1 / d2 - nz 1 / d3) / nz 16
    else if flagged c k m l then zval3 * (nz 1 / d1 - nz 1 / d3 + nz 1 / d4) / nz 16
    else zval3 * xklm / (nz 4 * d1 * d2 * d3 * d4).

  (** utils.rs:262-321 [make_e0] *)
  Definition make_e0 (c : fermi_checks) (modes : list mode) : F :=
    let l1 := i1mode modes in
    let f3k := nsum l1 (fun k => nopp (nz 7) * nsq (f3 k k k) / (nz 576 * freq k)) in
    let f4k := nsum l1 (fun k => f4 k k k k / nz 64) in
    let f3kkl := fold_left (fun acc k =>
        acc_add (filter (fun l => negb (k =? l)%nat) l1) (fun l => e0_kkl c k l) acc)
      l1 (nz 0) in
    let f3klm := fold_left (fun acc k =>
        fold_left (fun acc l =>
            acc_sub (filter (fun m => (m <? l)%nat) l1) (fun m => e0_klm c k l m) acc)
          (filter (fun l => (l <? k)%nat) l1) acc)
      l1 (nz 0) in
    f4k + f3k + f3kkl + f3klm.

  (** ** fundamentals *)

  (** utils.rs:325-337 [make_funds] *)
  Definition make_funds (xcnst : nat -> nat -> F) : list F :=
    map (fun i =>
      fold_left (fun val j => if (j =? i)%nat then val else val + nlit 1 2 * xcnst i j)
        (range 0 nvib) (freq i + nz 2 * xcnst i i))
    (range 0 nvib).

  (** lib.rs:925-970 [make_sym_funds]; [gcnst] missing is a panic when there is a
      degenerate mode *)
  Definition make_sym_funds (modes : list mode) (xcnst : nat -> nat -> F)
    (gcnst : option (nat -> nat -> F)) : option (list F * list F) :=
    let n1 := n1dm modes in
    let n2 := n2dm modes in
    let harms1 := map (fun ii => freq (m1 modes ii)) (range 0 n1) in
    let funds1 := map (fun ii =>
        let i := m1 modes ii in
        let val := freq i + xcnst i i * nz 2 in
        let val := fold_left (fun val jj =>
            let j := m1 modes jj in
            if (j =? i)%nat then val else val + nlit 1 2 * xcnst i j) (range 0 n1) val in
        acc_add (range 0 n2) (fun jj => xcnst i (fst (m2 modes jj))) val)
      (range 0 n1) in
    let harms2 := map (fun ii => freq (fst (m2 modes ii))) (range 0 n2) in
    let* funds2 := ofold (fun funds ii =>
        let i := fst (m2 modes ii) in
        let* g := gcnst in
        let val := freq i + nz 3 * xcnst i i + g i i in
        let val := acc_add (range 0 n1) (fun jj => nlit 1 2 * xcnst i (m1 modes jj)) val in
        let val := fold_left (fun val jj =>
            let j := fst (m2 modes jj) in
            if (j =? i)%nat then val else val + xcnst i j) (range 0 n2) val in
        Some (funds ++ [val]))
      (range 0 n2) [] in
    Some (harms1 ++ harms2, funds1 ++ funds2).

  (** ** energy levels *)

  (** enrgy.rs:105-176 [part1]: the energy of one state with quantum numbers [v1] of the
      nondegenerate and [v2] of the doubly degenerate modes *)
  Definition half (v : nat) : F := nnat v + nlit 1 2.
  Definition level (modes : list mode) (xcnst : nat -> nat -> F)
    (gcnst : option (nat -> nat -> F)) (e0 : F) (v1 : nat -> nat) (v2 : nat -> nat * nat)
    : option F :=
    let n1 := n1dm modes in
    let n2 := n2dm modes in
    let a := m1 modes in
    let e := fun ii => fst (m2 modes ii) in
    let val1 := acc_add (range 0 n1) (fun ii => freq (a ii) * half (v1 ii)) (nz 0) in
    let val3 := fold_left (fun acc ii =>
        acc_add (range 0 (ii + 1)) (fun jj =>
          xcnst (a ii) (a jj) * half (v1 ii) * half (v1 jj)) acc)
      (range 0 n1) (nz 0) in
    let val2 := acc_add (range 0 n2) (fun ii =>
        freq (e ii) * (nnat (fst (v2 ii)) + nz 1)) (nz 0) in
    let val4 := fold_left (fun acc ii =>
        acc_add (range 0 n2) (fun jj =>
          xcnst (a ii) (e jj) * (half (v1 ii) * (nnat (fst (v2 jj)) + nz 1))) acc)
      (range 0 n1) (nz 0) in
    let val5 := fold_left (fun acc ii =>
        acc_add (range 0 (ii + 1)) (fun jj =>
          xcnst (e ii) (e jj)
          * ((nnat (fst (v2 ii)) + nz 1) * (nnat (fst (v2 jj)) + nz 1))) acc)
      (range 0 n2) (nz 0) in
    let* val6 := ofold (fun acc ii =>
        let* g := gcnst in
        Some (acc_add (range 0 (ii + 1)) (fun jj =>
          g (e ii) (e jj) * nnat (snd (v2 ii)) * nnat (snd (v2 jj))) acc))
      (range 0 n2) (nz 0) in
    Some (val1 + val2 + val3 + val4 + val5 + val6 + e0).

  (** enrgy.rs:105-176 over all states; [State::partition] gives [state_i1] and
      [state_i2] of each state (state.rs:51-86).  The quantum numbers of a state have
      one entry per mode (C18), so every index is in range. *)
  Definition part1 (modes : list mode) (xcnst : nat -> nat -> F)
    (gcnst : option (nat -> nat -> F)) (e0 : F) (states : list state) : option (list F) :=
    ofold (fun eng s =>
      let* x := level modes xcnst gcnst e0
        (fun ii => nth ii (state_i1 s) 0) (fun ii => nth ii (state_i2 s) (0, 0)) in
      Some (eng ++ [x])) states [].
End Numeric.

(** ** treatment of Fermi resonances *)

(** a two-level problem to solve: level numbers, mode numbers, and whether it is of
    type 1 with degenerate modes (enrgy.rs:51-99) *)
Inductive fermi_op :=
| Rs1 (ist jst ivib jvib : nat) (deg : bool)
| Rs2 (ijst kst ivib jvib kvib : nat).

(** enrgy.rs:47-99: the sequence of calls of [rsfrm1] and [rsfrm2]; [None] for an index
    outside its table *)
Definition enrgy_ops (c : fermi_checks) (modes : list mode) (t : tables)
  : option (list fermi_op) :=
  let n1 := n1dm modes in
  let n2 := n2dm modes in
  let funda i := nth_error (t_funda t) i in
  let ovrtn i := nth_error (t_ovrtn t) i in
  let combn i j := nth_error (t_combn t) (pair_index i j) in
  let rs1 ivib deg :=
    match ifrm1 c ivib with
    | Some jvib => let* ist := ovrtn ivib in let* jst := funda jvib in
                   Some [Rs1 ist jst ivib jvib deg]
    | None => Some []
    end in
  let rs2 ivib jvib (k : option nat) :=
    match k with
    | Some kvib => let* ijst := combn ivib jvib in let* kst := funda kvib in
                   Some [Rs2 ijst kst ivib jvib kvib]
    | None => Some []
    end in
  oapp
    (ocollect (range 0 n1) (fun iii =>
       let ivib := m1 modes iii in
       oapp (rs1 ivib false)
         (ocollect (range (iii + 1) n1) (fun jjj =>
            let jvib := m1 modes jjj in
            rs2 ivib jvib (ifrm2 c jvib ivib)))))
  (oapp
    (ocollect (range 0 n1) (fun ii =>
       let ivib := m1 modes ii in
       ocollect (range 0 n2) (fun jj =>
         let jvib := fst (m2 modes jj) in
         rs2 ivib jvib (get_either (ifrm2 c) jvib ivib))))
    (ocollect (range 0 n2) (fun ii =>
       let ivib := fst (m2 modes ii) in
       oapp (rs1 ivib true)
         (ocollect (range (ii + 1) n2) (fun jj =>
            let jvib := fst (m2 modes jj) in
            rs2 ivib jvib (get_either (ifrm2 c) jvib ivib)))))).

Section Apply.
  Context {F : Type} `{Num F}.
  Local Open Scope num_scope.

  (** [symm_eigen_decomp] of the matrix [a b; b c] in ascending order
      (utils/linalg.rs:12-35, external solver): both eigenvalues and the components
      of the first eigenvector *)
  Variable eig2 : F -> F -> F -> F * F * (F * F).
  Variable f3 : nat -> nat -> nat -> F.

  (** SQRT_2 *)
  Definition sqrt2 : F := nsqrt (nz 2).

  (** the coupling: utils.rs:363 and utils.rs:393-397 *)
  Definition coupling (o : fermi_op) : F :=
    match o with
    | Rs1 _ _ i j true => f3 i i j / (nz 2 * sqrt2)
    | Rs1 _ _ i j false => nlit 1 4 * f3 i i j
    | Rs2 _ _ i j k => f3 i j k / (nz 2 * sqrt2)
    end.

  (** the two level numbers *)
  Definition op_levels (o : fermi_op) : nat * nat :=
    match o with Rs1 i j _ _ _ => (i, j) | Rs2 ij k _ _ _ => (ij, k) end.

  (** utils.rs:354-381 [rsfrm2] and utils.rs:384-414 [rsfrm1]: both assign the first
      eigenvalue to the first level when the first eigenvector is mostly the first
      level *)
  Definition rsfrm (o : fermi_op) (eng : list F) : option (list F) :=
    let val := coupling o in
    let '(p, q) := op_levels o in
    let* ep := nth_error eng p in
    let* eq := nth_error eng q in
    let* e0 := nth_error eng 0 in
    let '(l0, l1, (a, b)) := eig2 (ep - e0) val (eq - e0) in
    match o with
    | Rs1 _ _ _ _ _ =>
        if ngtb (nabs a) (nabs b) then
          let* eng := set_nth eng p (l0 + e0) in
          let* e0 := nth_error eng 0 in
          set_nth eng q (l1 + e0)
        else
          let* eng := set_nth eng p (l1 + e0) in
          let* e0 := nth_error eng 0 in
          set_nth eng q (l0 + e0)
    | Rs2 _ _ _ _ _ =>
        if ngtb (nabs a) (nabs b) then
          let* eng := set_nth eng p (l0 + e0) in
          let* e0 := nth_error eng 0 in
          set_nth eng q (l1 + e0)
        else
          let* eng := set_nth eng q (l0 + e0) in
          let* e0 := nth_error eng 0 in
          set_nth eng p (l1 + e0)
    end.

  (** enrgy.rs:15-101 [enrgy] *)
  Definition enrgy (c : fermi_checks) (modes : list mode) (t : tables)
    (eng : list F) : option (list F) :=
    let* ops := enrgy_ops c modes t in
    ofold (fun eng o => rsfrm o eng) ops eng.

  (** run.rs:301-305 *)
  Definition corrs (modes : list mode) (eng : list F) : option (list F) :=
    let n := (n1dm modes + n2dm modes + n3dm modes)%nat in
    ofold (fun acc i =>
      let* x := nth_error eng i in
      let* e0 := nth_error eng 0 in
      Some (acc ++ [x - e0])) (range 1 (n + 1)) [].
End Apply.
