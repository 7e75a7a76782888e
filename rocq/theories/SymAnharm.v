(** Model of the anharmonic constants and E0 of symmetric tops (xcals.rs). *)
From Coq Require Import List ZArith Arith Bool.
From Verif Require Import Num Loops Index Modes Anharm VibRot.
Import ListNotations.

Section SymAnharm.
  Context {F : Type} `{Num F}.
  Local Open Scope num_scope.

  (** The force constants and the zeta tensor are functions of mode numbers; every index
      used below is a mode number, within range of the tables. *)
  Variables (nvib : nat) (f4 : nat -> nat -> nat -> nat -> F) (freq : nat -> F)
    (f3 : nat -> nat -> nat -> F) (zmat : nat -> nat -> nat -> F) (rotcon : nat -> F).

  (** the four frequency combinations, xcals.rs:179-182 and repeated in every loop *)
  Definition d1 (k l m : nat) : F := freq k + freq l + freq m.
  Definition d2 (k l m : nat) : F := freq k - freq l + freq m.
  Definition d3 (k l m : nat) : F := freq k + freq l - freq m.
  Definition d4 (k l m : nat) : F := - freq k + freq l + freq m.
  (** the last one of make_e3, xcals.rs:104 *)
  Definition d4' (k l m : nat) : F := freq k - freq l - freq m.

  (** ** E0 *)

  (** xcals.rs:36-46 *)
  Definition e2_kss (c : fermi_checks) (k l : nat) : F :=
    let wk := nsq (freq k) in
    let zval4 := nsq (f3 k k l) in
    let wl := nsq (freq l) in
    if check1 (ifrm1 c) k l then
      let delta4 := nz 2 * (nz 2 * freq k + freq l) in
      zval4 / (nz 16 * delta4)
    else
      let delta4 := nz 4 * wk - wl in
      zval4 * freq l / (nz 16 * delta4).
  (** xcals.rs:17-51 [make_e2]; the three sums are independent *)
  Definition make_e2 (c : fermi_checks) (modes : list mode) : F :=
    let n1 := n1dm modes in
    let n2 := n2dm modes in
    let f4s := acc_add (range 0 n2) (fun kk =>
        let k := fst (m2 modes kk) in f4 k k k k / nz 48) (nz 0) in
    let f3s := acc_add (range 0 n2) (fun kk =>
        let k := fst (m2 modes kk) in nz 11 * nsq (f3 k k k) / (freq k * nz 144)) (nz 0) in
    let f3kss := fold_left (fun acc kk =>
        let k := fst (m2 modes kk) in
        acc_add (range 0 n1) (fun ll => e2_kss c k (m1 modes ll)) acc)
      (range 0 n2) (nz 0) in
    f4s + f3s + f3kss.

  (** xcals.rs:76-91 *)
  Definition e3_sst (c : fermi_checks) (k l : nat) : F :=
    let wk := nsq (freq k) in
    let wl := nsq (freq l) in
    let zval5 := nsq (f3 k k l) in
    if check1 (ifrm1 c) k l then
      let delta5 := (nz 8 * wk + wl) / (nz 2 * freq k + freq l) / (nz 2 * wl) in
      zval5 * delta5 / nz 16
    else
      let delta5 := (nz 8 * wk + wl) / (freq l * (nz 4 * wk - wl)) in
      zval5 * delta5 / nz 16.
  (** xcals.rs:98-113: what is subtracted from [f3kst] *)
  Definition e3_kst (c : fermi_checks) (k l m : nat) : F :=
    let zval6 := nsq (f3 k l m) in
    let xkst := freq k * freq l * freq m in
    let d1 := d1 k l m in let d2 := d2 k l m in let d3 := d3 k l m in let d4 := d4' k l m in
    if check2 (ifrm2 c) l k m then zval6 * (nz 1 / d1 + nz 1 / d2 + nz 1 / d4) / nz 8
    else if check2 (ifrm2 c) m l k then zval6 * (nz 1 / d1 + nz 1 / d2 - nz 1 / d3) / nz 8
    else if check2 (ifrm2 c) m k l then zval6 * (nz 1 / d1 - nz 1 / d3 + nz 1 / d4) / nz 8
    else zval6 * xkst / (nz 2 * (d1 * d2 * d3 * d4)).
  (** xcals.rs:123-141: what is subtracted from [f3stu] *)
  Definition e3_stu (c : fermi_checks) (k l m : nat) : F :=
    let zval7 := nsq (f3 k l m) in
    let xstu := freq k * freq l * freq m in
    let d1 := d1 k l m in let d2 := d2 k l m in let d3 := d3 k l m in let d4 := d4' k l m in
    zval7 *
      (if flagged c k l m then (nz 1 / d1 + nz 1 / d2 + nz 1 / d4) / nz 2
       else if flagged c l m k then (nz 1 / d1 + nz 1 / d2 - nz 1 / d3) / nz 2
       else if flagged c k m l then (nz 1 / d1 - nz 1 / d3 + nz 1 / d4) / nz 2
       else nz 2 * xstu / (d1 * d2 * d3 * d4)).

  (** xcals.rs:55-148 [make_e3]; the state is (f3kst, f3sst, f3stu) *)
  Definition e3_loop (c : fermi_checks) (modes : list mode) : F * F * F :=
    let n1 := n1dm modes in
    let n2 := n2dm modes in
    fold_left (fun s kk =>
      let k := fst (m2 modes kk) in
      fold_left (fun '(kst, sst, stu) ll =>
          let l := fst (m2 modes ll) in
          if (k =? l)%nat then (kst, sst, stu) else
          let sst := sst + e3_sst c k l in
          let kst := fold_left (fun kst mm =>
              if (k <=? l)%nat then nz 0 else kst - e3_kst c k l (m1 modes mm))
            (range 0 n1) kst in
          let stu := fold_left (fun stu mm =>
              let m := fst (m2 modes mm) in
              if ((k <=? l) || (l <=? m))%nat then nz 0 else stu - e3_stu c k l m)
            (range 0 n2) stu in
          (kst, sst, stu))
        (range 0 n2) s)
      (range 0 n2) (nz 0, nz 0, nz 0).
  Definition make_e3 (c : fermi_checks) (modes : list mode) : F :=
    let '(kst, sst, stu) := e3_loop c modes in kst + sst + stu.

  (** ** x constants *)

  (** xcals.rs:493-506 and 678-705: one term of a diagonal constant *)
  Definition diag_term (c : fermi_checks) (k l : nat) : F :=
    let wk := nsq (freq k) in
    let val2 := nsq (f3 k k l) in
    if check1 (ifrm1 c) k l then
      let val3 := nz 1 / (nz 8 * freq l) in
      let val4 := nz 1 / (nz 32 * (nz 2 * freq k + freq l)) in
      val2 * (val3 + val4)
    else
      let wl := nsq (freq l) in
      let val3 := nz 8 * wk - nz 3 * wl in
      let val4 := nz 16 * freq l * (nz 4 * wk - wl) in
      val2 * val3 / val4.
  (** the last branch of every x term *)
  Definition plain (k l m : nat) : F :=
    nlit 1 2 * freq m * (nsq (freq m) - nsq (freq k) - nsq (freq l))
    / (- d1 k l m * d2 k l m * d3 k l m * d4 k l m).

  (** xcals.rs:534-563: the factor of -f3(k,m,l)^2 *)
  Definition nn_term (c : fermi_checks) (k l m : nat) : F :=
    let d1 := d1 k l m in let d2 := d2 k l m in let d3 := d3 k l m in let d4 := d4 k l m in
    if check2 (ifrm2 c) l m k then nz 1 / (nz 8 * (nz 2 * freq l + freq k))
    else if check2 (ifrm2 c) k m l then nz 1 / (nz 8 * (nz 2 * freq k + freq l))
    else if check2 (ifrm2 c) k l m then (nz 1 / d1 + nz 1 / d2 + nz 1 / d4) / nz 8
    else if check2 (ifrm2 c) l m k then (nz 1 / d1 + nz 1 / d2 + nz 1 / d3) / nz 8
    else if check2 (ifrm2 c) k m l then (nz 1 / d1 + nz 1 / d3 + nz 1 / d4) / nz 8
    else plain k l m.
  (** xcals.rs:520-570 *)
  Definition nn_value (c : fermi_checks) (i1 : list nat) (ia k l : nat) : F :=
    let val1 := f4 k k l l / nz 4 in
    let val2 := acc_sub i1 (fun m => f3 k k m * f3 l l m / (nz 4 * freq m)) (nz 0) in
    let valu := nsum i1 (fun m => - nsq (f3 k m l) * nn_term c k l m) in
    let val7 := rotcon ia * nsq (zmat k l 2) in
    let val8 := (freq k / freq l + freq l / freq k) * val7 in
    val1 + val2 + valu + val8.
  (** xcals.rs:479-572 [nondeg_nondeg]; [todo!] for diatomics *)
  Definition nondeg_nondeg (r : rotor) (c : fermi_checks) (i1 : list nat) (ia : nat)
    (x : nat -> nat -> F) : option (nat -> nat -> F) :=
    let x := fold_left (fun x k =>
        let valu := acc_sub i1 (fun l => diag_term c k l) (nz 0) in
        upd2 x k k (f4 k k k k / nz 16 + valu)) i1 x in
    if is_diatomic r then None else
    Some (fold_left (fun x kk =>
        let k := nth kk i1 0%nat in
        fold_left (fun x ll =>
            let l := nth ll i1 0%nat in
            let value := nn_value c i1 ia k l in
            upd2 (upd2 x k l value) l k value)
          (range 0 kk) x)
      (range 1 (length i1)) x).

  (** xcals.rs:446-462: the factor of -f3(k,l,m)^2 *)
  Definition nd_term (c : fermi_checks) (k l m : nat) : F :=
    let d1 := d1 k l m in let d2 := d2 k l m in let d3 := d3 k l m in let d4 := d4 k l m in
    if (l =? m)%nat && check2 (ifrm2 c) l m k then nz 1 / (nz 8 * (nz 2 * freq l + freq k))
    else if check2 (ifrm2 c) k l m then nz 1 * (nz 1 / d1 + nz 1 / d2 + nz 1 / d4) / nz 8
    else if check2 (ifrm2 c) l m k then nz 1 * (nz 1 / d1 + nz 1 / d2 + nz 1 / d3) / nz 8
    else if check2 (ifrm2 c) k m l then nz 1 * (nz 1 / d1 + nz 1 / d3 + nz 1 / d4) / nz 8
    else plain k l m.
  (** xcals.rs:430-469 *)
  Definition nd_value (c : fermi_checks) (i1 : list nat) (i2 : list (nat * nat)) (ib k l : nat) : F :=
    let val2 := acc_sub i1 (fun m => f3 k k m * f3 l l m / (nz 4 * freq m)) (nz 0) in
    let valu := nsum i2 (fun m => - nsq (f3 k l (fst m)) * nd_term c k l (fst m)) in
    let val7 := rotcon ib * (nsq (zmat k l 0) + nsq (zmat k l 1)) in
    let val8 := (freq k / freq l + freq l / freq k) * val7 in
    f4 k k l l / nz 4 + val2 + valu + val8.
  (** xcals.rs:415-476 [nondeg_deg] *)
  Definition nondeg_deg (c : fermi_checks) (i1 : list nat) (i2 : list (nat * nat)) (ib : nat)
    (x : nat -> nat -> F) : nat -> nat -> F :=
    fold_left (fun x k =>
      fold_left (fun x '(l, l2) =>
          let value := nd_value c i1 i2 ib k l in
          upd2 (upd2 (upd2 (upd2 x k l value) l k value) k l2 value) l2 k value)
        i2 x) i1 x.

  (** xcals.rs:665-712 [deg_deg1] *)
  Definition dd1_value (c : fermi_checks) (i1 : list nat) (i2 : list (nat * nat)) (k : nat) : F :=
    let val1 := f4 k k k k / nz 16 in
    let valu := acc_sub i1 (fun l => diag_term c k l) (nz 0) in
    let valus := acc_sub i2 (fun l => diag_term c k (fst l)) (nz 0) in
    val1 + valu + valus.
  Definition deg_deg1 (c : fermi_checks) (i1 : list nat) (i2 : list (nat * nat))
    (x : nat -> nat -> F) : nat -> nat -> F :=
    fold_left (fun x '(k, k2) =>
        let value := dd1_value c i1 i2 k in
        upd2 (upd2 x k k value) k2 k2 value) i2 x.

  (** xcals.rs:190-209 *)
  Definition dd_u (c : fermi_checks) (k l m : nat) : F :=
    let d1 := d1 k l m in let d2 := d2 k l m in let d3 := d3 k l m in let d4 := d4 k l m in
    if check_either (ifrm2 c) l k m then
      let delta := nz 1 / d1 + nz 1 / d2 + nz 1 / d4 in
      - nsq (f3 k l m) * delta / nz 16
    else if check2 (ifrm2 c) m l k then
      let delta := nz 1 / d1 + nz 1 / d2 - nz 1 / d3 in
      - nsq (f3 k l m) * delta / nz 16
    else if check2 (ifrm2 c) m k l then
      let delta := nz 1 / d1 + nz 1 / d3 + nz 1 / d4 in
      - nsq (f3 k l m) * delta / nz 16
    else
      let delta := - d1 * d2 * d3 * d4 in
      let val3 := nsq (freq m) - nsq (freq k) - nsq (freq l) in
      - nlit 1 4 * nsq (f3 k l m) * freq m * val3 / delta.
  (** xcals.rs:220-243 *)
  Definition dd_us (c : fermi_checks) (k l m : nat) : F :=
    let d1 := d1 k l m in let d2 := d2 k l m in let d3 := d3 k l m in let d4 := d4 k l m in
    if (l =? m)%nat && check2 (ifrm2 c) l m k then
      - nsq (f3 k l m) / (nz 8 * (nz 2 * freq l + freq k))
    else if (k =? m)%nat && check2 (ifrm2 c) k m l then
      - nsq (f3 k l m) / (nz 8 * (nz 2 * freq k + freq l))
    else if check2 (ifrm2 c) k l m then
      - nsq (f3 k l m) * (nz 1 / d1 + nz 1 / d2 + nz 1 / d4) / nz 8
    else if check2 (ifrm2 c) l m k then
      - nsq (f3 k l m) * (nz 1 / d1 + nz 1 / d2 + nz 1 / d3) / nz 8
    else if check2 (ifrm2 c) k m l then
      - nsq (f3 k l m) * (nz 1 / d1 + nz 1 / d3 + nz 1 / d4) / nz 8
    else
      let delta := - d1 * d2 * d3 * d4 in
      let val3 := nsq (freq m) - nsq (freq k) - nsq (freq l) in
      - nlit 1 2 * nsq (f3 k l m) * freq m * val3 / delta.
  (** xcals.rs:171-252 *)
  Definition dd_value (c : fermi_checks) (i1 : list nat) (i2 : list (nat * nat)) (ia ib ixyz k l l2 : nat) : F :=
    let val1 := (f4 k k l l + f4 k k l2 l2) / nz 8 in
    let val2 := nsum i1 (fun m => - (f3 k k m * f3 l l m / (nz 4 * freq m))) in
    let valu := nsum i1 (fun m => dd_u c k l m) in
    let valus := nsum i2 (fun m => dd_us c k l (fst m)) in
    let val7 := nlit 1 2 * rotcon ia * nsq (zmat k l2 2) + rotcon ib * nsq (zmat k l ixyz) in
    let val8 := (freq k / freq l + freq l / freq k) * val7 in
    val1 + val2 + valu + valus + val8.
  (** a value written to the four cells, xcals.rs:253-256 and 347-350 *)
  Definition write4 (x : nat -> nat -> F) (k l k2 l2 : nat) (v : F) : nat -> nat -> F :=
    upd2 (upd2 (upd2 (upd2 x k l v) l k v) k2 l2 v) l2 k2 v.
  (** xcals.rs:151-259 [deg_deg]; [n2dm] is the length of [i2mode] *)
  Definition deg_deg (c : fermi_checks) (i1 : list nat) (i2 : list (nat * nat)) (ia ib ixyz : nat)
    (x : nat -> nat -> F) : nat -> nat -> F :=
    let x := deg_deg1 c i1 i2 x in
    fold_left (fun x kk =>
        let '(k, k2) := nth kk i2 (0, 0)%nat in
        fold_left (fun x ll =>
            let '(l, l2) := nth ll i2 (0, 0)%nat in
            write4 x k l k2 l2 (dd_value c i1 i2 ia ib ixyz k l l2))
          (range 0 kk) x)
      (range 1 (length i2)) x.

  (** ** g constants *)

  (** xcals.rs:372-385 *)
  Definition g1_u (c : fermi_checks) (k l : nat) : F :=
    let wk := nsq (freq k) in
    let val2 := nsq (f3 k k l) in
    if check1 (ifrm1 c) k l then
      let val3 := nz 32 * (nz 2 * freq k + freq l) in
      val2 / val3
    else
      let wl := freq l * freq l in
      let val3 := val2 * freq l in
      let val4 := nz 16 * (nz 4 * wk - wl) in
      - val3 / val4.
  (** xcals.rs:389-403 *)
  Definition g1_us (c : fermi_checks) (k m : nat) : F :=
    let wk := nsq (freq k) in
    let val2 := nsq (f3 k k m) in
    if check1 (ifrm1 c) k m then
      let val3 := nz 1 / (nz 8 * freq m) in
      let val4 := nz 1 / (nz 32 * (nz 2 * freq k + freq m)) in
      - val2 * (val3 + val4)
    else
      let wl := freq m * freq m in
      let val3 := nz 8 * wk - wl in
      let val4 := nz 16 * freq m * (nz 4 * wk - wl) in
      val2 * val3 / val4.
  Definition g1_value (c : fermi_checks) (i1 : list nat) (i2 : list (nat * nat)) (ia k k2 : nat) : F :=
    let valu := nsum i1 (fun l => g1_u c k l) in
    let valus := nsum i2 (fun m => g1_us c k (fst m)) in
    let val7 := rotcon ia * nsq (zmat k k2 2) in
    - f4 k k k k / nz 48 + valu + valus + val7.
  (** xcals.rs:357-412 [gcnst1] *)
  Definition gcnst1 (c : fermi_checks) (i1 : list nat) (i2 : list (nat * nat)) (ia : nat)
    (g : nat -> nat -> F) : nat -> nat -> F :=
    fold_left (fun g kk =>
        let '(k, k2) := nth kk i2 (0, 0)%nat in
        let value := g1_value c i1 i2 ia k k2 in
        upd2 (upd2 g k k value) k2 k2 value) (range 0 (length i2)) g.

  (** xcals.rs:302-312: the factor of -f3(k,l,m)^2 *)
  Definition g_u (c : fermi_checks) (k l m : nat) : F :=
    let d1 := d1 k l m in let d2 := d2 k l m in let d3 := d3 k l m in let d4 := d4 k l m in
    if check_either (ifrm2 c) l k m then (nz 1 / d1 + nz 1 / d2 + nz 1 / d4) / nz 8
    else if check2 (ifrm2 c) m l k then (nz 1 / d1 + nz 1 / d2 - nz 1 / d3) / nz 8
    else if check2 (ifrm2 c) m k l then (nz 1 / d1 + nz 1 / d3 + nz 1 / d4) / nz 8
    else - nlit 1 2 * (freq m * freq k * freq l) / (- d1 * d2 * d3 * d4).
  (** xcals.rs:325-339: the factor of -f3(k,l,m)^2 *)
  Definition g_us (c : fermi_checks) (k l m : nat) : F :=
    let d1 := d1 k l m in let d2 := d2 k l m in let d3 := d3 k l m in let d4 := d4 k l m in
    if check2 (ifrm2 c) l m k then nz 1 / (nz 8 * (nz 2 * freq l + freq k))
    else if check2 (ifrm2 c) k m l then nz 1 / (nz 8 * (nz 2 * freq k + freq l))
    else if check2 (ifrm2 c) l k m then (nz 1 / d1 + nz 1 / d2 + nz 1 / d4) / nz 8
    else if check2 (ifrm2 c) m l k then (nz 1 / d1 + nz 1 / d2 - nz 1 / d3) / nz 8
    else if check2 (ifrm2 c) m k l then (nz 1 / d1 + nz 1 / d3 + nz 1 / d4) / nz 8
    else freq m * freq k * freq l / (- d1 * d2 * d3 * d4).
  Definition g_value (c : fermi_checks) (i1 : list nat) (i2 : list (nat * nat)) (ia ib ixyz k k2 l l2 : nat) : F :=
    let valu := nsum i1 (fun m => - nsq (f3 k l m) * g_u c k l m) in
    let valus := nsum i2 (fun m => - nsq (f3 k l (fst m)) * g_us c k l (fst m)) in
    let val7 := - nz 2 * rotcon ib * nsq (zmat k l ixyz) + rotcon ia * nsq (zmat k l2 2)
                + nz 2 * rotcon ia * zmat k k2 2 * zmat l l2 2 in
    valu + valus + val7.
  (** xcals.rs:261-354 [make_gcnst] *)
  Definition make_gcnst (c : fermi_checks) (i1 : list nat) (i2 : list (nat * nat)) (ia ib ixyz : nat)
    : nat -> nat -> F :=
    let g := gcnst1 c i1 i2 ia (fun _ _ => nz 0) in
    fold_left (fun g kk =>
        let '(k, k2) := nth kk i2 (0, 0)%nat in
        fold_left (fun g ll =>
            let '(l, l2) := nth ll i2 (0, 0)%nat in
            write4 g k l k2 l2 (g_value c i1 i2 ia ib ixyz k k2 l l2))
          (range 0 kk) g)
      (range 1 (length i2)) g.

  (** ** everything *)

  (** xcals.rs:573-611 [setup_xcals]: [ixyz]; the warning is not modelled *)
  Definition XTOL : F := nlit 1 1000000.
  Definition xcals_ixyz (r : rotor) (i2 : list (nat * nat)) (wila : nat -> nat -> F) : nat :=
    if is_linear r then 1%nat else
    let ixz := fold_left (fun n '(_, i2) => if nleb (nabs (wila i2 3%nat)) XTOL then (n + 1)%nat else n) i2 0%nat in
    let iyz := fold_left (fun n '(_, i2) => if nleb (nabs (wila i2 4%nat)) XTOL then (n + 1)%nat else n) i2 0%nat in
    if (0 <? ixz)%nat then 1%nat else if (0 <? iyz)%nat then 0%nat else 1%nat.

  (** xcals.rs:614-662 [xcals] *)
  Definition xcals (r : rotor) (fermi1 : list (nat * nat)) (fermi2 : list (nat * nat * nat))
    (modes : list mode) (wila : nat -> nat -> F)
    : option ((nat -> nat -> F) * (nat -> nat -> F) * F) :=
    let ia := 2%nat in
    let ib := 1%nat in
    let i1 := i1mode modes in
    let i2 := i2mode modes in
    let ixyz := xcals_ixyz r i2 wila in
    let c := make_fermi_checks fermi1 fermi2 in
    let e1 := make_e0 f4 freq f3 c modes in
    let e2 := make_e2 c modes in
    let e3 := if is_linear r then nz 0 else make_e3 c modes in
    let e0 := e1 + e2 + e3 in
    let x := fun _ _ => nz 0 in
    let* x := nondeg_nondeg r c i1 ia x in
    let x := nondeg_deg c i1 i2 ib x in
    let x := deg_deg c i1 i2 ia ib ixyz x in
    let g := make_gcnst c i1 i2 ia ib ixyz in
    Some (x, g, e0).
End SymAnharm.
