(** Model of the quartic and sextic centrifugal distortion constants. *)
From Coq Require Import List ZArith Arith Bool.
From Verif Require Import Num Loops Index Modes Anharm VibRot.
Import ListNotations.

Definition is_spherical_top (r : rotor) : bool :=
  match r with SphericalTop => true | _ => false end.
Definition is_asymm_top (r : rotor) : bool :=
  match r with AsymmTop => true | _ => false end.

(** index of a pair of axes in the six columns of the Wilson A matrix, as written in
    utils.rs:445-446 (0-based) and sextic.rs:150, 329, 350 (1-based, minus 1) *)
Definition wcol (i j : nat) : nat := ioff (Nat.max i j + 1) + Nat.min i j.
Definition wcol1 (i j : nat) : nat := ioff (Nat.max i j) + Nat.min i j - 1.
(** [ioff(x + 1) - 1] for a 1-based axis, sextic.rs:90-91, 143, 308 *)
Definition wdiag1 (x : nat) : nat := ioff (x + 1) - 1.

(** quartic.rs:16-52 [Quartic] *)
Record quartic (F : Type) := mk_quartic {
  sigma : F; rkappa : F;
  delj : F; delk : F; deljk : F; sdelk : F; sdelj : F;
  bxa : F; bya : F; bza : F;
  djn : F; djkn : F; dkn : F; sdjn : F; r5 : F; r6 : F;
  dj : F; djk : F; dk : F; sd1 : F; sd2 : F;
  bxs : F; bys : F; bzs : F;
  djw : F; djkw : F; dkw : F;
  de : F }.
Arguments mk_quartic {F}.
Arguments sigma {F}. Arguments rkappa {F}. Arguments delj {F}. Arguments delk {F}.
Arguments deljk {F}. Arguments sdelk {F}. Arguments sdelj {F}. Arguments bxa {F}.
Arguments bya {F}. Arguments bza {F}. Arguments djn {F}. Arguments djkn {F}.
Arguments dkn {F}. Arguments sdjn {F}. Arguments r5 {F}. Arguments r6 {F}.
Arguments dj {F}. Arguments djk {F}. Arguments dk {F}. Arguments sd1 {F}.
Arguments sd2 {F}. Arguments bxs {F}. Arguments bys {F}. Arguments bzs {F}.
Arguments djw {F}. Arguments djkw {F}. Arguments dkw {F}. Arguments de {F}.

(** sextic.rs:22-43 [Sextic] *)
Record sextic (F : Type) := mk_sextic {
  phij : F; phijk : F; phikj : F; phik : F; sphij : F; sphijk : F; sphik : F;
  hj : F; hjk : F; hkj : F; hk : F; h1 : F; h2 : F; h3 : F; he : F }.
Arguments mk_sextic {F}.
Arguments phij {F}. Arguments phijk {F}. Arguments phikj {F}. Arguments phik {F}.
Arguments sphij {F}. Arguments sphijk {F}. Arguments sphik {F}. Arguments hj {F}.
Arguments hjk {F}. Arguments hkj {F}. Arguments hk {F}. Arguments h1 {F}.
Arguments h2 {F}. Arguments h3 {F}. Arguments he {F}.

Section Distort.
  Context {F : Type} `{Num F}.
  Local Open Scope num_scope.

  (** utils.rs:437-438 *)
  Definition CONST1 : F := nlit 3833384078 100000.

  (** utils.rs:430-461 [make_tau], one cell; indices are below [maxcor] <= 3 *)
  Definition make_tau (nvib : nat) (freq primat : nat -> F) (wl : nat -> nat -> F)
    (i j k l : nat) : F :=
    let x := wcol i j in
    let y := wcol k l in
    nlit (-1) 2 * CONST1 *
    nsum (range 0 nvib) (fun v =>
      wl v x * wl v y / (nsq (freq v) * primat i * primat j * primat k * primat l)).

  (** utils.rs:417-428 [tau_prime], one cell *)
  Definition tau_prime (tau : nat -> nat -> nat -> nat -> F) (i j : nat) : F :=
    if Nat.eqb i j then tau i i j j else tau i i j j + nz 2 * tau i j i j.

  (** quartic.rs:219-224, sextic.rs:436-441: [t[(c[i], c[j])] = taupcm[(i, j)] / 4.0] on
      a [maxcor] x [maxcor] zero matrix; an index outside panics *)
  Definition make_t (maxcor : nat) (c : axes3) (taup : nat -> nat -> F)
    : option (nat -> nat -> F) :=
    ofold (fun t i => ofold (fun t j =>
      if (at3 c i <? maxcor)%nat && (at3 c j <? maxcor)%nat
      then Some (upd2 t (at3 c i) (at3 c j) (taup i j / nz 4)) else None)
      (range 0 maxcor) t) (range 0 maxcor) (fun _ _ => nz 0).

  Record tsix := mk_t { t400 : F; t220 : F; t040 : F; t202 : F; t022 : F; t004 : F }.
  (** quartic.rs:237-242 and sextic.rs:443-448 *)
  Definition make_tsix (t : nat -> nat -> F) : tsix :=
    let t400 := (nz 3 * t 0%nat 0%nat + nz 3 * t 1%nat 1%nat + nz 2 * t 0%nat 1%nat) / nz 8 in
    let t220 := t 0%nat 2%nat + t 1%nat 2%nat - nz 2 * t400 in
    let t040 := t 2%nat 2%nat - t220 - t400 in
    let t202 := (t 0%nat 0%nat - t 1%nat 1%nat) / nz 4 in
    let t022 := (t 0%nat 2%nat - t 1%nat 2%nat) / nz 2 - t202 in
    let t004 := (t 0%nat 0%nat + t 1%nat 1%nat - nz 2 * t 0%nat 1%nat) / nz 16 in
    mk_t t400 t220 t040 t202 t022 t004.

  Definition quartic_default : quartic F :=
    let z := nz 0 in
    mk_quartic z z z z z z z z z z z z z z z z z z z z z z z z z z z z.
  Definition quartic_linear (x : F) : quartic F :=
    let z := nz 0 in
    mk_quartic z z z z z z z z z z z z z z z z z z z z z z z z z z z x.

  (** quartic.rs:202-306 [Quartic::new].  [rotcon] has three entries. *)
  Definition quartic_new (r : rotor) (nvib : nat) (rotcon primat freq : nat -> F)
    (wl : nat -> nat -> F) : option (quartic F) :=
    let maxcor := if is_linear r then 2%nat else 3%nat in
    let tau := make_tau nvib freq primat wl in
    let taupcm := tau_prime tau in
    let* irep := (match r with
                  | Diatomic => Some 2%nat
                  | Linear => Some 2%nat
                  | SphericalTop => None
                  | OblateSymmTop => Some 5%nat
                  | ProlateSymmTop => Some 0%nat
                  | AsymmTop => Some 0%nat
                  | NoRotor => None
                  end) in
    let* (c, d) := princ_cart irep in
    let* t := make_t maxcor c taupcm in
    if is_diatomic r then Some (quartic_linear (- t 1%nat 1%nat))
    else if is_linear r then Some (quartic_linear (- t 0%nat 0%nat))
    else
    let '(mk_t t400 t220 t040 t202 t022 t004) := make_tsix t in
    let rc := fun i => rotcon (at3 d i) in
    let z := nz 0 in
    let* st := is_sym_top r in
    let* (irep, rkappa, sigma, delj, delk, deljk, sdelk, sdelj, bxa, bya, bza) :=
      (if st && negb (is_linear r) && negb (is_spherical_top r) then
         let rkappa := (nz 2 * rc 0%nat - rc 1%nat - rc 2%nat) / (rc 1%nat - rc 2%nat) in
         if rkappa <? nz 0
         then Some (2%nat, rkappa, - nz 9999999999999, z, z, z, z, z, z, z, z)
         else let bo := (rkappa - nz 1) / (rkappa + nz 3) in
              Some (irep, rkappa, nz 1 / bo, z, z, z, z, z, z, z, z)
       else if is_asymm_top r then
         let sigma := (nz 2 * rc 2%nat - rc 0%nat - rc 1%nat) / (rc 0%nat - rc 1%nat) in
         let rkappa := (nz 2 * rotcon 1%nat - rotcon 0%nat - rotcon 2%nat)
                       / (rotcon 0%nat - rotcon 2%nat) in
         Some (irep, rkappa, sigma,
               - t400 - nz 2 * t004,
               - t040 - nz 10 * t004,
               - t220 + nz 12 * t004,
               - t022 - nz 4 * sigma * t004,
               - t202,
               rc 0%nat - nz 8 * (sigma + nz 1) * t004,
               rc 1%nat + nz 8 * (sigma - nz 1) * t004,
               rc 2%nat + nz 16 * t004)
       else None) in
    let* (ic, id) := princ_cart irep in
    let tp := fun i j => taupcm (at3 ic i) (at3 ic j) in
    let rd := fun i => rotcon (at3 id i) in
    let djw := - tp 0%nat 0%nat / nz 4 in
    Some (mk_quartic sigma rkappa delj delk deljk sdelk sdelj bxa bya bza
      (- t400) (- t220) (- t040) (- t202) (t022 / nz 2) t004
      (- t400 + nlit 1 2 * t022 / sigma)
      (- t220 - nz 3 * t022 / sigma)
      (- t040 + nlit 5 2 * t022 / sigma)
      t202
      (t004 + nlit 1 4 * t022 / sigma)
      (rd 0%nat - nz 4 * t004 + (nz 2 + nz 1 / sigma) * t022)
      (rd 1%nat - nz 4 * t004 - (nz 2 - nz 1 / sigma) * t022)
      (rd 2%nat + nz 6 * t004 - nz 5 * t022 / (nz 2 * sigma))
      (- tp 0%nat 0%nat / nz 4)
      (- nz 2 * djw - tp 0%nat 2%nat / nz 2)
      (djw - tp 2%nat 2%nat / nz 4 + tp 0%nat 2%nat / nz 2)
      z).

  (** consts.rs:38 [SQLAM] *)
  Definition SQLAM : F := nlit 1722212503791076 10000000000000000.

  (** sextic.rs:378-397 [c_mat], one cell.  Cells that are not written stay 0. *)
  Definition c_mat (maxcor nvib : nat) (freq primat : nat -> F) (wl : nat -> nat -> F)
    : nat -> nat -> F :=
    fold_left (fun c i =>
      let cnst := npow32 (SQLAM * SQLAM * freq i) in
      fold_left (fun c x => fold_left (fun c y =>
        let z := (ioff (x + 1) + y)%nat in
        let div := nz 2 * primat x * primat y * cnst in
        upd2 c i z (wl i z / div)) (range 0 (x + 1)%nat) c) (range 0 maxcor) c)
    (range 0 nvib) (fun _ _ => nz 0).

  (** sextic.rs:299-376 [cc_tensor]; axes are 1-based in the loops *)
  Section CC.
    Variables (nvib maxcor : nat) (freq : nat -> F) (c : nat -> nat -> F)
      (zm : nat -> nat -> nat -> F) (rotcon : nat -> F).

    (** sextic.rs:313, 333, 353 *)
    Definition cc_val1 (i j : nat) : F := nz 1 / nsq (freq j) + nz 2 / nsq (freq i).
    (** sextic.rs:311-320 *)
    Definition cc_diag (i x : nat) : F :=
      nsum (range 0 nvib) (fun j =>
        c j (wdiag1 x) * zm j i (x - 1)%nat * rotcon (x - 1)%nat * npow32 (freq j)
        * cc_val1 i j) / nsqrt (freq i).
    (** sextic.rs:330-342 *)
    Definition cc_pair (i x y : nat) : F :=
      nsum (range 0 nvib) (fun j =>
        npow32 (freq j)
        * (c j (wdiag1 x) * zm j i (y - 1)%nat * rotcon (y - 1)%nat
           + nz 2 * c j (wcol1 x y) * zm j i (x - 1)%nat * rotcon (x - 1)%nat)
        * cc_val1 i j) / nsqrt (freq i).
    (** sextic.rs:350-369 *)
    Definition cc_triple (i x y z : nat) : F :=
      nsum (range 0 nvib) (fun j =>
        npow32 (freq j)
        * (c j (wcol1 y z) * zm j i (x - 1)%nat * rotcon (x - 1)%nat
           + c j (wcol1 x z) * zm j i (y - 1)%nat * rotcon (y - 1)%nat
           + c j (wcol1 x y) * zm j i (z - 1)%nat * rotcon (z - 1)%nat)
        * cc_val1 i j) / nsqrt (freq i).

    Definition cc_tensor : nat -> nat -> nat -> nat -> F :=
      fold_left (fun cc i =>
        fold_left (fun cc x =>
          let cc := upd4 cc i (x - 1) (x - 1) (x - 1) (cc_diag i x) in
          fold_left (fun cc y =>
            if Nat.eqb x y then cc else
            let v := cc_pair i x y in
            let cc := upd4 cc i (y - 1) (x - 1) (x - 1) v in
            let cc := upd4 cc i (x - 1) (y - 1) (x - 1) v in
            let cc := upd4 cc i (x - 1) (x - 1) (y - 1) v in
            fold_left (fun cc z =>
              if Nat.eqb x z || Nat.eqb y z then cc else
              upd4 cc i (z - 1) (y - 1) (x - 1) (cc_triple i x y z))
            (range 1 (maxcor + 1)%nat) cc)
          (range 1 (maxcor + 1)%nat) cc)
        (range 1 (maxcor + 1)%nat) cc)
      (range 0 nvib) (fun _ _ _ _ => nz 0).
  End CC.

  (** sextic.rs:70-297 [scc] *)
  Section SCC.
    Variables (maxcor : nat) (tau : nat -> nat -> nat -> nat -> F) (rotcon0 : nat -> F)
      (nvib nfreq : nat) (freq : nat -> F) (cc : nat -> nat -> nat -> nat -> F)
      (f3 : nat -> nat -> nat -> F) (c : nat -> nat -> F) (r : rotor).

    (** sextic.rs:82 *)
    Definition STOL : F := nlit 1 10000.
    (** sextic.rs:84-88: reversed when [freq.len() == 6] *)
    Definition srot (i : nat) : F :=
      if Nat.eqb nfreq 6 then rotcon0 (2 - i)%nat else rotcon0 i.

    (** sextic.rs:94-135; [x] 0-based, [s] its column *)
    Definition scc_diag (x : nat) : F :=
      let s := wdiag1 (x + 1) in
      let val1 := nz 3 * nsum (range 0 maxcor) (fun y => nsq (tau y x x x) / srot y) / nz 16 in
      let val2 := nsum (range 0 nvib) (fun i => freq i * nsq (cc i x x x)) * nz 2 in
      let val3 := fold_left (fun v i => fold_left (fun v j => fold_left (fun v k =>
        v + f3 i j k * c i s * c j s * c k s)
        (range 0 nvib) v) (range 0 nvib) v) (range 0 nvib) (nz 0) / nz 6 in
      let val4 := (if is_linear r then nz 0 else
        fold_left (fun v y =>
          if Nat.eqb x y then v else
          let div := srot x - srot y in
          if ngtb (nabs div) STOL then v + nsq (tau y x x x) / div else v)
        (range 0 maxcor) (nz 0)) * nlit 1 4 in
      val1 - val2 + val3 + val4.

    (** sextic.rs:150-225; [x], [y] 0-based *)
    Definition scc_pair (x y : nat) : F :=
      let s := wdiag1 (x + 1) in
      let t := wdiag1 (y + 1) in
      let u := wcol1 (x + 1) (y + 1) in
      let vala := nsum (range 0 3) (fun z =>
        let val1 := nsq (tau z y x x + nz 2 * tau z x y x) in
        let val2 := nz 2 * tau z x x x * (tau z x y y + nz 2 * tau z y y x) in
        (val1 + val2) / srot z) * (nz 3 / nz 32) in
      let valb := nsum (range 0 nvib) (fun i =>
        let val1 := nsq (cc i y x x) + nz 2 * cc i x x x * cc i y y x in
        freq i * val1) in
      let valc := fold_left (fun v i => fold_left (fun v j =>
        let val1 := c j s * c i t + nz 4 * c j u * c i u in
        fold_left (fun v k => v + f3 i j k * c k s * val1) (range 0 nvib) v)
        (range 0 nvib) v) (range 0 nvib) (nz 0) / nz 4 in
      let div := nz 8 * (srot x - srot y) in
      let vald := if ngtb (nabs div) STOL
        then nz 0 + (nz 4 * tau y y y x - nz 3 * tau y x x x) * tau y x x x / div
        else nz 0 in
      let vale := fold_left (fun v z =>
        if Nat.eqb z y || Nat.eqb z x then v else
        let div := nz 4 * nsq (srot x - srot z) in
        if ngtb div STOL then
          let val1 := (srot x - srot z) * (tau z x y y + nz 2 * tau z y y x) in
          let val2 := (srot x - srot y) * (tau z z z x - tau z x x x) in
          v + tau z x x x * (val1 + val2) / div
        else v) (range 0 3) (nz 0) in
      let valf := fold_left (fun v z =>
        if Nat.eqb z y || Nat.eqb z x then v else
        let div := nz 8 * nsq (srot y - srot z) in
        if ngtb div STOL then
          let val1 := (srot y - srot z) * (tau z y x x + nz 2 * tau z x y x) in
          let val2 := nz 2 * (srot x - srot y) * (tau z y y y - tau z z z y) in
          let val3 := tau z y x x + nz 2 * tau z x y x in
          v + val3 * (val1 + val2) / div
        else v) (range 0 3) (nz 0) in
      vala - valb + valc + vald + vale + valf.

    (** sextic.rs:231-288 *)
    Definition scc_triple : F :=
      let T := fun a b c d => tau a b c d in
      let vala := nz 3 * nsum (range 0 3) (fun x =>
        ((nz 2 * nsq (T x 0%nat 1%nat 2%nat + T x 1%nat 2%nat 0%nat + T x 2%nat 0%nat 1%nat))
         + ((T x 0%nat 1%nat 1%nat + nz 2 * T x 1%nat 0%nat 1%nat)
            * (T x 0%nat 2%nat 2%nat + nz 2 * T x 2%nat 0%nat 2%nat))
         + ((T x 1%nat 2%nat 2%nat + nz 2 * T x 2%nat 1%nat 2%nat)
            * (T x 1%nat 0%nat 0%nat + nz 2 * T x 0%nat 1%nat 0%nat))
         + ((T x 2%nat 0%nat 0%nat + nz 2 * T x 0%nat 2%nat 0%nat)
            * (T x 2%nat 1%nat 1%nat + nz 2 * T x 1%nat 2%nat 1%nat)))
        / srot x) / nz 16 in
      let valb := nsum (range 0 nvib) (fun i =>
        freq i * (nz 2 * nsq (cc i 2%nat 1%nat 0%nat)
                  + cc i 1%nat 1%nat 0%nat * cc i 2%nat 2%nat 0%nat
                  + cc i 2%nat 2%nat 1%nat * cc i 1%nat 0%nat 0%nat
                  + cc i 2%nat 0%nat 0%nat * cc i 2%nat 1%nat 1%nat)) * nz 2 in
      let valc := fold_left (fun v i => fold_left (fun v j => fold_left (fun v k =>
        v + f3 i j k
          * (c i 0%nat * c j 2%nat * c k 5%nat
             + nz 2 * c i 0%nat * c j 4%nat * c k 4%nat
             + nz 2 * c i 2%nat * c j 3%nat * c k 3%nat
             + nz 2 * c i 5%nat * c j 1%nat * c k 1%nat
             + nz 8 * c i 4%nat * c j 3%nat * c k 1%nat))
        (range 0 nvib) v) (range 0 nvib) v) (range 0 nvib) (nz 0) * nlit 1 2 in
      (** sextic.rs:257-284: the three similar blocks, with axes (a, b, c) and the two
          elements of tau *)
      let block := fun (a b c : nat) (t1 t2 : F) =>
        let div := nz 4 * nsq (srot a - srot b) in
        if ngtb div STOL then
          nz 3 * (t1 - t2) * ((srot b - srot c) * t1 + (srot c - srot a) * t2) / div
        else nz 0 in
      let vald := block 1%nat 2%nat 0%nat (T 2%nat 1%nat 1%nat 1%nat) (T 2%nat 2%nat 2%nat 1%nat) in
      let vale := block 2%nat 0%nat 1%nat (T 2%nat 2%nat 2%nat 0%nat) (T 2%nat 0%nat 0%nat 0%nat) in
      let valf := block 0%nat 1%nat 2%nat (T 1%nat 0%nat 0%nat 0%nat) (T 1%nat 1%nat 1%nat 0%nat) in
      vala - valb + valc + vald + vale + valf.

    Definition scc : nat -> nat -> nat -> F :=
      let s := fold_left (fun s x => upd3 s x x x (scc_diag x)) (range 0 maxcor)
                 (fun _ _ _ => nz 0) in
      if is_linear r then s else
      let s := fold_left (fun s x => fold_left (fun s y =>
        if Nat.eqb x y then s else
        let v := scc_pair x y in
        upd3 (upd3 (upd3 s y x x v) x y x v) x x y v)
        (range 0 3) s) (range 0 3) s in
      let v := scc_triple in
      let s := upd3 s 0 1 2 v in let s := upd3 s 0 2 1 v in
      let s := upd3 s 1 0 2 v in let s := upd3 s 1 2 0 v in
      let s := upd3 s 2 0 1 v in upd3 s 2 1 0 v.
  End SCC.

  (** sextic.rs:552-566 [make_phi] *)
  Definition make_phi (maxcor : nat) (ic : axes3) (s : nat -> nat -> nat -> F)
    : option (nat -> nat -> nat -> F) :=
    ofold (fun p i => ofold (fun p j => ofold (fun p k =>
      if (at3 ic i <? maxcor)%nat && (at3 ic j <? maxcor)%nat && (at3 ic k <? maxcor)%nat
      then Some (upd3 p (at3 ic i) (at3 ic j) (at3 ic k) (s i j k)) else None)
      (range 0 maxcor) p) (range 0 maxcor) p) (range 0 maxcor) (fun _ _ _ => nz 0).

  Record psix := mk_p {
    phi600 : F; phi420 : F; phi240 : F; phi060 : F; phi402 : F; phi222 : F;
    phi042 : F; phi204 : F; phi024 : F; phi006 : F }.
  (** sextic.rs:450-470 *)
  Definition make_psix (phi : nat -> nat -> nat -> F) : psix :=
    let p := fun a b c => phi a b c in
    let p000 := p 0%nat 0%nat 0%nat in let p111 := p 1%nat 1%nat 1%nat in
    let p222 := p 2%nat 2%nat 2%nat in let p001 := p 0%nat 0%nat 1%nat in
    let p110 := p 1%nat 1%nat 0%nat in let p002 := p 0%nat 0%nat 2%nat in
    let p112 := p 1%nat 1%nat 2%nat in let p012 := p 0%nat 1%nat 2%nat in
    let p220 := p 2%nat 2%nat 0%nat in let p221 := p 2%nat 2%nat 1%nat in
    let phi600 := nz 5 * (p000 + p111) / nz 16 + (p001 + p110) / nz 8 in
    let phi420 := nz 3 * (p002 + p112) / nz 4 + p012 / nz 4 - nz 3 * phi600 in
    let phi240 := p220 + p221 - nz 2 * phi420 - nz 3 * phi600 in
    let phi060 := p222 - phi240 - phi420 - phi600 in
    let phi402 := nz 15 * (p000 - p111) / nz 64 + (p001 - p110) / nz 32 in
    let phi222 := (p002 - p112) / nz 2 - nz 2 * phi402 in
    let phi042 := (p220 - p221) / nz 2 - phi222 - phi402 in
    let phi204 := nz 3 * (p000 + p111) / nz 32 - (p001 + p110) / nz 16 in
    let phi024 := (p002 + p112 - p012) / nz 8 - phi204 in
    let phi006 := (p000 - p111) / nz 64 - (p001 - p110) / nz 32 in
    mk_p phi600 phi420 phi240 phi060 phi402 phi222 phi042 phi204 phi024 phi006.

  Definition sextic_linear (x : F) : sextic F :=
    let z := nz 0 in mk_sextic z z z z z z z z z z z z z z x.

  (** sextic.rs:484-491: sigma of a symmetric top *)
  Definition sextic_sym_sigma (rc : nat -> F) : F :=
    let rkappa := (nz 2 * rc 0%nat - rc 1%nat - rc 2%nat) / (rc 1%nat - rc 2%nat) in
    if rkappa <? nz 0 then - nz 999999999999
    else let bo := (rkappa - nz 1) / (rkappa + nz 3) in nz 1 / bo.

  (** sextic.rs:472-550: from the tensors to the constants *)
  Definition sextic_consts (r : rotor) (st : bool) (rotcon : nat -> F) (id : axes3)
    (t : nat -> nat -> F) (phi : nat -> nat -> nat -> F) : option (sextic F) :=
    let '(mk_t t400 t220 t040 t202 t022 t004) := make_tsix t in
    let rc := fun i => rotcon (at3 id i) in
    let b002 := nlit 1 4 * (rc 0%nat - rc 1%nat) in
    let '(mk_p phi600 phi420 phi240 phi060 phi402 phi222 phi042 phi204 phi024 phi006)
      := make_psix phi in
    let z := nz 0 in
    let* (sigma, phij, phijk, phikj, phik, sphij, sphijk, sphik) :=
      (if negb st then
         let sigma := (nz 2 * rc 2%nat - rc 0%nat - rc 1%nat) / (rc 0%nat - rc 1%nat) in
         let phijk := phi420 - nz 12 * phi204 + nz 2 * phi024
                      + nz 16 * sigma * phi006 + nz 8 * t022 * t004 / b002 in
         Some (sigma,
           phi600 + nz 2 * phi204,
           phijk,
           phi240 + nz 10 * phi420 / nz 3 - nz 30 * phi204 - nz 10 * phijk / nz 3,
           phi060 - nz 7 * phi420 / nz 3 + nz 28 * phi204 + nz 7 * phijk / nz 3,
           phi402 + phi006,
           phi222 + nz 4 * sigma * phi204 - nz 10 * phi006
             + nz 2 * (t220 - nz 2 * sigma * t202 - nz 4 * t004) * t004 / b002,
           phi042 + nz 4 * sigma * phi024 / nz 3
             + (nz 32 * sigma * sigma / nz 3 + nz 9) * phi006
             + nz 4 * (t040 + sigma * t022 / nz 3 - nz 2 * (sigma * sigma - nz 2) * t004)
               * t004 / b002)
       else
         let irep := if is_prolate r then 0%nat else 5%nat in
         let* (_, id') := princ_cart irep in
         Some (sextic_sym_sigma (fun i => rotcon (at3 id' i)), z, z, z, z, z, z, z)) in
    let irep := if is_prolate r || is_asymm_top r then 0%nat else 5%nat in
    let* (_, id2) := princ_cart irep in
    let rd := fun i => rotcon (at3 id2 i) in
    let b200 := nlit 1 2 * (rd 0%nat + rd 1%nat) - nz 4 * t004 in
    let b020 := rd 2%nat - b200 + nz 6 * t004 in
    let div := nz 2 * sigma * sigma + nz 27 / nz 16 in
    let mu := (sigma * phi042 - nz 9 * phi024 / nz 8
               + (- nz 2 * sigma * t040 + (sigma * sigma + nz 3) * t022
                  - nz 5 * sigma * t004) * t022 / b020) / div in
    let nu := nz 3 * mu / (nz 16 * sigma) + phi024 / (nz 8 * sigma) + t004 * t022 / b020 in
    let lamda := nz 5 * nu / sigma + phi222 / (sigma * nz 2)
                 + (- t220 / (sigma * nz 2) + t202 - t022 / (sigma * sigma)
                    - nz 2 * t004 / sigma) * t022 / b020 in
    Some (mk_sextic phij phijk phikj phik sphij sphijk sphik
      (phi600 - lamda)
      (phi420 + nz 6 * lamda - nz 3 * mu)
      (phi240 - nz 5 * lamda + nz 10 * mu)
      (phi060 - nz 7 * mu)
      (phi402 - nu)
      (phi204 + lamda / nz 2)
      (phi006 + nu)
      z).

  (** sextic.rs:400-550 [Sextic::new] *)
  Definition sextic_new (r : rotor) (nvib nfreq : nat) (rotcon primat0 freq : nat -> F)
    (wl : nat -> nat -> F) (zm f3 : nat -> nat -> nat -> F) : option (sextic F) :=
    let maxcor := if is_linear r then 2%nat else 3%nat in
    let primat := if is_diatomic r then fun i => primat0 (2 - i)%nat else primat0 in
    let c := c_mat maxcor nvib freq primat wl in
    let cc := cc_tensor nvib maxcor freq c zm rotcon in
    let tau := make_tau nvib freq primat wl in
    let taup := tau_prime tau in
    let s := scc maxcor tau rotcon nvib nfreq freq cc f3 c r in
    if is_diatomic r then Some (sextic_linear (s 1%nat 1%nat 1%nat))
    else if is_linear r then Some (sextic_linear (s 0%nat 0%nat 0%nat))
    else
    let* st := is_sym_top r in
    let* (ic, id) := princ_cart (if st : bool then 5%nat else 0%nat) in
    let* t := make_t maxcor ic taup in
    let* phi := make_phi maxcor ic s in
    sextic_consts r st rotcon id t phi.
End Distort.
