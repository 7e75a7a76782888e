(** Model of the mode classification, the resonance searches and the state list. *)
From Coq Require Import List ZArith Arith Bool.
From Verif Require Import Num Loops Index.
Import ListNotations.

(** the [Rotor] enum of the external crate [symm], as matched in
    spectro/src/rotor.rs:38-142 *)
Inductive rotor :=
| Diatomic | Linear | SphericalTop | OblateSymmTop | ProlateSymmTop | AsymmTop
| NoRotor.

(** [Rotor::is_sym_top] of [symm]; [NoRotor] panics.  External; see DESIGN.md. *)
Definition is_sym_top (r : rotor) : option bool :=
  match r with
  | Linear | SphericalTop | OblateSymmTop | ProlateSymmTop => Some true
  | Diatomic | AsymmTop => Some false
  | NoRotor => None
  end.

(** [Rotor::is_prolate] of [symm] *)
Definition is_prolate (r : rotor) : bool :=
  match r with ProlateSymmTop => true | _ => false end.

(** mode.rs:4-8 *)
Inductive mode :=
| I1 (i : nat)
| I2 (i j : nat)
| I3 (i j k : nat).

(** mode.rs:13-23 [Mode::count] *)
Definition mode_count (modes : list mode) : nat * nat * nat :=
  fold_left (fun '(a, b, c) m =>
    match m with
    | I1 _ => (a + 1, b, c)
    | I2 _ _ => (a, b + 1, c)
    | I3 _ _ _ => (a, b, c + 1)
    end) modes (0, 0, 0).

(** mode.rs:29-46 [Mode::partition] *)
Definition mode_partition (modes : list mode)
  : list nat * list (nat * nat) * list (nat * nat * nat) :=
  fold_left (fun '(a, b, c) m =>
    match m with
    | I1 i => (a ++ [i], b, c)
    | I2 i j => (a, b ++ [(i, j)], c)
    | I3 i j k => (a, b, c ++ [(i, j, k)])
    end) modes ([], [], []).

Definition n1dm (modes : list mode) : nat := fst (fst (mode_count modes)).
Definition n2dm (modes : list mode) : nat := snd (fst (mode_count modes)).
Definition n3dm (modes : list mode) : nat := snd (mode_count modes).
Definition i1mode (modes : list mode) := fst (fst (mode_partition modes)).
Definition i2mode (modes : list mode) := snd (fst (mode_partition modes)).
Definition i3mode (modes : list mode) := snd (mode_partition modes).

(** [i1mode[ii]] and [i2mode[jj].0], [.1] for loop variables bounded by the counts;
    the counts are the lengths (proved), so the default is never used *)
Definition m1 (modes : list mode) (ii : nat) : nat := nth ii (i1mode modes) 0.
Definition m2 (modes : list mode) (ii : nat) : nat * nat := nth ii (i2mode modes) (0, 0).
Definition m3 (modes : list mode) (ii : nat) : nat * nat * nat :=
  nth ii (i3mode modes) (0, 0, 0).

(** [HashSet<usize>]; only [insert] and [contains] are used *)
Definition contains (s : list nat) (i : nat) : bool := existsb (Nat.eqb i) s.

Section Numeric.
  Context {F : Type} `{Num F}.
  Local Open Scope num_scope.

  (** utils.rs:160-162 [close] *)
  Definition close (a b eps : F) : bool := nabs (a - b) <? eps.

  (** resonance.rs:296 *)
  Definition deg_tol : F := nlit 1 10.

  (** resonance.rs:304-306: the test for a triple *)
  Definition triple_test (freq : nat -> F) (i j k : nat) : bool :=
    close (freq i) (freq j) deg_tol && close (freq i) (freq k) deg_tol
    && (ngtb (nabs (freq i)) deg_tol && ngtb (nabs (freq j)) deg_tol
        && ngtb (nabs (freq k)) deg_tol).

  (** resonance.rs:323-324: the numeric part of the test for a pair *)
  Definition pair_test (freq : nat -> F) (i j : nat) : bool :=
    close (freq i) (freq j) deg_tol
    && (ngtb (nabs (freq i)) deg_tol && ngtb (nabs (freq j)) deg_tol).

  (** resonance.rs:297-315: first pass *)
  Definition triple_pass (nvib : nat) (freq : nat -> F)
    : list mode * list nat :=
    fold_left (fun s i =>
      fold_left (fun s j =>
        fold_left (fun '(modes, triples) k =>
          if triple_test freq i j k
          then (modes ++ [I3 i j k], k :: j :: i :: triples)
          else (modes, triples))
        (range (j + 1) nvib) s)
      (range (i + 1) nvib) s)
    (range 0 nvib) ([], []).

  (** resonance.rs:318-333: second pass *)
  Definition pair_pass (nvib : nat) (freq : nat -> F) (triples : list nat)
    (modes : list mode) : list mode * list nat :=
    fold_left (fun s i =>
      fold_left (fun '(modes, doubles) j =>
          if pair_test freq i j && negb (contains triples i) && negb (contains triples j)
          then (modes ++ [I2 i j], j :: i :: doubles)
          else (modes, doubles))
      (range (i + 1) nvib) s)
    (range 0 nvib) (modes, []).

  (** resonance.rs:289-345 [deg_modes] *)
  Definition deg_modes (r : rotor) (nvib : nat) (freq : nat -> F) : option (list mode) :=
    let* st := is_sym_top r in
    Some (if st : bool then
            let '(modes, triples) := triple_pass nvib freq in
            let '(modes, doubles) := pair_pass nvib freq triples modes in
            fold_left (fun modes i =>
              if negb (contains triples i) && negb (contains doubles i)
              then modes ++ [I1 i] else modes)
            (range 0 nvib) modes
          else
            fold_left (fun modes i => modes ++ [I1 i]) (range 0 nvib) []).

  (** rotor.rs:12-22, 32-33: tolerances *)
  Definition F3TOL : F := nz 10.
  Definition FTOL1 : F := nz 200.
  Definition DLTOL : F := nz 1000.
  Definition DFTOL : F := nz 200.
  Definition DDTOL : F := nz 300.
  Definition CTOL : F := nz 200.
  Definition ZTOL : F := nlit 1 4.

  (** a resonance (i, j, axis); resonance.rs:40-44.  Axes are A=0, B=1, C=2. *)
  Definition coriolis_t : Type := nat * nat * nat.

  (** the shape [if diff.abs() <= CTOL && zmat[(i,j,ax)].abs() >= ZTOL { push } ],
      rotor.rs:61-64, 82-85, 114-117 and others *)
  Definition cor_test (freq : nat -> F) (zmat : nat -> nat -> nat -> F)
    (i j ax lbl : nat) : list coriolis_t :=
    if nleb (nabs (freq i - freq j)) CTOL && ngeb (nabs (zmat i j ax)) ZTOL
    then [(i, j, lbl)] else [].

  (** rotor.rs:24-145 [coriolis].  The vectors are functions: every index used is
      a mode number, below their length.  [todo!] and the unset rotor are [None]. *)
  Definition coriolis (r : rotor) (modes : list mode) (freq : nat -> F)
    (zmat : nat -> nat -> nat -> F) : option (list coriolis_t) :=
    let n1 := n1dm modes in
    let n2 := n2dm modes in
    match r with
    | Diatomic => Some []
    | SphericalTop => None
    | OblateSymmTop | ProlateSymmTop | Linear =>
        let ia := 2 in let ib := 1 in let ic := 0 in
        let '(a, b, c) := if is_prolate r then (0, 2, 1) else (ia, ib, ic) in
        Some (
          collect (range 0 n1) (fun ii =>
            let i := m1 modes ii in
            collect (range 0 n1) (fun jj =>
              let j := m1 modes jj in
              if Nat.eqb ii jj then [] else cor_test freq zmat i j ia a)
            ++
            collect (range 0 n2) (fun jj =>
              let j := fst (m2 modes jj) in
              cor_test freq zmat i j ib b ++ cor_test freq zmat i j ic c))
          ++
          collect (range 0 n2) (fun ii =>
            let i := fst (m2 modes ii) in
            collect (range 0 n2) (fun jj =>
              if Nat.eqb ii jj then [] else
              let j := snd (m2 modes jj) in
              cor_test freq zmat i j ia a)
            ++
            collect (range 0 n1) (fun jj =>
              let j := m1 modes jj in
              cor_test freq zmat i j ib b ++ cor_test freq zmat i j ic c)
            ++
            collect (range 0 n2) (fun jj =>
              if Nat.eqb ii jj then [] else
              let j := fst (m2 modes jj) in
              cor_test freq zmat i j ib b ++ cor_test freq zmat i j ic c)))
    | AsymmTop =>
        Some (collect (range 0 n1) (fun ii =>
          let i := m1 modes ii in
          collect (range 0 ii) (fun jj =>
            let j := m1 modes jj in
            collect (range 0 3) (fun z => cor_test freq zmat i j z z))))
    | NoRotor => None
    end.

  (** rotor.rs:370-375 [darling_test] *)
  Definition darling_test (freq : nat -> F) (i j : nat) : list (nat * nat) :=
    let diff := nz 2 * freq i - nz 2 * freq j in
    if nleb (nabs diff) DDTOL then [(i, j)] else [].

  (** rotor.rs:147-188 [darling] *)
  Definition darling (r : rotor) (modes : list mode) (freq : nat -> F)
    : option (list (nat * nat)) :=
    let n1 := n1dm modes in
    let n2 := n2dm modes in
    match r with
    | Diatomic => Some []
    | SphericalTop => None
    | OblateSymmTop | ProlateSymmTop | Linear =>
        Some (
          collect (range 1 n1) (fun ii =>
            let i := m1 modes ii in
            collect (range 0 ii) (fun jj => darling_test freq i (m1 modes jj))
            ++
            collect (range 0 n2) (fun jj => darling_test freq i (fst (m2 modes jj))))
          ++
          collect (range 1 n2) (fun ii =>
            let i := fst (m2 modes ii) in
            collect (range 0 ii) (fun jj => darling_test freq i (fst (m2 modes jj)))))
    | AsymmTop =>
        Some (
          collect (range 1 n1) (fun ii =>
            let i := m1 modes ii in
            collect (range 0 ii) (fun jj => darling_test freq i (m1 modes jj))))
    | NoRotor => None
    end.

  (** rotor.rs:357-368 [ferm1_test].  [f3] is the read of [F3qcm] (C01): any
      function of three mode numbers here. *)
  Definition ferm1_test (freq : nat -> F) (f3 : nat -> nat -> nat -> F) (i j : nat)
    : list (nat * nat) :=
    let diff := nz 2 * freq i - freq j in
    if nleb (nabs diff) FTOL1 && ngeb (nabs (f3 i i j)) F3TOL then [(i, j)] else [].

  (** rotor.rs:190-229 [fermi1] *)
  Definition fermi1 (r : rotor) (modes : list mode) (freq : nat -> F)
    (f3 : nat -> nat -> nat -> F) : option (list (nat * nat)) :=
    let l1 := i1mode modes in
    let l2 := i2mode modes in
    match r with
    | Diatomic => Some []
    | SphericalTop => None
    | OblateSymmTop | ProlateSymmTop | Linear =>
        Some (
          collect l1 (fun i => collect l1 (fun j => ferm1_test freq f3 i j))
          ++
          collect l2 (fun '(i, _) =>
            collect l1 (fun j => ferm1_test freq f3 i j)
            ++ collect l2 (fun '(j, _) => ferm1_test freq f3 i j)))
    | AsymmTop =>
        Some (collect l1 (fun i => collect l1 (fun j => ferm1_test freq f3 i j)))
    | NoRotor => None
    end.

  (** [f64::partial_cmp] *)
  Definition partial_cmp (a b : F) : option comparison :=
    if a <? b then Some Lt
    else if b <? a then Some Gt
    else if a =? b then Some Eq
    else None.

  (** rotor.rs:400-404 [aminjm].  Sorting three numbers compares every pair that
      matters; an incomparable pair makes [unwrap] panic.  Insertion order as in
      the standard library's small sort; ties keep their order. *)
  Definition aminjm (d1 d2 d3 : F) : option F :=
    let* _ := partial_cmp d1 d2 in
    let* _ := partial_cmp d1 d3 in
    let* _ := partial_cmp d2 d3 in
    let '(a, b) := if d2 <? d1 then (d2, d1) else (d1, d2) in
    Some (if d3 <? b then b else d3).

  (** rotor.rs:377-398 [ferm2_test]: what is pushed *)
  Definition ferm2_test (freq : nat -> F) (f3 : nat -> nat -> nat -> F) (i j k : nat)
    : option (list (nat * nat * nat)) :=
    let diff1 := freq i - freq j - freq k in
    let diff2 := - freq i + freq j - freq k in
    let diff3 := - freq i - freq j + freq k in
    let diff4 := freq i + freq j + freq k in
    let delta := diff1 * diff2 * diff3 * diff4 in
    let* dalet := aminjm diff1 diff2 diff3 in
    Some (if ngeb (nabs (f3 i j k)) F3TOL
             && (nleb (nabs delta) DLTOL || nleb (nabs dalet) DFTOL)
          then [(i, j, k)] else []).

  (** rotor.rs:300-317 and 321-338: the copy-pasted test of the last symmetric-top
      loop *)
  Definition ferm2_test' (freq : nat -> F) (f3 : nat -> nat -> nat -> F) (i j k : nat)
    : list (nat * nat * nat) :=
    let diff1 := freq i - freq j - freq k in
    let diff2 := - freq i + freq j - freq k in
    let diff3 := - freq i - freq j + freq k in
    let diff4 := freq i + freq j + freq k in
    let delta := diff1 * diff2 * diff3 * diff4 in
    if ngeb (nabs (f3 i j k)) F3TOL
       && (nleb (nabs delta) DLTOL || nleb (nabs diff1) DFTOL
           || nleb (nabs diff2) DFTOL || nleb (nabs diff3) DFTOL)
    then [(i, j, k)] else [].

  (** a pushing loop whose body may panic *)
  Fixpoint ocollect {A B} (l : list A) (f : A -> option (list B)) : option (list B) :=
    match l with
    | [] => Some []
    | a :: t => let* x := f a in let* y := ocollect t f in Some (x ++ y)
    end.
  Definition oapp {B} (x y : option (list B)) : option (list B) :=
    let* a := x in let* b := y in Some (a ++ b).

  (** rotor.rs:231-355 [fermi2]; [continue] after a hit has no effect *)
  Definition fermi2 (r : rotor) (modes : list mode) (freq : nat -> F)
    (f3 : nat -> nat -> nat -> F) : option (list (nat * nat * nat)) :=
    let n1 := n1dm modes in
    let n2 := n2dm modes in
    let a := m1 modes in
    let e := fun ii => fst (m2 modes ii) in
    match r with
    | Diatomic => Some []
    | SphericalTop => None
    | OblateSymmTop | ProlateSymmTop | Linear =>
        oapp
          (ocollect (range 1 n1) (fun ii =>
             oapp
               (ocollect (range 0 ii) (fun jj =>
                  ocollect (range 0 n1) (fun kk =>
                    ferm2_test freq f3 (a ii) (a jj) (a kk))))
               (ocollect (range 0 n2) (fun jj =>
                  ocollect (range 0 n2) (fun kk =>
                    ferm2_test freq f3 (a ii) (e jj) (e kk))))))
        (oapp
          (ocollect (range 1 n2) (fun ii =>
             ocollect (range 0 (n2 - 1)) (fun jj =>
               oapp
                 (ocollect (range 0 n1) (fun kk =>
                    ferm2_test freq f3 (e ii) (e jj) (a kk)))
                 (ocollect (range 0 n2) (fun kk =>
                    ferm2_test freq f3 (e ii) (e jj) (e kk))))))
          (Some (collect (range 0 n2) (fun ii =>
             collect (range 0 ii) (fun jj =>
               collect (range 0 n1) (fun kk =>
                 ferm2_test' freq f3 (e ii) (e jj) (a kk))
               ++
               collect (range 0 n2) (fun kk =>
                 ferm2_test' freq f3 (e ii) (e jj) (e kk)))))))
    | AsymmTop =>
        ocollect (range 1 n1) (fun ii =>
          ocollect (range 0 ii) (fun jj =>
            ocollect (range 0 jj) (fun kk =>
              ferm2_test freq f3 (a ii) (a jj) (a kk))))
    | NoRotor => None
    end.
End Numeric.

(** state.rs:4-23 *)
Inductive state :=
| I1st (v : list nat)
| I2st (v : list (nat * nat))
| I3st (v : list nat)
| I12st (i1st : list nat) (i2st : list (nat * nat)).

(** state.rs:51-86 [State::partition], entry by entry *)
Definition state_i1 (s : state) : list nat :=
  match s with
  | I1st v => v
  | I2st v => repeat 0 (length v)
  | I3st v => repeat 0 (length v)
  | I12st a _ => a
  end.
Definition state_i2 (s : state) : list (nat * nat) :=
  match s with
  | I1st v => repeat (0, 0) (length v)
  | I2st v => v
  | I3st v => repeat (0, 0) (length v)
  | I12st _ b => b
  end.
Definition state_i3 (s : state) : list nat :=
  match s with
  | I1st v => repeat 0 (length v)
  | I2st v => repeat 0 (length v)
  | I3st v => v
  | I12st a _ => repeat 0 (length a)
  end.

(** resonance.rs:159-167: the growing state list and the three look-up tables *)
Record tables := mk_tables {
  t_states : list state;
  t_funda : list nat;
  t_ovrtn : list nat;
  t_combn : list nat;
  t_ist : nat }.

Inductive table_id := Funda | Ovrtn | Combn.

Definition write_all (l : list nat) (idxs : list nat) (x : nat) : option (list nat) :=
  ofold (fun l i => set_nth l i x) idxs l.

(** the common shape of every loop body of resonance.rs:170-273: push a state, store
    the counter under the given indices of one table, advance the counter *)
Definition emit (k : table_id) (s : option state) (idxs : list nat) (t : tables)
  : option tables :=
  let* s := s in
  match k with
  | Funda =>
      let* l := write_all (t_funda t) idxs (t_ist t) in
      Some (mk_tables (t_states t ++ [s]) l (t_ovrtn t) (t_combn t) (t_ist t + 1))
  | Ovrtn =>
      let* l := write_all (t_ovrtn t) idxs (t_ist t) in
      Some (mk_tables (t_states t ++ [s]) (t_funda t) l (t_combn t) (t_ist t + 1))
  | Combn =>
      let* l := write_all (t_combn t) idxs (t_ist t) in
      Some (mk_tables (t_states t ++ [s]) (t_funda t) (t_ovrtn t) l (t_ist t + 1))
  end.

(** [vec![0; nvib]] with one or two entries set; a set out of range panics *)
Definition vec1 (nvib i x : nat) : option (list nat) := set_nth (repeat 0 nvib) i x.
Definition vec11 (nvib i j : nat) : option (list nat) :=
  let* v := vec1 nvib i 1 in set_nth v j 1.
Definition pvec1 (nvib i : nat) (x : nat * nat) : option (list (nat * nat)) :=
  set_nth (repeat (0, 0) nvib) i x.
Definition pvec11 (nvib i j : nat) : option (list (nat * nat)) :=
  let* v := pvec1 nvib i (1, 1) in set_nth v j (1, 1).

(** resonance.rs:153-273: the part of [Restst::new] that builds the state list *)
Definition restst_tables (nvib i2vib : nat) (modes : list mode) : option tables :=
  let n1 := n1dm modes in
  let n2 := n2dm modes in
  let n3 := n3dm modes in
  let t := mk_tables [I1st (repeat 0 nvib)] (repeat 0 nvib) (repeat 0 nvib)
             (repeat 0 i2vib) 1 in
  (* fundamentals, 170-196 *)
  let* t := ofold (fun t ii =>
      emit Funda (option_map I1st (vec1 nvib ii 1)) [m1 modes ii] t)
    (range 0 n1) t in
  let* t := ofold (fun t ii =>
      let '(a, b) := m2 modes ii in
      emit Funda (option_map I2st (pvec1 nvib ii (1, 1))) [a; b] t)
    (range 0 n2) t in
  let* t := ofold (fun t ii =>
      let '(a, b, c) := m3 modes ii in
      emit Funda (option_map I3st (vec1 nvib ii 1)) [a; b; c] t)
    (range 0 n3) t in
  (* overtones, 201-217 *)
  let* t := ofold (fun t ii =>
      emit Ovrtn (option_map I1st (vec1 nvib ii 2)) [m1 modes ii] t)
    (range 0 n1) t in
  let* t := ofold (fun t ii =>
      let '(a, b) := m2 modes ii in
      emit Ovrtn (option_map I2st (pvec1 nvib ii (2, 0))) [a; b] t)
    (range 0 n2) t in
  (* combination bands, 220-252 *)
  let* t := ofold (fun t ii =>
      let i := m1 modes ii in
      let* t := ofold (fun t jj =>
          emit Combn (option_map I1st (vec11 nvib ii jj)) [pair_index i (m1 modes jj)] t)
        (range (ii + 1) n1) t in
      ofold (fun t jj =>
          let '(j1, j2) := m2 modes jj in
          emit Combn
            (let* a := vec1 nvib ii 1 in
             let* b := pvec1 nvib jj (1, 1) in Some (I12st a b))
            [pair_index i j1; pair_index i j2] t)
        (range 0 n2) t)
    (range 0 n1) t in
  (* 255-273 *)
  ofold (fun t ii =>
      let '(i1, i2) := m2 modes ii in
      ofold (fun t jj =>
          let '(j1, j2) := m2 modes jj in
          emit Combn (option_map I2st (pvec11 nvib ii jj))
            [pair_index i1 j1; pair_index i1 j2; pair_index i2 j1; pair_index i2 j2] t)
        (range (ii + 1) n2) t)
    (range 0 n2) t.
