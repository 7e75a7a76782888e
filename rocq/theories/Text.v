(** Model of the input file: printing it, reading it back, dummy atoms, and the
    listings of the normal coordinate force constants. *)
From Coq Require Import List ZArith NArith Arith Bool Ascii String Decimal.
From Verif Require Import Num Loops Index.
Import ListNotations.
Open Scope list_scope.
Open Scope nat_scope.

(** Text is a list of ASCII characters.  The code works on UTF-8; characters
    outside ASCII are not modelled. *)
Definition text := list ascii.
Definition lit (s : string) : text := list_ascii_of_string s.
Definition space : ascii := " "%char.
Definition newline : ascii := "010"%char.
Definition carriage : ascii := "013"%char.

(** [char::is_whitespace] on ASCII: tab, line feed, vertical tab, form feed,
    carriage return, space *)
Definition is_space (c : ascii) : bool :=
  existsb (Ascii.eqb c)
    ["009"%char; newline; "011"%char; "012"%char; carriage; space].

(** [{:w}]: right aligned in [w] columns, longer text is not cut *)
Definition pad (w : nat) (t : text) : text :=
  repeat space (w - List.length t) ++ t.

(** decimal digits of an unsigned integer *)
Fixpoint digits (u : uint) : text :=
  match u with
  | Nil => []
  | D0 u => "0"%char :: digits u
  | D1 u => "1"%char :: digits u
  | D2 u => "2"%char :: digits u
  | D3 u => "3"%char :: digits u
  | D4 u => "4"%char :: digits u
  | D5 u => "5"%char :: digits u
  | D6 u => "6"%char :: digits u
  | D7 u => "7"%char :: digits u
  | D8 u => "8"%char :: digits u
  | D9 u => "9"%char :: digits u
  end.

Definition digit (c : ascii) : option (uint -> uint) :=
  if Ascii.eqb c "0" then Some D0 else
  if Ascii.eqb c "1" then Some D1 else
  if Ascii.eqb c "2" then Some D2 else
  if Ascii.eqb c "3" then Some D3 else
  if Ascii.eqb c "4" then Some D4 else
  if Ascii.eqb c "5" then Some D5 else
  if Ascii.eqb c "6" then Some D6 else
  if Ascii.eqb c "7" then Some D7 else
  if Ascii.eqb c "8" then Some D8 else
  if Ascii.eqb c "9" then Some D9 else None.

Fixpoint undigits (t : text) : option uint :=
  match t with
  | [] => Some Nil
  | c :: r => let* d := digit c in let* u := undigits r in Some (d u)
  end.

(** [Display] for [usize] and [isize] *)
Definition show_N (n : N) : text := digits (N.to_uint n).
Definition show_Z (z : Z) : text :=
  if (z <? 0)%Z then "-"%char :: show_N (Z.to_N (- z)) else show_N (Z.to_N z).

(** at least one digit, then the value *)
Definition parse_digits (t : text) : option N :=
  match t with
  | [] => None
  | _ => let* u := undigits t in Some (N.of_uint u)
  end.

(** [str::parse::<usize>]: an optional plus sign, at least one digit, and the
    value must fit in 64 bits.  [None] is [Err]; every caller panics on it. *)
Definition parse_N (t : text) : option N :=
  let body := match t with
              | c :: r => if Ascii.eqb c "+" then r else t
              | [] => t
              end in
  let* n := parse_digits body in
  if (n <=? u64_max)%N then Some n else None.

(** [str::parse::<isize>] *)
Definition parse_Z (t : text) : option Z :=
  match t with
  | c :: r =>
      if Ascii.eqb c "-" then
        let* n := parse_digits r in
        if (n <=? 9223372036854775808)%N then Some (- Z.of_N n)%Z else None
      else
        let* n := parse_digits (if Ascii.eqb c "+" then r else t) in
        if (n <=? 9223372036854775807)%N then Some (Z.of_N n) else None
  | [] => None
  end.

(** [str::split_whitespace] *)
Fixpoint words (t : text) : list text :=
  match t with
  | [] => []
  | c :: r =>
      if is_space c then words r
      else match r with
           | [] => [[c]]
           | d :: _ =>
               if is_space d then [c] :: words r
               else match words r with
                    | w :: ws => (c :: w) :: ws
                    | [] => [[c]]
                    end
           end
  end.

(** [BufRead::lines]: split at line feeds, a carriage return just before one is
    dropped, no empty line after the last line feed *)
Fixpoint lines (t : text) : list text :=
  match t with
  | [] => []
  | c :: r =>
      if Ascii.eqb c newline then [] :: lines r
      else match r with
           | [] => [[c]]
           | d :: _ =>
               if Ascii.eqb c carriage && Ascii.eqb d newline then lines r
               else match lines r with
                    | l :: ls => (c :: l) :: ls
                    | [] => [[c]]
                    end
           end
  end.

(** [str::contains] *)
Fixpoint starts (k t : text) : bool :=
  match k, t with
  | [], _ => true
  | a :: k', b :: t' => Ascii.eqb a b && starts k' t'
  | _ :: _, [] => false
  end.
Fixpoint contains (k t : text) : bool :=
  starts k t || match t with [] => false | _ :: r => contains k r end.

Fixpoint text_eqb (a b : text) : bool :=
  match a, b with
  | [], [] => true
  | x :: a', y :: b' => Ascii.eqb x y && text_eqb a' b'
  | _, _ => false
  end.

Definition omap {A B} (f : A -> option B) (l : list A) : option (list B) :=
  ofold (fun acc a => let* b := f a in Some (acc ++ [b])) l [].

(** The standard library's decimal printing and parsing of [f64], the cast of a
    [usize] to [f64] and the truncating cast back.  [fprint p x] is [{:.p}]
    without padding. *)
Class FText (F : Type) := {
  fprint : nat -> F -> text;
  fparse : text -> option F;
  f_of_N : N -> F;
  f_to_N : F -> N }.

(** lib.rs:62-69 [Curvil] *)
Inductive curvil :=
| Bond (i j : N)
| Bend (i j k : N)
| Tors (i j k l : N).

Section Input.
  Context {F : Type} `{FText F}.

  (** the fields of [symm::Atom] *)
  Record atom := { number : N; ax : F; ay : F; az : F; weight : option F }.

  (** dummy.rs:6-18 *)
  Inductive dummy_val := Value (v : F) | FromAtom (i : nat).
  Record dummy := { dx : dummy_val; dy : dummy_val; dz : dummy_val }.

  (** the fields of [Spectro] that are part of the input file, lib.rs:111-118 *)
  Record spectro := {
    header : list Z;
    atoms : list atom;
    weights : list (N * F);
    curvils : list curvil;
    degmodes : list (list N);
    dummies : list dummy }.

  (** dummy.rs:20-36 [Dummy::get_vals]; [None] is an atom index out of range *)
  Definition get_val (sel : atom -> F) (at_ : list atom) (d : dummy_val) : option F :=
    match d with
    | Value v => Some v
    | FromAtom i => let* a := nth_error at_ i in Some (sel a)
    end.
  Definition get_vals (at_ : list atom) (d : dummy) : option (F * F * F) :=
    let* x := get_val ax at_ (dx d) in
    let* y := get_val ay at_ (dy d) in
    let* z := get_val az at_ (dz d) in
    Some (x, y, z).

  (** utils.rs:44-49, 52-56: one line of the geometry *)
  Definition geom_row (n x y z : F) : text :=
    pad 5 (fprint 2 n) ++ pad 16 (fprint 8 x) ++ pad 16 (fprint 8 y)
      ++ pad 16 (fprint 8 z).

  Definition int_row (l : list text) : text := List.concat (map (pad 5) l).

  Definition curvil_indices (c : curvil) : list N :=
    match c with
    | Bond i j => [i; j]
    | Bend i j k => [i; j; k]
    | Tors i j k l => [i; j; k; l]
    end.

  (** utils.rs:31-83 [Display for Spectro], line by line; [None] is the index
      panic of [get_vals] *)
  Definition write_lines (s : spectro) : option (list text) :=
    let* dum := omap (fun d =>
                  let* v := get_vals (atoms s) d in
                  let '(x, y, z) := v in
                  Some (geom_row (f_of_N 0) x y z)) (dummies s) in
    Some
      ([lit "# SPECTRO #############"]
       ++ map (fun c => int_row (map show_Z c))
              (chunks (List.length (header s)) 15 (header s))
       ++ [lit "# GEOM #############";
           int_row [show_N (N.of_nat (List.length (atoms s) + List.length (dummies s)));
                    show_N 0]]
       ++ map (fun a => geom_row (f_of_N (number a)) (ax a) (ay a) (az a)) (atoms s)
       ++ dum
       ++ [lit "# WEIGHT #############";
           pad 5 (show_N (N.of_nat (List.length (weights s))))]
       ++ map (fun w => pad 5 (show_N (fst w)) ++ pad 12 (fprint 6 (snd w))) (weights s)
       ++ [lit "# CURVIL #############"]
       ++ map (fun c => int_row (map show_N (curvil_indices c))) (curvils s)
       ++ match degmodes s with
          | [] => []
          | _ => lit "# DEGMODE #############"
                 :: map (fun r => int_row (map show_N r)) (degmodes s)
          end).

  (** every line is followed by a line feed *)
  Definition unlines (l : list text) : text :=
    List.concat (map (fun r => r ++ [newline]) l).
  Definition write (s : spectro) : option text :=
    let* l := write_lines s in Some (unlines l).

  (** load.rs:261-268 the sections of the file *)
  Inductive section_ := InHeader | InGeom | InWeight | InCurvil | InDegmode | Outside.

  (** the local variables of load.rs:270-273.  The hash map from coordinate text
      to atom number is a list, latest insertion first. *)
  Record reading := {
    coord_map : list (text * nat);
    state : section_;
    skip : nat;
    ret : spectro }.

  Definition lookup (m : list (text * nat)) (t : text) : option nat :=
    match find (fun p => text_eqb (fst p) t) m with
    | Some p => Some (snd p)
    | None => None
    end.

  Definition with_ret (s : reading) (r : spectro) : reading :=
    {| coord_map := coord_map s; state := state s; skip := skip s; ret := r |}.
  Definition goto (s : reading) (st : section_) (k : nat) : reading :=
    {| coord_map := coord_map s; state := st; skip := k; ret := ret s |}.

  (** load.rs:305-317: one coordinate of a dummy atom *)
  Definition dummy_coord (m : list (text * nat)) (t : text) : option dummy_val :=
    match lookup m t with
    | Some i => Some (FromAtom i)
    | None => let* v := fparse t in Some (Value v)
    end.

  (** load.rs:298-338: a line of the geometry.  The first field is parsed as a
      float and truncated.  A dummy line must have exactly three more fields
      (dummy.rs:40), an atom line at least three, and every field of an atom
      line goes into the map. *)
  Definition read_geom (s : reading) (line : text) : option reading :=
    match words line with
    | [] => None
    | n :: fields =>
        let* v := fparse n in
        let r := ret s in
        if (f_to_N v =? 0)%N then
          let* ds := omap (dummy_coord (coord_map s)) fields in
          match ds with
          | [x; y; z] =>
              Some (with_ret s
                {| header := header r; atoms := atoms r; weights := weights r;
                   curvils := curvils r; degmodes := degmodes r;
                   dummies := dummies r ++ [{| dx := x; dy := y; dz := z |}] |})
          | _ => None
          end
        else
          let i := List.length (atoms r) in
          let m := fold_left (fun m t => (t, i) :: m) fields (coord_map s) in
          match fields with
          | tx :: ty :: tz :: _ =>
              let* x := fparse tx in
              let* y := fparse ty in
              let* z := fparse tz in
              Some {| coord_map := m; state := state s; skip := skip s;
                      ret := {| header := header r;
                                atoms := atoms r ++ [{| number := f_to_N v;
                                           ax := x; ay := y; az := z; weight := None |}];
                                weights := weights r; curvils := curvils r;
                                degmodes := degmodes r; dummies := dummies r |} |}
          | _ => None
          end
    end.

  (** load.rs:275-367: one line.  [None] is a panic: text that does not parse, a
      missing field, or a curvilinear line with one or more than four fields. *)
  Definition read_line (s : reading) (line : text) : option reading :=
    if 0 <? skip s then Some (goto s (state s) (skip s - 1))
    else if contains (lit "SPECTRO") line then Some (goto s InHeader 0)
    else if contains (lit "GEOM") line then Some (goto s InGeom 1)
    else if contains (lit "WEIGHT") line then Some (goto s InWeight 1)
    else if contains (lit "CURVIL") line then Some (goto s InCurvil 0)
    else if contains (lit "DEGMODE") line then Some (goto s InDegmode 0)
    else if contains (lit "CORIOL") line then Some (goto s Outside 0)
    else
      let r := ret s in
      match state s with
      | InHeader =>
          let* l := omap parse_Z (words line) in
          Some (with_ret s
            {| header := header r ++ l; atoms := atoms r; weights := weights r;
               curvils := curvils r; degmodes := degmodes r; dummies := dummies r |})
      | InGeom => read_geom s line
      | InWeight =>
          match words line with
          | a :: b :: _ =>
              let* i := parse_N a in
              let* w := fparse b in
              Some (with_ret s
                {| header := header r; atoms := atoms r; weights := weights r ++ [(i, w)];
                   curvils := curvils r; degmodes := degmodes r; dummies := dummies r |})
          | _ => None
          end
      | InCurvil =>
          let* v := omap parse_N (words line) in
          let add c := Some (with_ret s
                {| header := header r; atoms := atoms r; weights := weights r;
                   curvils := curvils r ++ [c]; degmodes := degmodes r;
                   dummies := dummies r |}) in
          match v with
          | [] => Some s
          | [i; j] => add (Bond i j)
          | [i; j; k] => add (Bend i j k)
          | [i; j; k; l] => add (Tors i j k l)
          | _ => None
          end
      | InDegmode =>
          let* v := omap parse_N (words line) in
          match v with
          | [] => Some s
          | _ => Some (with_ret s
                {| header := header r; atoms := atoms r; weights := weights r;
                   curvils := curvils r; degmodes := degmodes r ++ [v];
                   dummies := dummies r |})
          end
      | Outside => Some s
      end.

  Definition start : reading :=
    {| coord_map := []; state := Outside; skip := 0;
       ret := {| header := []; atoms := []; weights := []; curvils := [];
                 degmodes := []; dummies := [] |} |}.

  (** load.rs:370-374: [atoms[i - 1].weight = Some(w)]; [i = 0] underflows, which
      panics in debug builds and indexes out of range in release builds *)
  Definition set_weight (at_ : list atom) (iw : N * F) : option (list atom) :=
    let '(i, w) := iw in
    if (i =? 0)%N || (N.of_nat (List.length at_) <? i)%N then None
    else
      let k := N.to_nat (i - 1) in
      let* a := nth_error at_ k in
      set_nth at_ k {| number := number a; ax := ax a; ay := ay a; az := az a;
                       weight := Some w |}.

  (** load.rs:370-376; a header of fewer than two entries is an index panic *)
  Definition apply_weights (s : spectro) : option spectro :=
    let* h := nth_error (header s) 1 in
    if (h =? -1)%Z then
      let* at_ := ofold set_weight (weights s) (atoms s) in
      Some {| header := header s; atoms := at_; weights := weights s;
              curvils := curvils s; degmodes := degmodes s; dummies := dummies s |}
    else Some s.

  (** load.rs:249-378 [read], from the text of the file *)
  Definition read (t : text) : option spectro :=
    let* s := ofold read_line (lines t) start in
    apply_weights (ret s).

  (** load.rs:161-245 [process_geom], what it does to the input fields: the atoms
      are moved (converted to angstroms, centred, rotated; [f] stands for the
      whole motion), [dummies] is not touched *)
  Definition process_geom (f : F * F * F -> F * F * F) (s : spectro) : spectro :=
    {| header := header s;
       atoms := map (fun a => let '(x, y, z) := f (ax a, ay a, az a) in
                       {| number := number a; ax := x; ay := y; az := z;
                          weight := weight a |}) (atoms s);
       weights := weights s; curvils := curvils s; degmodes := degmodes s;
       dummies := dummies s |}.

  (** load.rs:21-28 [Spectro::load], from the text of the file *)
  Definition load (f : F * F * F -> F * F * F) (t : text) : option spectro :=
    let* s := read t in Some (process_geom f s).
End Input.
Arguments atom : clear implicits.
Arguments dummy_val : clear implicits.
Arguments dummy : clear implicits.
Arguments spectro : clear implicits.
Arguments reading : clear implicits.

(** The listings.  A row is its index columns and its value; how the numbers are
    printed in it is not modelled. *)
Section Dump.
  Context {F : Type} `{Num F}.

  Definition dump_row : Type := list nat * F.

  (** one row per visited index tuple, in order; [None] is an index panic *)
  Definition rows_of {A} (l : list A) (f : A -> option (list dump_row))
    : option (list dump_row) :=
    ofold (fun acc a => let* r := f a in Some (acc ++ r)) l [].

  (** run.rs:68-84 *)
  Definition gauss_cubic (r : nat) (f3 : list F) : option (list dump_row) :=
    rows_of (tri_indices r) (fun '(i, j, k) =>
      let* v := f3qcm_get f3 i j k in
      Some (if ngtb (nabs v) (nlit 1 1000000) then [([i + 1; j + 1; k + 1], v)] else [])).

  (** run.rs:86-105 *)
  Definition gauss_quartic (r : nat) (f4 : list F) : option (list dump_row) :=
    rows_of (tetra_indices r) (fun '(i, j, k, l) =>
      let* v := f4qcm_get f4 i j k l in
      Some (if ngtb (nabs v) (nlit 1 1000000)
            then [([i + 1; j + 1; k + 1; l + 1], v)] else [])).

  (** run.rs:61-106 [to_gauss]: the cubic and the quartic block, [r] being the
      number of frequencies *)
  Definition to_gauss (r : nat) (f3 f4 : list F)
    : option (list dump_row * list dump_row) :=
    let* c := gauss_cubic r f3 in
    let* q := gauss_quartic r f4 in
    Some (c, q).

  (** run.rs:115-126: the lower triangle of the Hessian *)
  Definition dump_hessian (r2 : nat) (fc2 : nat -> nat -> F) : list dump_row :=
    collect (range 0 r2) (fun i =>
      map (fun j => ([i + 1; j + 1; 0; 0], fc2 i j)) (range 0 (i + 1))).

  (** run.rs:128-141 *)
  Definition dump_modes (a b : nat) (lxm : nat -> nat -> F) : list dump_row :=
    collect (range 0 a) (fun i =>
      map (fun j => ([i + 1; j + 1; 0; 0], lxm i j)) (range 0 b)).

  (** run.rs:143-151 *)
  Definition dump_cubic (r : nat) (f3 : list F) : option (list dump_row) :=
    rows_of (tri_indices r) (fun '(i, j, k) =>
      let* v := f3qcm_get f3 i j k in Some [([i + 1; j + 1; k + 1; 0], v)]).

  (** run.rs:153-170 *)
  Definition dump_quartic (r : nat) (f4 : list F) : option (list dump_row) :=
    rows_of (tetra_indices r) (fun '(i, j, k, l) =>
      let* v := f4qcm_get f4 i j k l in
      Some [([i + 1; j + 1; k + 1; l + 1], v)]).

  (** run.rs:109-171 [dump_fcs]: the four blocks; the two assertions come first *)
  Definition dump_fcs (r r2 c2 : nat) (fc2 : nat -> nat -> F) (a b : nat)
    (lxm : nat -> nat -> F) (f3 f4 : list F)
    : option (list dump_row * list dump_row * list dump_row * list dump_row) :=
    if negb (r2 =? c2) then None
    else if negb (r <? r2) then None
    else
      let* c := dump_cubic r f3 in
      let* q := dump_quartic r f4 in
      Some (dump_hessian r2 fc2, dump_modes a b lxm, c, q).
End Dump.
