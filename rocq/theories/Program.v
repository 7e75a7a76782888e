(** Model of the program: from the texts of the four input files to the text of the report. *)
From Coq Require Import List ZArith NArith Arith Bool Ascii.
From Verif Require Import Num Loops Index Text Modes Anharm VibRot Distort Transform SymAnharm Polyads
  Report Geom Finish OutText.
Import ListNotations.
Open Scope list_scope.
Open Scope nat_scope.

(** [u8::is_ascii_whitespace]: as [is_space], but not the vertical tab *)
Definition is_ascii_space (c : ascii) : bool :=
  existsb (Ascii.eqb c) ["009"%char; newline; "012"%char; carriage; space].

(** [str::split_ascii_whitespace] *)
Fixpoint ascii_words (t : text) : list text :=
  match t with
  | [] => []
  | c :: r =>
      if is_ascii_space c then ascii_words r
      else match r with
           | [] => [[c]]
           | d :: _ =>
               if is_ascii_space d then [c] :: ascii_words r
               else match ascii_words r with
                    | w :: ws => (c :: w) :: ws
                    | [] => [[c]]
                    end
           end
  end.

(** what is used of the crate symm *)
Record symm (F I : Type) := {
  (** [Molecule::to_angstrom], [Molecule::normalize] (moments of inertia, axes, kind of rotor and
      the moved atoms), [Molecule::com], [Molecule::point_group_approx] with tolerance 1e-6,
      [Molecule::weights] *)
  to_angstrom : list (atom F) -> list (atom F);
  normalize : list (atom F) -> (F * F * F) * (nat -> nat -> F) * rotor * list (atom F);
  centre_of_mass : list (atom F) -> F * F * F;
  point_group : list (atom F) -> group;
  masses : list (atom F) -> list F;
  (** the entry of [detect_buddies] for the atom in lib.rs:632-636, for an axis and its order *)
  find_buddy : list (atom F) -> axis -> nat -> nat -> option nat;
  (** [irrep_approx] of the molecule displaced along a mode, [Irrep::A], [Axis::default] *)
  irrep_of : list (atom F) -> (nat -> nat -> F) -> nat -> F -> option I;
  irrep_A : I;
  axis_default : axis;
  (** the lines of [{:.8}] of a molecule, [{:>8}] of a label *)
  molecule_lines : list (atom F) -> list text;
  irrep_text : nat -> I -> text }.
Arguments to_angstrom {F I}. Arguments normalize {F I}. Arguments centre_of_mass {F I}.
Arguments point_group {F I}. Arguments masses {F I}. Arguments find_buddy {F I}. Arguments irrep_of {F I}.
Arguments irrep_A {F I}. Arguments axis_default {F I}. Arguments molecule_lines {F I}. Arguments irrep_text {F I}.

(** lib.rs:111-145 [Spectro] after [process_geom]; [primat] has three entries *)
Record loaded (F : Type) := mk_loaded {
  l_input : spectro F;
  l_rotor : rotor;
  l_primat : F * F * F;
  l_axes : nat -> nat -> F;
  l_iatom : nat;
  l_order : nat;
  l_axis : axis;
  l_sizes : sizes }.
Arguments mk_loaded {F}. Arguments l_input {F}. Arguments l_rotor {F}. Arguments l_primat {F}. Arguments l_axes {F}.
Arguments l_iatom {F}. Arguments l_order {F}. Arguments l_axis {F}. Arguments l_sizes {F}.

Section Program.
  Context {F I : Type} `{Num F} `{Trig F} `{FText F}.
  Variable sy : symm F I.
  Variables (eig2 : F -> F -> F -> F * F * (F * F)) (eig : (nat -> nat -> F) -> list F * (nat -> nat -> F))
    (fuel : nat) (eprint : nat -> F -> text) (polyad : bool).
  Local Open Scope num_scope.

  Definition position (a : atom F) : F * F * F := (ax a, ay a, az a).
  Definition place (a : atom F) (v : F * F * F) : atom F :=
    let '(x, y, z) := v in {| number := number a; ax := x; ay := y; az := z; weight := weight a |}.

  (** [Molecule::translate] by [-com] *)
  Definition shift_back (c : F * F * F) (a : atom F) : atom F :=
    let '(cx, cy, cz) := c in place a (ax a + - cx, ay a + - cy, az a + - cz).

  (** load.rs:161-245 [process_geom], in full *)
  Definition process_molecule (s : spectro F) : option (loaded F) :=
    let '(pr, axes, r, at_) := normalize sy (to_angstrom sy (atoms s)) in
    let at_ := map (shift_back (centre_of_mass sy at_)) at_ in
    let* sym := is_sym_top r in
    let* (vs, axes, top) :=
      orient_geom sym (is_linear r) (point_group sy at_) (axis_default sy) (map position at_) axes in
    let at_ := map (fun '(a, v) => place a v) (combine at_ vs) in
    let '(iatom, order, a) := match top with Some x => x | None => (0%nat, 0%nat, axis_default sy) end in
    let* sz := make_sizes (length at_) (is_linear r) in
    Some (mk_loaded {| header := header s; atoms := at_; weights := weights s; curvils := curvils s;
                       degmodes := degmodes s; dummies := dummies s |}
            r pr axes iatom order a sz).

  (** load.rs:21-28 [Spectro::load] *)
  Definition load_input (t : text) : option (loaded F) :=
    let* s := read t in process_molecule s.

  (** the rotational constants, load.rs:169-173 *)
  Definition at3 (v : F * F * F) (i : nat) : F :=
    let '(x, y, z) := v in match i with 0 => x | 1 => y | _ => z end.
  Definition l_rotcon (l : loaded F) (i : nat) : F := rot_const (at3 (l_primat l) i).

  (** the fields that [run] reads *)
  Definition molecule_of (l : loaded F) : molecule F :=
    let at_ := atoms (l_input l) in
    mk_mol (l_rotor l) (header (l_input l)) (length at_) (sz_nvib (l_sizes l))
      (fun i => nth i (map position at_) (nz 0, nz 0, nz 0)) (fun i => nth i (masses sy at_) (nz 0))
      (l_rotcon l) (at3 (l_primat l)).

  (** the numbers of a file: load.rs:384-388 and utils.rs:147-158 [load_vec] *)
  Definition numbers (t : text) : option (list F) := omap fparse (words t).
  Definition load_vec (t : text) : option (list F) := omap fparse (ascii_words t).

  (** load.rs:380-410, load.rs:446-453 [load_fc2], [load_fc3], [load_fc4] from the texts of the files.
      [run] reads the entries below [n3n] only, which are all there. *)
  Definition read_fc2 (n3n : nat) (t : text) : option (nat -> nat -> F) :=
    let* l := numbers t in
    let* f := load_fc2 n3n l in
    Some (fun i j => match f i j with Some x => x | None => nz 0 end).
  Definition read_fc3 (n3n : nat) (t : text) : option (nat -> nat -> nat -> F) :=
    let* l := load_vec t in new_fc3 n3n l.
  Definition read_fc4 (n3n : nat) (t : text) : option (nat -> nat -> nat -> nat -> F) :=
    let* l := load_vec t in new_fc4 n3n l.

  (** run.rs:344-354 [run_files] *)
  Definition run_files (l : loaded F) (fort15 fort30 fort40 : text) : option (result F I) :=
    let n3n := sz_n3n (l_sizes l) in
    let at_ := atoms (l_input l) in
    let* fc2 := read_fc2 n3n fort15 in
    let* f3x := read_fc3 n3n fort30 in
    let* f4x := read_fc4 n3n fort40 in
    run eig2 eig (fun _ => irrep_of sy at_) (irrep_A sy) fuel (find_buddy sy at_ (l_axis l) (l_order l) (l_iatom l))
      polyad (molecule_of l) (l_axes l) (l_iatom l) (l_order l) (Quartic fc2 f3x f4x).

  (** spectro_bin/src/main.rs:42-81 [main] without options: the report.  [fort15], [fort30] and
      [fort40] are the texts of the files of these names beside the input file; a missing file
      ends the program.  A harmonic result does not occur here (C63). *)
  Definition program (infile fort15 fort30 fort40 : text) : option text :=
    let* l := load_input infile in
    let* r := run_files l fort15 fort30 fort40 in
    match r with
    | FullResult o =>
        let geo := molecule_lines sy (atoms (l_input l)) in
        write_output eprint (irrep_text sy) geo (m_rotcon (molecule_of l)) geo o
    | HarmonicResult _ _ _ _ _ => None
    end.
End Program.
