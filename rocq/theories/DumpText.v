(** Model of the option --dump-fcs: the text that a run writes before its report. *)
From Coq Require Import List ZArith NArith Arith Bool Ascii String.
From Verif Require Import Num Loops Index Text Modes Anharm VibRot Distort Transform SymAnharm Polyads
  Report Geom Finish OutText Program.
Import ListNotations.
Open Scope list_scope.
Open Scope nat_scope.

Section DumpText.
  Context {F I : Type} `{Num F} `{Trig F} `{FText F}.
  Variable sy : symm F I.
  Variables (eig2 : F -> F -> F -> F * F * (F * F)) (eig : (nat -> nat -> F) -> list F * (nat -> nat -> F))
    (fuel : nat) (eprint : nat -> F -> text) (polyad : bool).
  Local Open Scope num_scope.

  (** one row, the format "{:5}{:5}{:5}{:5}{:20.12}" (run.rs:117, 132, 148, 160) *)
  Definition dump_line (r : dump_row) : text :=
    List.concat (map int5 (fst r)) ++ pad 20 (fprint 12 (snd r)).

  (** run.rs:110, 128, 143, 153: the headings; all but the first are printed after an empty line.  The letter
      with a ring and the raised digits are given by the bytes of their encoding. *)
  Definition dump_title (k : nat) : text := lit (nth k
    ["Cartesian Hessian (mdyne/Å)"; "Normal coordinates"; "Normal coordinate cubic force constants (mdyne/Å²)";
     "Normal coordinate quartic force constants (mdyne/Å³)"]%string ""%string).

  (** run.rs:109-171 [dump_fcs]: the lines *)
  Definition dump_lines (b : list dump_row * list dump_row * list dump_row * list dump_row) : list text :=
    let '(h, m, c, q) := b in
    dump_title 0 :: map dump_line h ++
    [] :: dump_title 1 :: map dump_line m ++
    [] :: dump_title 2 :: map dump_line c ++
    [] :: dump_title 3 :: map dump_line q.

  (** run.rs:177-228: [run] up to the dump.  [m], [axes], [iatom] and [axis_order] as for [run]. *)
  Definition run_dump (label : (nat -> F * F * F) -> (nat -> nat -> F) -> nat -> F -> option I) (A : I)
    (buddy : option nat) (m : molecule F) (axes : nat -> nat -> F) (iatom axis_order : nat)
    (fc2 : nat -> nat -> F) (f3x : nat -> nat -> nat -> F) (f4x : nat -> nat -> nat -> nat -> F)
    : option (list dump_row * list dump_row * list dump_row * list dump_row) :=
    let natom := m_natom m in
    let nvib := m_nvib m in
    let n3n := (3 * natom)%nat in
    let* (freql, lxm) := harmonic natom axes fc2 (m_w m) eig in
    let freq i := nth i freql (nz 0) in
    let lx := make_lx n3n (make_sqm (m_w m)) lxm in
    let* sym := is_sym_top (m_rotor m) in
    let* (lxm, lx) :=
      (if sym : bool
       then bdegnl (is_linear (m_rotor m)) natom nvib iatom axis_order buddy freq (m_w m) lxm lx
       else Some (lxm, lx)) in
    let* irreps := compute_irreps_in (label (m_geom m) lxm) A fuel n3n nvib (nlit 1 10000) in
    let f3x := rot3rd natom n3n axes f3x in
    let* f3l := force3 n3n f3x lx nvib freq in
    let f4x := rot4th natom n3n axes f4x in
    let* f4l := force4 n3n f4x lx nvib freq in
    let h := fun a b => FACT2 * rot2nd natom axes fc2 a b in
    dump_fcs nvib n3n n3n h n3n n3n lxm f3l f4l.

  (** spectro_bin/src/main.rs:42-81 [main] with --dump-fcs: all that is written.  A run that ends early counts
      as no text here, although the dump may have been written by then. *)
  Definition program_dump (infile fort15 fort30 fort40 : text) : option text :=
    let* l := load_input sy infile in
    let n3n := sz_n3n (l_sizes l) in
    let at_ := atoms (l_input l) in
    let* fc2 := read_fc2 n3n fort15 in
    let* f3x := read_fc3 n3n fort30 in
    let* f4x := read_fc4 n3n fort40 in
    let* d := run_dump (fun _ => irrep_of sy at_) (irrep_A sy) (find_buddy sy at_ (l_axis l) (l_order l) (l_iatom l))
      (molecule_of sy l) (l_axes l) (l_iatom l) (l_order l) fc2 f3x f4x in
    let* t := program sy eig2 eig fuel eprint polyad infile fort15 fort30 fort40 in
    Some (unlines (dump_lines d) ++ t).
End DumpText.
