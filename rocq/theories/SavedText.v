(** Model of the options --finish and --to-gauss, which start from the data of a run before its last step. *)
From Coq Require Import List ZArith NArith Arith Bool Ascii String.
From Verif Require Import Num Loops Index Text Modes Anharm VibRot Distort Transform SymAnharm Polyads
  Report Geom Finish OutText Program DumpText.
Import ListNotations.
Open Scope list_scope.
Open Scope nat_scope.

(** run.rs:16-25 [SpectroFinish]; the matrices by their entries.  Writing it as JSON and reading it back is taken
    to give the same data (run.rs:48-59 [dump], [load]). *)
Record saved (F I : Type) := mk_saved {
  s_spectro : loaded F;
  s_freq : list F;
  s_f3qcm : list F;
  s_f4qcm : list F;
  s_irreps : list I;
  s_lxm : nat -> nat -> F;
  s_lx : nat -> nat -> F }.
Arguments mk_saved {F I}.
Arguments s_spectro {F I}.
Arguments s_freq {F I}.
Arguments s_f3qcm {F I}.
Arguments s_f4qcm {F I}.
Arguments s_irreps {F I}.
Arguments s_lxm {F I}.
Arguments s_lx {F I}.

Section SavedText.
  Context {F I : Type} `{Num F} `{Trig F} `{FText F}.
  Variable sy : symm F I.
  Variables (eig2 : F -> F -> F -> F * F * (F * F)) (eig : (nat -> nat -> F) -> list F * (nat -> nat -> F))
    (fuel : nat) (eprint : nat -> F -> text) (polyad : bool).
  Local Open Scope num_scope.

  (** run.rs:344-354 [run_files] and run.rs:177-224 [run] up to the call of [finish]: what it is called with *)
  Definition run_saved (l : loaded F) (fort15 fort30 fort40 : text) : option (saved F I) :=
    let at_ := atoms (l_input l) in
    let m := molecule_of sy l in
    let* fc2 := read_fc2 (sz_n3n (l_sizes l)) fort15 in
    let* f3x := read_fc3 (sz_n3n (l_sizes l)) fort30 in
    let* f4x := read_fc4 (sz_n3n (l_sizes l)) fort40 in
    let natom := m_natom m in
    let nvib := m_nvib m in
    let n3n := (3 * natom)%nat in
    let* (freql, lxm) := harmonic natom (l_axes l) fc2 (m_w m) eig in
    let freq i := nth i freql (nz 0) in
    let lx := make_lx n3n (make_sqm (m_w m)) lxm in
    let* sym := is_sym_top (m_rotor m) in
    let* (lxm, lx) :=
      (if sym : bool
       then bdegnl (is_linear (m_rotor m)) natom nvib (l_iatom l) (l_order l)
         (find_buddy sy at_ (l_axis l) (l_order l) (l_iatom l)) freq (m_w m) lxm lx
       else Some (lxm, lx)) in
    let* irreps := compute_irreps_in (irrep_of sy at_ lxm) (irrep_A sy) fuel n3n nvib (nlit 1 10000) in
    let* f3l := force3 n3n (rot3rd natom n3n (l_axes l) f3x) lx nvib freq in
    let* f4l := force4 n3n (rot4th natom n3n (l_axes l) f4x) lx nvib freq in
    Some (mk_saved l freql f3l f4l irreps lxm lx).

  (** spectro_bin/src/main.rs:48-61, 76-81 [main] with --finish *)
  Definition main_finish (s : saved F I) : option text :=
    let m := molecule_of sy (s_spectro s) in
    let* o := finish eig2 polyad m (s_freq s) (s_f3qcm s) (s_f4qcm s) (s_irreps s) (s_lxm s) (s_lx s) in
    let geo := molecule_lines sy (atoms (l_input (s_spectro s))) in
    write_output eprint (irrep_text sy) geo (m_rotcon m) geo o.

  (** spectro_bin/src/main.rs:43-47 [main] with --to-gauss; run.rs:61-106 [to_gauss]: the lines.  A row has the
      format "{:5}{:5}{:5}{:20.12}" or "{:5}{:5}{:5}{:5}{:20.12}". *)
  Definition main_gauss (s : saved F I) : option text :=
    let* (c, q) := to_gauss (List.length (s_freq s)) (s_f3qcm s) (s_f4qcm s) in
    Some (unlines (lit "CUBIC FORCE CONSTANTS IN NORMAL MODES" :: map dump_line c ++
                   lit "QUARTIC FORCE CONSTANTS IN NORMAL MODES" :: map dump_line q)).
End SavedText.
