(** The lists of a result and the tables printed from them. *)
From Coq Require Import List ZArith Arith.
From Verif Require Import Num Loops Index Modes Anharm VibRot Transform.
Import ListNotations.

Section Report.
  Context {F I : Type} `{Num F}.
  Local Open Scope num_scope.

  (** output.rs:26-44: the per-mode lists of [Output]; the other fields are left out *)
  Record lists := mk_lists { o_harms : list F; o_funds : list F; o_corrs : list F; o_irreps : list I }.

  (** run.rs:199-209: the result of a run with harmonic force constants only; the other
      lists come from [Default] *)
  Definition harmonic_lists (nvib : nat) (freq : list F) (irreps : list I) : option lists :=
    let* harms := reported_harms nvib freq in Some (mk_lists harms [] [] irreps).

  (** run.rs:263-270 and 301-305, the lists of [finish].  [sym] is
      [self.rotor.is_sym_top()], [eng] the energies after [enrgy].  [freq] has all 3N
      entries, so indexing it by a mode number below [nvib] does not panic. *)
  Definition finish_lists (sym : bool) (nvib : nat) (modes : list mode) (freq : list F)
    (xcnst : nat -> nat -> F) (gcnst : option (nat -> nat -> F)) (eng : list F) (irreps : list I)
    : option lists :=
    let f i := nth i freq (nz 0) in
    let* (harms, funds) :=
      (if sym then make_sym_funds f modes xcnst gcnst
       else let* h := reported_harms nvib freq in Some (h, make_funds nvib f xcnst)) in
    let* c := corrs modes eng in
    Some (mk_lists harms funds c irreps).

  (** output.rs:88-99: one printed row: number, label, harmonic frequency, fundamental and
      corrected fundamental; [None] is an index out of range *)
  Record row := mk_row { row_mode : nat; row_irrep : I; row_harm : F; row_fund : F; row_corr : F }.
  Definition table (o : lists) : option (list row) :=
    ofold (fun acc i =>
      let* l := nth_error (o_irreps o) i in
      let* h := nth_error (o_harms o) i in
      let* f := nth_error (o_funds o) i in
      let* c := nth_error (o_corrs o) i in
      Some (acc ++ [mk_row (i + 1)%nat l h f c])) (range 0 (length (o_harms o))) [].

  (** output.rs:116-119: the rows of a linear molecule *)
  Definition linear_rows (rots : list (rot F)) (rot_equil : nat -> F) : list (state * F) :=
    map (fun r => (rot_state r, rot_b r + rot_equil 1%nat)) rots.
End Report.
Arguments lists : clear implicits.
Arguments row : clear implicits.
