(** Model of the printing of the tables of cubic and quartic force constants. *)
From Coq Require Import List Arith Ascii String.
From Verif Require Import Text.
Import ListNotations.
Open Scope list_scope.
Open Scope nat_scope.

Section TableText.
  Context {F : Type} `{FText F}.

  (** f3qcm.rs:40-49 and f4qcm.rs:53-62 [Display]: one number per line; [width] and [prec] are those of the format,
      if it has any *)
  Definition table_text (width prec : option nat) (v : list F) : text :=
    let w := match width with Some w => w | None => 16 end in
    let p := match prec with Some p => p | None => 8 end in
    unlines (map (fun x => pad w (fprint p x)) v).
End TableText.
