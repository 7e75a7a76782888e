(** Property C136: the printed tables of force constants. *)
From Coq Require Import List ZArith Arith Lia Ascii String.
From Verif Require Import Num Loops ListFacts Index Text TextFacts RoundFacts SpacingFacts DummyFacts Program ProgramFacts TableText TableFacts.
Import ListNotations.
Open Scope list_scope.
Open Scope nat_scope.

(** C136: a printed table, with any width and precision, is read back by the functions that read force-constant
    files: as many numbers in the same order, each printing as before, so that printing them again gives the same
    text and every triple or quadruple of modes has its constant. *)
Theorem table_reread : forall (F : Type) (T : FText F), float_text F -> forall (width prec : option nat) (v : list F),
    let p := match prec with Some p => p | None => 8 end in
    exists v', load_vec (table_text width prec v) = Some v' /\ numbers (table_text width prec v) = Some v' /\
      Forall2 (fun x y => fparse (fprint p x) = Some y /\ fprint p y = fprint p x) v v' /\
      table_text width prec v' = table_text width prec v /\
      (forall i j k x, f3qcm_get v i j k = Some x -> exists y, f3qcm_get v' i j k = Some y /\ fprint p y = fprint p x) /\
      (forall i j k l x, f4qcm_get v i j k l = Some x -> exists y, f4qcm_get v' i j k l = Some y /\ fprint p y = fprint p x).
Proof. exact (@table_reread_lemma). Qed.
Example table_reread_ex : float_text Z /\
  load_vec (table_text (Some 3) (Some 1) [12; -3456; 7; 8]%Z) = Some [12; -3456; 7; 8]%Z /\
  f3qcm_get [12; -3456; 7; 8]%Z 1 0 1 = Some 7%Z.
Proof. split; [exact Ztext_ok|]. split; vm_compute; reflexivity. Qed.
Print Assumptions table_reread.

(** C136: the lines are right-aligned to the width and a long number is not cut *)
Theorem table_lines : forall (F : Type) (T : FText F), float_text F -> forall (width prec : option nat) (v : list F),
    let w := match width with Some w => w | None => 16 end in
    let p := match prec with Some p => p | None => 8 end in
    Forall2 (fun x r => exists n, r = repeat space n ++ fprint p x /\ List.length r = max w (List.length (fprint p x)))
      v (lines (table_text width prec v)).
Proof. exact (@table_lines_lemma). Qed.
Example table_lines_ex : float_text Z /\ List.length (lines (table_text None None [12; -3456; 7; 8]%Z)) = 4.
Proof. split; [exact Ztext_ok|vm_compute; reflexivity]. Qed.
Print Assumptions table_lines.
