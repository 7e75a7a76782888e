(** Small vocabulary for loops, point updates and panics. *)
From Coq Require Import List Arith Lia Bool.
Import ListNotations.

(** [for i in a..b]: the indices in iteration order *)
Definition range (a b : nat) : list nat := seq a (b - a).

(** a loop that only pushes: the concatenation of what each iteration pushes *)
Definition collect {A B} (l : list A) (f : A -> list B) : list B := flat_map f l.

(** [v[i] = x] on a list; out of range is a panic *)
Fixpoint set_nth {A} (l : list A) (i : nat) (x : A) : option (list A) :=
  match l, i with
  | [], _ => None
  | _ :: t, O => Some (x :: t)
  | h :: t, S i' => match set_nth t i' x with
                    | Some t' => Some (h :: t')
                    | None => None
                    end
  end.

(** point updates of arrays represented by functions *)
Definition upd1 {A} (m : nat -> A) (i : nat) (x : A) : nat -> A :=
  fun a => if a =? i then x else m a.
Definition upd2 {A} (m : nat -> nat -> A) (i j : nat) (x : A) : nat -> nat -> A :=
  fun a b => if (a =? i) && (b =? j) then x else m a b.
Definition upd3 {A} (m : nat -> nat -> nat -> A) (i j k : nat) (x : A)
  : nat -> nat -> nat -> A :=
  fun a b c => if (a =? i) && (b =? j) && (c =? k) then x else m a b c.
Definition upd4 {A} (m : nat -> nat -> nat -> nat -> A) (i j k l : nat) (x : A)
  : nat -> nat -> nat -> nat -> A :=
  fun a b c d =>
    if (a =? i) && (b =? j) && (c =? k) && (d =? l) then x else m a b c d.

Definition obind {A B} (o : option A) (f : A -> option B) : option B :=
  match o with Some a => f a | None => None end.
Notation "'let*' x ':=' o 'in' b" := (obind o (fun x => b))
  (at level 200, x pattern, o at level 100, b at level 200).

(** a loop whose body may panic *)
Fixpoint ofold {A S} (f : S -> A -> option S) (l : list A) (s : S) : option S :=
  match l with
  | [] => Some s
  | a :: l' => match f s a with Some s' => ofold f l' s' | None => None end
  end.
