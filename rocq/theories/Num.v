(** The arithmetic interface of the model.

    The Rust program computes with [f64].  [Num F] lists the operations the
    program uses.  It contains operations only and no laws, so a theorem that
    quantifies over it assumes nothing about the arithmetic.  Instances: the
    real numbers (exact meaning of the formulas), [spec_float] at binary64
    (bit-level meaning of the Rust operations) and the rationals (for
    computed examples; square root and [powf] are not available there). *)
From Coq Require Import ZArith QArith Reals Qreals.
From Coq Require Import Floats.SpecFloat.

Class Num (F : Type) := MkNum {
  nlit : Z -> positive -> F;        (** decimal literal [num/den], correctly rounded *)
  nadd : F -> F -> F;
  nsub : F -> F -> F;
  nmul : F -> F -> F;
  ndiv : F -> F -> F;
  nopp : F -> F;
  nabs : F -> F;
  nsqrt : F -> F;
  npow32 : F -> F;                  (** [powf(1.5)] *)
  nltb : F -> F -> bool;
  nleb : F -> F -> bool;
  neqb : F -> F -> bool
}.

Declare Scope num_scope.
Delimit Scope num_scope with num.
Notation "x + y" := (nadd x y) : num_scope.
Notation "x - y" := (nsub x y) : num_scope.
Notation "x * y" := (nmul x y) : num_scope.
Notation "x / y" := (ndiv x y) : num_scope.
Notation "- x" := (nopp x) : num_scope.
Notation "x <? y" := (nltb x y) : num_scope.
Notation "x <=? y" := (nleb x y) : num_scope.
Notation "x =? y" := (neqb x y) : num_scope.

Section Derived.
  Context {F : Type} `{Num F}.
  (** integer literal such as [2.0] *)
  Definition nz (z : Z) : F := nlit z 1.
  (** [n as f64] for a [usize] *)
  Definition nnat (n : nat) : F := nlit (Z.of_nat n) 1.
  (** [x.powi(2)] *)
  Definition nsq (x : F) : F := nmul x x.
  (** comparison [a >= b] is [b <= a], [a > b] is [b < a]; in IEEE arithmetic
      these are equivalent, NaN included *)
  Definition ngeb (a b : F) : bool := nleb b a.
  Definition ngtb (a b : F) : bool := nltb b a.
End Derived.

Arguments nlit {F Num} _%Z _%positive.
Arguments nz {F H} _%Z.

(** ** Real numbers *)
Definition Rltb (x y : R) : bool := if Rlt_dec x y then true else false.
Definition Rleb (x y : R) : bool := if Rle_dec x y then true else false.
Definition Reqb (x y : R) : bool := if Req_EM_T x y then true else false.

#[global] Instance Rnum : Num R := {|
  nlit := fun n d => (IZR n / IZR (Zpos d))%R;
  nadd := Rplus; nsub := Rminus; nmul := Rmult; ndiv := Rdiv;
  nopp := Ropp; nabs := Rabs; nsqrt := sqrt;
  npow32 := fun x => (x * sqrt x)%R;
  nltb := Rltb; nleb := Rleb; neqb := Reqb
|}.

(** ** IEEE binary64 as defined by the standard library *)
Definition f64 := spec_float.
Definition f64_prec : Z := 53.
Definition f64_emax : Z := 1024.

(** integer to double, rounded to nearest even *)
Definition f64_of_Z (z : Z) : f64 :=
  binary_normalize f64_prec f64_emax z 0 false.

#[global] Instance F64num : Num f64 := {|
  nlit := fun n d =>
    match d with
    | xH => f64_of_Z n
    | _ => SFdiv f64_prec f64_emax (f64_of_Z n) (f64_of_Z (Zpos d))
    end;
  nadd := SFadd f64_prec f64_emax;
  nsub := SFsub f64_prec f64_emax;
  nmul := SFmul f64_prec f64_emax;
  ndiv := SFdiv f64_prec f64_emax;
  nopp := SFopp; nabs := SFabs;
  nsqrt := SFsqrt f64_prec f64_emax;
  (* not bit exact: [powf(1.5)] is a library function in Rust *)
  npow32 := fun x => SFmul f64_prec f64_emax x (SFsqrt f64_prec f64_emax x);
  nltb := SFltb; nleb := SFleb; neqb := SFeqb
|}.

(** ** Rationals, for computed examples only.  [nsqrt] and [npow32] return 0;
    no theorem uses them. *)
#[global] Instance Qnum : Num Q := {|
  nlit := fun n d => Qred (Qmake n d);
  nadd := fun x y => Qred (Qplus x y); nsub := fun x y => Qred (Qminus x y);
  nmul := fun x y => Qred (Qmult x y); ndiv := fun x y => Qred (Qdiv x y);
  nopp := Qopp; nabs := Qabs.Qabs; nsqrt := fun _ => 0%Q; npow32 := fun _ => 0%Q;
  nltb := fun x y => negb (Qle_bool y x); nleb := Qle_bool; neqb := Qeq_bool
|}.
