(** Concrete double-precision molecules for the vibration-rotation constants. *)
From Coq Require Import List ZArith Arith Bool SpecFloat Permutation.
From Verif Require Import Num Loops Index Modes ListFacts ModesFacts Anharm VibRot VibRotFacts Distort.
Import ListNotations.
Open Scope nat_scope.

(** an infinite value or not a number *)
Definition not_finite (x : f64) : Prop :=
  match x with S754_zero _ | S754_finite _ _ _ => False | _ => True end.

Definition d (n : Z) (m : positive) : f64 := nlit n m.
Definition zero1 (_ : nat) (_ : nat) : f64 := nz 0.
Definition zero3 (_ _ _ : nat) : f64 := nz 0.

(** one pair (0, 1) with zeta = 1/2 about the listed axes *)
Definition zpair (i j : nat) (axes : list nat) : nat -> nat -> nat -> f64 := fun a b x =>
  if existsb (Nat.eqb x) axes then
    if Nat.eqb a i && Nat.eqb b j then d 1 2
    else if Nat.eqb a j && Nat.eqb b i then d (-1) 2 else nz 0
  else nz 0.

(** asymmetric top: two modes of the same frequency coupled about two axes *)
Lemma asym_two_axes_lemma :
  exists modes (freq : nat -> f64) zm rotcon primat cor,
    modes = [I1 0; I1 1] /\ (forall i, freq i = nz 1000) /\
    coriolis AsymmTop modes freq zm = Some cor /\
    listed cor 1 0 0 /\ check2 (make_icorol cor) 1 0 0 = false /\
    not_finite (alpha 2 rotcon primat freq zero1 zm zero3 cor 1 0).
Proof.
  exists [I1 0; I1 1], (fun _ => nz 1000), (zpair 1 0 [0; 1]), (fun _ => nz 10), (fun _ => nz 1),
    [(1, 0, 0); (1, 0, 1)].
  split; [reflexivity|]. split; [reflexivity|].
  split; [vm_compute; reflexivity|]. split; [left; cbn; auto|].
  split; [reflexivity|]. vm_compute. exact I.
Qed.

(** prolate top: the resonance is recorded under other axis labels than those looked up *)
Lemma prolate_axes_lemma :
  exists modes (freq : nat -> f64) zm rotcon primat cor,
    modes = [I1 0; I1 1] /\ (forall i, freq i = nz 1000) /\
    coriolis ProlateSymmTop modes freq zm = Some cor /\ cor <> [] /\
    check2 (make_icorol cor) 1 0 2 = false /\
    not_finite (sym_alpha rotcon primat freq zero1 zm zero3 ProlateSymmTop modes cor 1 2).
Proof.
  exists [I1 0; I1 1], (fun _ => nz 1000), (zpair 1 0 [2]), (fun _ => nz 10), (fun _ => nz 1),
    [(0, 1, 0); (1, 0, 0)].
  split; [reflexivity|]. split; [reflexivity|].
  split; [vm_compute; reflexivity|]. split; [discriminate|].
  split; [reflexivity|]. vm_compute. exact I.
Qed.

(** oblate top: a pair of degenerate modes coupled about the symmetry axis is recorded
    with the second component of one of them and looked up with the first *)
Lemma oblate_deg_lemma :
  exists modes (freq : nat -> f64) zm rotcon primat cor,
    modes = [I2 0 1; I2 2 3] /\ (forall i, freq i = nz 1000) /\
    coriolis OblateSymmTop modes freq zm = Some cor /\ listed cor 0 3 2 /\
    check2 (make_icorol cor) 2 0 2 = false /\
    not_finite (sym_alpha rotcon primat freq zero1 zm zero3 OblateSymmTop modes cor 0 2).
Proof.
  exists [I2 0 1; I2 2 3], (fun _ => nz 1000), (zpair 0 3 [2]), (fun _ => nz 10), (fun _ => nz 1),
    [(0, 3, 2)].
  split; [reflexivity|]. split; [reflexivity|].
  split; [vm_compute; reflexivity|]. split; [left; cbn; auto|].
  split; [reflexivity|]. vm_compute. exact I.
Qed.

(** Prolate top with constants (1, 1, 5): the unique axis is axis 2 *)
Definition at_nat (l : list f64) (i : nat) : f64 := nth i l (nz 0).

Definition prol_freq : nat -> f64 := at_nat [nz 1000; nz 2000].
Definition prol_rc : nat -> f64 := at_nat [nz 1; nz 1; nz 5].
Definition prol_zm := zpair 0 1 [2].
Definition prol_modes : list mode := [I1 0; I1 1].

(** Without centrifugal terms the constants of [Quartic] are the equilibrium constants
    themselves, (1, 1, 5).  Exciting mode 1 must change the constant 5 of the unique axis
    and leave the other two alone, since only axis 2 has a non-zero alpha; the reported
    constant of the unique axis stays the same and one of the others changes. *)
Lemma prolate_swap_lemma :
  exists q t rows g f0 f1,
    quartic_new ProlateSymmTop 2 prol_rc (fun _ => nz 1) prol_freq zero1 = Some q /\
    bxs q = nz 1 /\ bys q = nz 1 /\ bzs q = nz 5 /\
    (let al := sym_alpha prol_rc (fun _ => nz 1) prol_freq zero1 prol_zm zero3
                 ProlateSymmTop prol_modes [] in
     neqb (al 1 1) (nz 0) = true /\ nltb (nz 0) (al 1 2) = true) /\
    restst_tables 2 3 prol_modes = Some t /\
    alphas prol_rc (fun _ => nz 1) prol_freq zero1 prol_zm zero3 ProlateSymmTop prol_modes
      (t_states t) [] = Some rows /\
    rots prol_rc ProlateSymmTop rows (t_states t) (bxs q) (bys q) (bzs q) = Some [g; f0; f1] /\
    rot_state g = I1st [0; 0] /\ rot_state f1 = I1st [0; 1] /\
    neqb (rot_c f1) (rot_c g) = true /\ neqb (rot_b f1) (rot_b g) = true /\
    neqb (rot_a f1) (rot_a g) = false.
Proof.
  destruct (quartic_new ProlateSymmTop 2 prol_rc (fun _ => nz 1) prol_freq zero1) as [q|] eqn:Q;
    [|vm_compute in Q; discriminate].
  destruct (restst_tables 2 3 prol_modes) as [t|] eqn:T; [|vm_compute in T; discriminate].
  destruct (alphas prol_rc (fun _ => nz 1) prol_freq zero1 prol_zm zero3 ProlateSymmTop
    prol_modes (t_states t) []) as [rows|] eqn:A;
    [|vm_compute in T; injection T as <-; vm_compute in A; discriminate].
  vm_compute in Q. injection Q as <-. vm_compute in T. injection T as <-.
  vm_compute in A. injection A as <-.
  do 6 eexists. split; [reflexivity|]. cbn [bxs bys bzs].
  split; [vm_compute; reflexivity|]. split; [vm_compute; reflexivity|].
  split; [vm_compute; reflexivity|]. split; [vm_compute; split; reflexivity|].
  split; [reflexivity|]. split; [reflexivity|].
  split; [vm_compute; reflexivity|]. vm_compute. repeat split; reflexivity.
Qed.
