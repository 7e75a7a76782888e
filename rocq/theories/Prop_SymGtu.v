(** Property C94: the constants g of two different pairs of degenerate modes are the
    coefficients of the product of their angular momenta in the effective Hamiltonian. *)
From Coq Require Import Reals Lra List Arith Lia Bool Permutation Sorted.
From Verif Require Import Num Loops Index Modes VibRot Anharm SymAnharm ModesFacts StatesFacts ResFacts
  AnharmFacts VibRotFacts EnergyFacts SymExact SymE0 PerturbFacts PerturbSum PerturbLevels SymPerturb SymLevels
  VanVleck SymGtu.
Import ListNotations.
Open Scope nat_scope.
Local Open Scope R_scope.

(** C94: [two x y] has one quantum of mode x and one of mode y; [ll n a b c d u v] is the
    element of l_ab l_cd between u and v.  The two elements of the effective Hamiltonian
    that move one quantum in either pair differ by g times the difference of the elements of
    l_ab l_cd, which are 1 and -1. *)
Theorem g_from_effective :
  forall n modes (w : nat -> R) f3 f4 zeta B r wila x g e0,
  top_field n modes w f3 f4 zeta B r wila -> alike r modes wila zeta ->
  xcals f4 w f3 zeta B r [] [] modes wila = Some (x, g, e0) ->
  let H := effective n w f3 f4 zeta B none in
  forall a b c d, In (a, b) (degs modes) -> In (c, d) (degs modes) -> a <> c ->
  H (two b c) (two a d) - H (two b d) (two a c)
    = g a c * (ll n a b c d (two b c) (two a d) - ll n a b c d (two b d) (two a c)) /\
  ll n a b c d (two b c) (two a d) = 1 /\ ll n a b c d (two b d) (two a c) = - 1.
Proof. exact g_tu_lemma. Qed.
Example g_from_effective_ex :
  nondeg gmodes = [0%nat] /\ degs gmodes = [(1, 2); (3, 4)]%nat /\
  top_field 5 gmodes gw gf3 gf4 gzeta tB OblateSymmTop gwila /\
  alike OblateSymmTop gmodes gwila gzeta /\
  exists s, xcals gf4 gw gf3 gzeta tB OblateSymmTop [] [] gmodes gwila = Some s.
Proof. exact g_example. Qed.
Print Assumptions g_from_effective.
