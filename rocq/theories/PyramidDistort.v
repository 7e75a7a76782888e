(** The pyramid meets the hypotheses of the theorem on its quartic constants. *)
From Coq Require Import Reals Lra List ZArith Arith Lia Bool.
From Verif Require Import Num Loops ListFacts AnharmFacts Modes ResFacts Transform TransformFacts RotFacts HarmFacts ModeFacts ZeroFacts DistortFacts InertiaFacts EckartFacts ReportFacts GeomFacts
  Geom AlignExact Finish Threefold ThreeForm ThreeModes ThreeWitness PyramidWitness PyramidRun.
Import ListNotations.
Open Scope nat_scope.
Local Open Scope R_scope.

(** shifting the molecule costs no energy *)
Lemma pyr_shift : translation_free 4 pyr_f2.
Proof.
  intros a x Ha Hx.
  assert (Z : forall k, (k < 6)%nat -> Sum 4 (fun q => pyr_V (3 * q + x) k) = 0).
  { intros k Hk. below3 x; below6 k; cbn; lra. }
  transitivity (Sum 4 (fun q => / @FACT2 R Rnum * (tri_val 3500 * pyr_V a 0) * pyr_V (3 * q + x) 0
    + / @FACT2 R Rnum * (tri_val 2500 * pyr_V a 1) * pyr_V (3 * q + x) 1 + / @FACT2 R Rnum * (tri_val 2500 * pyr_V a 2) * pyr_V (3 * q + x) 2
    + / @FACT2 R Rnum * (tri_val 1900 * pyr_V a 3) * pyr_V (3 * q + x) 3
    + / @FACT2 R Rnum * (tri_val 1300 * pyr_V a 4) * pyr_V (3 * q + x) 4 + / @FACT2 R Rnum * (tri_val 1300 * pyr_V a 5) * pyr_V (3 * q + x) 5)).
  - apply sum_g. intros b Hb. unfold pyr_f2. ring.
  - rewrite !Rsum_plus, !Rsum_scal, !Z by lia. ring.
Qed.
Lemma pyr_centre x : (x < 3)%nat -> Sum 4 (fun q => m_w pyr_mol q * comp (m_geom pyr_mol q) x) = 0.
Proof. intros Hx. below3 x; cbn; lra. Qed.

Lemma pyr_more :
  let m := pyr_mol in
  m_rotor m = OblateSymmTop /\ m_rotcon m 2%nat < m_rotcon m 0%nat /\ (3 * m_natom m = m_nvib m + 6)%nat /\
  translation_free 4 pyr_f2 /\
  (forall x, (x < 3)%nat -> Sum 4 (fun q => m_w m q * comp (m_geom m q) x) = 0) /\
  (forall x y, (x < 3)%nat -> (y < 3)%nat -> inertia 4 (m_w m) (m_geom m) x y = kron x y * m_primat m x) /\
  0 < pyr_lam.
Proof.
  cbv zeta. split; [reflexivity|]. split.
  { cbn. destruct pyr_KJ as [_ P]. apply Rmult_lt_compat_l; [exact P|]. lra. }
  split; [reflexivity|]. split; [exact pyr_shift|]. split; [exact pyr_centre|]. split.
  { intros x y Hx Hy. change (inertia 4 (fun _ => 1) pyr_geom x y = kron x y * pyr_J x). rewrite pyr_inertia by assumption.
    unfold kron. destruct (x =? y)%nat; ring. }
  unfold pyr_lam. lra.
Qed.
