(** Properties C84-C87: the quartic and sextic constants of symmetric tops. *)
From Coq Require Import QArith Reals Lra Lia List ZArith Arith Bool.
From Verif Require Import Num Loops Index Modes Anharm AnharmFacts VibRot VibRotFacts Distort DistortFacts
  SexticFacts FormFacts TensorFacts ReductionFacts SymTopFacts.
Import ListNotations.
Open Scope R_scope.

(** C84.  Nielsen's constants are the coefficients of the even quartic form by total angular
    momentum and one component.  That component is the first for asymmetric and prolate
    tops and the third for oblate ones. *)
Theorem nielsen_constants_form : forall nvib (B I w : nat -> R) wl r,
  r = AsymmTop \/ r = ProlateSymmTop \/ r = OblateSymmTop ->
  let H4 := even (quartic_form (tau_spec nvib w I wl)) in
  exists q, quartic_new r nvib B I w wl = Some q /\
    forall x y z,
      cyl4 (- djn q) (- djkn q) (- dkn q) (- sdjn q) (2 * r5 q) (r6 q) x y z =
      match r with OblateSymmTop => H4 y x z | _ => H4 z x y end.
Proof. exact nielsen_lemma. Qed.
Example nielsen_constants_form_ex :
  let f := fun i : nat => match i with O => 5 | S O => 3 | _ => 2 end%Q in
  option_map (fun q => map Qred [djn q; djkn q; dkn q; sdjn q; r5 q; r6 q])
    (quartic_new (F := Q) AsymmTop 1 f (fun _ => 2) (fun _ => 10) (fun _ c => inject_Z (Z.of_nat c + 1)))%Q
  = (let k := (3833384078 # 100000) / 2 / 1600 / 4 in
     (** tau-prime: xx 9, yy 36, zz 1, xy 18 + 50, xz 3 + 8, yz 6 + 32, times - 4 k *)
     let t400 := (3 * 9 + 3 * 36 + 2 * 68) / 8 in
     let t220 := 11 + 38 - 2 * t400 in
     let t202 := (9 - 36) / 4 in
     Some (map Qred [k * t400; k * t220; k * (1 - t220 - t400); k * t202;
       - k * ((11 - 38) / 2 - t202) / 2; - k * (9 + 36 - 2 * 68) / 16]))%Q.
Proof. vm_compute. reflexivity. Qed.
Print Assumptions nielsen_constants_form.

(** C85.  When the even quartic form does not depend on the direction perpendicular to the
    third axis, it is given by Wilson's three constants.  The two nearly equal rotational
    constants are B 0 and B 1. *)
Theorem wilson_constants_form : forall nvib (B I w : nat -> R) wl r,
  r = OblateSymmTop /\ oblate_like B \/ r = ProlateSymmTop /\ prolate_like B ->
  let H4 := even (quartic_form (tau_spec nvib w I wl)) in
  axial H4 ->
  exists q, quartic_new r nvib B I w wl = Some q /\
    forall x y z, H4 x y z = top4 (djw q) (djkw q) (dkw q) x y z.
Proof. exact wilson_lemma. Qed.
Example wilson_constants_form_ex :
  axial (even (quartic_form (tau_spec 1 (fun _ => 100) (fun _ => 2) pro_wl))) /\
  tau_spec 1 (fun _ => 100) (fun _ => 2) pro_wl 0 0 1 1 <> 0 /\ prolate_like pro_B /\
  oblate_like (fun i => match i with 2%nat => 1 | _ => 2 end).
Proof.
  split; [exact pro_axial|]. split; [|unfold prolate_like, oblate_like, pro_B; lra].
  unfold tau_spec, pro_wl. cbn [acol Nat.max Nat.min Rsum fold_right seq Nat.mul Nat.add]. lra.
Qed.
Print Assumptions wilson_constants_form.

(** C86, oblate tops: Nielsen's and the S-reduced constants are Wilson's.  (With B 0 = B 1
    exactly the code divides by zero on the way to the S-reduced constants; in double
    precision the quotient is infinite and the correction zero.) *)
Theorem symmetric_constants_agree_partial : forall nvib (B I w : nat -> R) wl,
  oblate_like B -> axial (even (quartic_form (tau_spec nvib w I wl))) ->
  exists q, quartic_new OblateSymmTop nvib B I w wl = Some q /\
    djn q = djw q /\ djkn q = djkw q /\ dkn q = dkw q /\ sdjn q = 0 /\ r5 q = 0 /\ r6 q = 0 /\
    (B 0%nat <> B 1%nat ->
     dj q = djw q /\ djk q = djkw q /\ dk q = dkw q /\ sd1 q = 0 /\ sd2 q = 0 /\
     bxs q = B 1%nat /\ bys q = B 0%nat /\ bzs q = B 2%nat).
Proof. exact oblate_lemma. Qed.
Example symmetric_constants_agree_ex :
  let B := fun i => nlit (match i with 2%nat => 1 | _ => 2 end) 1 : f64 in
  let wl := fun (_ c : nat) => nz (match c with 0%nat | 2%nat => 1 | _ => 0 end) : f64 in
  option_map (fun q => (neqb (dj q) (djw q), neqb (djn q) (djw q), nltb (nz 0) (djw q), neqb (sd2 q) (nz 0)))
    (quartic_new (F := f64) OblateSymmTop 1 B (fun _ => nz 2) (fun _ => nz 128) wl)
  = Some (true, true, true, true).
Proof. vm_compute. reflexivity. Qed.
Print Assumptions symmetric_constants_agree_partial.

(** C86 is false for prolate tops: the quartic form is expanded about the first axis, the
    unique one is the third *)
Theorem symmetric_constants_agree_refuted :
  exists nvib (B I w : nat -> R) wl q,
    B 0%nat = B 1%nat /\ B 1%nat < B 2%nat /\ axial (even (quartic_form (tau_spec nvib w I wl))) /\
    quartic_new ProlateSymmTop nvib B I w wl = Some q /\
    djn q = 3 / 8 * djw q /\ dj q <> djw q /\ djw q <> 0.
Proof. exact prolate_quartic_refuted. Qed.
Print Assumptions symmetric_constants_agree_refuted.

(** C87.  When the sextic form is a, b, c, d in J and the third component plus a term of
    sixfold symmetry, these are the S-reduced sextic constants. *)
Theorem symmetric_top_sextic : forall nvib (B I w : nat -> R) wl nfreq zm f3 r a b c d h,
  r = OblateSymmTop /\ oblate_like B /\ B 0%nat <> B 1%nat \/ r = ProlateSymmTop /\ prolate_like B ->
  axial (even (quartic_form (tau_spec nvib w I wl))) ->
  (forall x y z, tensor_form (phi6 nvib nfreq B I w wl zm f3) y x z = cyl6 a b c d 0 0 0 0 0 h x y z) ->
  exists s, sextic_new r nvib nfreq B I w wl zm f3 = Some s /\
    hj s = a /\ hjk s = b /\ hkj s = c /\ hk s = d /\ h1 s = 0 /\ h2 s = 0 /\ h3 s = h.
Proof. exact top_sextic_lemma. Qed.
(** one mode without zetas and cubic constants *)
Example symmetric_top_sextic_ex :
  let B := fun i => match i with 2%nat => 2 | _ => 1 end%Q in
  let wl := fun (_ c : nat) => match c with 0%nat | 2%nat => 1 | _ => 0 end%Q in
  let k := ((3833384078 # 100000) / 2 / 160000)%Q in
  option_map (fun s => map Qred [hj s; hjk s; hkj s; hk s; h1 s; h2 s; h3 s])
    (sextic_new (F := Q) ProlateSymmTop 1 9 B (fun _ => 2) (fun _ => 100) wl (fun _ _ _ => 0) (fun _ _ _ => 0))%Q
  = Some (map Qred [(3 # 16) * k * k; - (9 # 16) * k * k; (9 # 16) * k * k; - (3 # 16) * k * k; 0; 0; 0])%Q.
Proof. vm_compute. reflexivity. Qed.
Print Assumptions symmetric_top_sextic.
