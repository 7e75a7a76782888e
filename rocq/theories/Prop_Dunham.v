(** Property C88: diatomic molecules against Dunham's expansion. *)
From Coq Require Import Reals Lra Lia List ZArith Arith Bool.
From Verif Require Import Num Loops Index Modes Anharm VibRot Distort Transform Geom Report
  ResFacts InertiaFacts DunhamFacts.
Import ListNotations.
Open Scope R_scope.

(** C88.  Two atoms on the first principal axis, the normalised stretch, and a potential
    with Dunham's coefficients a1 and a2: the levels, the fundamental, De, He and the
    printed rotational constants are Dunham's
      Y20 = 3/2 B (a2 - 5/4 a1^2), Y00 = B/8 (3 a2 - 7/4 a1^2), De = 4 B^3 / w^2,
      He = 16 B^5 (3 + a1) / w^4, Y11 = 6 B^2 (1 + a1) / w
    except for three factors k1, k2, k3 close to 1, the same for every molecule, that come
    from the rounded conversion factors of the code.  The factor of De is 1.000236. *)
Theorem diatomic_dunham :
  exists k1 k2 k3,
  1000236 / 1000000 < k1 < 1000237 / 1000000 /\ 1 - / 1000000000000000 < k2 < 1 /\
  10000159 / 10000000 < k3 < 1000016 / 1000000 /\
  forall m x lxm (w : nat -> R) f3 f4 a1 a2,
  stretch m x lxm -> 0 < w 0%nat -> / 100 < moment m x ->
  let I a := inertia 2 m (on_axis x) a a in
  let B a := rot_const (I a) in
  let b := B 1%nat in
  let f := w 0%nat in
  dunham f b (f3 0%nat 0%nat 0%nat) (f4 0%nat 0%nat 0%nat 0%nat) a1 a2 ->
  let wl := wila 2 (on_axis x) m lxm in
  let zm := zmat 2 lxm in
  let modes := [I1 0] in
  let xc := xcalc 1 f4 w f3 zm B [] [] in
  let e0 := make_e0 f4 w f3 (make_fermi_checks [] []) modes in
  let Y20 := 3 / 2 * b * (a2 - 5 / 4 * a1 ^ 2) in
  let Y00 := b / 8 * (3 * a2 - 7 / 4 * a1 ^ 2) in
  let E v := f * (v + / 2) + Y20 * (v + / 2) ^ 2 + Y00 in
  let al := 6 * b ^ 2 / f * (1 + a1 * k3) in
  b = ROTCONST / moment m x /\
  deg_modes Diatomic 1 w = Some modes /\
  coriolis Diatomic modes w zm = Some [] /\ fermi1 Diatomic modes w f3 = Some [] /\
  fermi2 Diatomic modes w f3 = Some [] /\
  exists q s t rows out,
    quartic_new Diatomic 1 B I w wl = Some q /\ de q = 4 * b ^ 3 / f ^ 2 * k1 /\
    sextic_new Diatomic 1 6 B I w wl zm f3 = Some s /\
    he s = 16 * b ^ 5 / f ^ 4 * (3 * k1 ^ 2 + a1 * k2) /\
    restst_tables 1 1 modes = Some t /\ t_states t = [I1st [0%nat]; I1st [1%nat]; I1st [2%nat]] /\
    make_funds 1 w xc = [f + 2 * Y20] /\
    part1 w modes xc None e0 (t_states t) = Some [E 0; E 1; E 2] /\
    (forall eig2, enrgy eig2 f3 (make_fermi_checks [] []) modes t [E 0; E 1; E 2] = Some [E 0; E 1; E 2]) /\
    alphas B I w wl zm f3 Diatomic modes (t_states t) [] = Some rows /\
    rots B Diatomic rows (t_states t) (bxs q) (bys q) (bzs q) = Some out /\
    linear_rows out B = [(I1st [0%nat], b + al / 2); (I1st [1%nat], b + al * (3 / 2))].
Proof. exact diatomic_dunham_lemma. Qed.
(** two atoms of mass 4 at distance 2, and any Dunham coefficients *)
Example diatomic_dunham_ex :
  let m := fun _ : nat => 4 in
  let x := fun i : nat => match i with O => - 1 | _ => 1 end in
  let lxm := fun r k : nat => match r with O => - sqrt (/ 2) | 3%nat => sqrt (/ 2) | _ => 0 end in
  stretch m x lxm /\ moment m x = 8 /\
  forall b a1 a2, 0 < b ->
    dunham 1000 b (3 * 1000 * sqrt (2 * b / 1000) * a1) (24 * b * a2) a1 a2.
Proof.
  cbv zeta. split; [|split; [unfold moment; lra|]].
  - assert (S4 : sqrt 4 = 2) by (replace 4 with (2 * 2) by ring; apply sqrt_square; lra).
    assert (P : 0 < sqrt (/ 2)) by (apply sqrt_lt_R0; lra).
    assert (Q : sqrt (/ 2) * sqrt (/ 2) = / 2) by (apply sqrt_sqrt; lra).
    unfold stretch. rewrite S4. repeat split; try lra; nra.
  - intros b a1 a2 P q. cbv zeta.
    assert (S2 : sqrt (2 * b / 1000) * sqrt (2 * b / 1000) = 2 * b / 1000) by (apply sqrt_sqrt; lra).
    set (s := sqrt (2 * b / 1000)) in *.
    replace (1000 ^ 2 / (4 * b) * (s * q) ^ 2 * (1 + a1 * (s * q) + a2 * (s * q) ^ 2))
      with (1000 ^ 2 / (4 * b) * (s * s) * q ^ 2 * (1 + a1 * s * q + a2 * (s * s) * q ^ 2)) by ring.
    rewrite S2. field. lra.
Qed.
Print Assumptions diatomic_dunham.
