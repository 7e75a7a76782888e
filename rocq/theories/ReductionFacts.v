(** The A and S reduced constants of an asymmetric top and the transformations that lead
    to them. *)
From Coq Require Import Reals Lra Lia List ZArith Arith Bool.
From Verif Require Import Num Loops Index Modes Anharm VibRot Distort.
From Verif Require Import ListFacts ModesFacts ResFacts AnharmFacts EnergyFacts VibRotFacts
  DistortFacts SexticFacts FormFacts TensorFacts.
Import ListNotations.
Open Scope R_scope.

(** quartic and sextic forms by total angular momentum, z component and the three
    combinations of the other two *)
Definition J2 (x y z : R) : R := x ^ 2 + y ^ 2 + z ^ 2.
Definition q2 (x y : R) : R := x ^ 2 - y ^ 2.
Definition q4 (x y : R) : R := x ^ 4 - 6 * x ^ 2 * y ^ 2 + y ^ 4.
Definition q6 (x y : R) : R := x ^ 6 - 15 * x ^ 4 * y ^ 2 + 15 * x ^ 2 * y ^ 4 - y ^ 6.
Definition cyl4 (k400 k220 k040 k202 k022 k004 x y z : R) : R :=
  k400 * J2 x y z ^ 2 + k220 * J2 x y z * z ^ 2 + k040 * z ^ 4
  + 2 * (k202 * J2 x y z + k022 * z ^ 2) * q2 x y + 2 * k004 * q4 x y.
Definition cyl6 (k600 k420 k240 k060 k402 k222 k042 k204 k024 k006 x y z : R) : R :=
  k600 * J2 x y z ^ 3 + k420 * J2 x y z ^ 2 * z ^ 2 + k240 * J2 x y z * z ^ 4 + k060 * z ^ 6
  + 2 * (k402 * J2 x y z ^ 2 + k222 * J2 x y z * z ^ 2 + k042 * z ^ 4) * q2 x y
  + 2 * (k204 * J2 x y z + k024 * z ^ 2) * q4 x y + 2 * k006 * q6 x y.

(** Watson's Hamiltonians, quartic and sextic terms *)
Definition A4 (q : quartic R) : R -> R -> R -> R :=
  cyl4 (- delj q) (- deljk q) (- delk q) (- sdelj q) (- sdelk q) 0.
Definition S4 (q : quartic R) : R -> R -> R -> R :=
  cyl4 (- dj q) (- djk q) (- dk q) (sd1 q) 0 (sd2 q).
Definition A6 (s : sextic R) : R -> R -> R -> R :=
  cyl6 (phij s) (phijk s) (phikj s) (phik s) (sphij s) (sphijk s) (sphik s) 0 0 0.
Definition S6 (s : sextic R) : R -> R -> R -> R :=
  cyl6 (hj s) (hjk s) (hkj s) (hk s) (h1 s) 0 0 (h2 s) 0 (h3 s).

(** the generators *)
Definition gen3 (s : R) : poly := [(s, (1, 1, 1)%nat)].
Definition gen5 (a b c : R) : poly := [(a, (3, 1, 1)%nat); (b, (1, 3, 1)%nat); (c, (1, 1, 3)%nat)].
Definition poly4 (k400 k220 k040 k202 k022 k004 : R) : poly :=
  [(k400 + 2 * k202 + 2 * k004, (4, 0, 0)%nat); (k400 - 2 * k202 + 2 * k004, (0, 4, 0)%nat);
   (k400 + k220 + k040, (0, 0, 4)%nat); (2 * k400 - 12 * k004, (2, 2, 0)%nat);
   (2 * k400 + k220 + 2 * k202 + 2 * k022, (2, 0, 2)%nat);
   (2 * k400 + k220 - 2 * k202 - 2 * k022, (0, 2, 2)%nat)].
Lemma poly4_ev k1 k2 k3 k4 k5 k6 x y z : ev (poly4 k1 k2 k3 k4 k5 k6) x y z = cyl4 k1 k2 k3 k4 k5 k6 x y z.
Proof. unfold ev, poly4, cyl4, J2, q2, q4. cbn [Rsum fold_right]. ring. Qed.

(** rigid rotor with constants along x, y and z *)
Definition rigid3 (Bx By Bz : R) : poly := [(Bx, (2, 0, 0)%nat); (By, (0, 2, 0)%nat); (Bz, (0, 0, 2)%nat)].

Ltac brackets :=
  unfold bracket, gen3, gen5, poly4, rigid3;
  cbn [app dX dY dZ map Nat.pred Z.of_nat Pos.of_succ_nat Pos.succ];
  unfold ev; cbn [Rsum fold_right]; unfold cyl4, cyl6, J2, q2, q4, q6.

Section Reduce.
  Variables (Bx By Bz : R) (t400 t220 t040 t202 t022 t004 : R)
    (p600 p420 p240 p060 p402 p222 p042 p204 p024 p006 : R).
  Hypothesis (Nxy : Bx <> By) (Nyz : By <> Bz).
  Let sg := (2 * Bz - Bx - By) / (Bx - By).

  (** A reduction *)
  Let sA := 8 * t004 / (Bx - By).
  Lemma reduceA4 x y z :
    bracket (gen3 sA) (rigid3 Bx By Bz) x y z =
    cyl4 (t400 + 2 * t004) (t220 - 12 * t004) (t040 + 10 * t004) t202 (t022 + 4 * sg * t004) 0 x y z
    - cyl4 t400 t220 t040 t202 t022 t004 x y z.
  Proof. unfold sA, sg. brackets. field. lra. Qed.

  Let jk := p420 - 12 * p204 + 2 * p024 + 16 * sg * p006 + 8 * t022 * t004 / ((Bx - By) / 4).
  Let a6 := cyl6 (p600 + 2 * p204) jk
    (p240 + 10 * p420 / 3 - 30 * p204 - 10 * jk / 3)
    (p060 - 7 * p420 / 3 + 28 * p204 + 7 * jk / 3)
    (p402 + p006)
    (p222 + 4 * sg * p204 - 10 * p006 + 2 * (t220 - 2 * sg * t202 - 4 * t004) * t004 / ((Bx - By) / 4))
    (p042 + 4 * sg * p024 / 3 + (32 * sg * sg / 3 + 9) * p006
     + 4 * (t040 + sg * t022 / 3 - 2 * (sg * sg - 2) * t004) * t004 / ((Bx - By) / 4)) 0 0 0.
  Let kA := poly4 t400 t220 t040 t202 t022 t004 ++
            poly4 (t400 + 2 * t004) (t220 - 12 * t004) (t040 + 10 * t004) t202 (t022 + 4 * sg * t004) 0.
  Lemma reduceA6 : exists a b c, forall x y z,
    bracket (gen5 a b c) (rigid3 Bx By Bz) x y z + / 2 * bracket (gen3 sA) kA x y z =
    a6 x y z - cyl6 p600 p420 p240 p060 p402 p222 p042 p204 p024 p006 x y z.
  Proof.
    exists ((3 * (2 * p204) + 2 * p006 + 10 * p204 + 30 * p006
             - sA * (4 * (2 * t202) + 16 * t004)) / (2 * (Bx - By))).
    exists ((3 * (2 * p204) - 2 * p006 + 10 * p204 - 30 * p006
             - sA * (4 * (2 * t202) - 16 * t004)) / (2 * (Bx - By))).
    exists ((3 * (2 * p204) + 2 * (jk - p420) + (10 * p420 / 3 - 30 * p204 - 10 * jk / 3)
             - 2 * p006 - 2 * (4 * sg * p204 - 10 * p006 + 2 * (t220 - 2 * sg * t202 - 4 * t004) * t004 / ((Bx - By) / 4))
             - 2 * (4 * sg * p024 / 3 + (32 * sg * sg / 3 + 9) * p006
     + 4 * (t040 + sg * t022 / 3 - 2 * (sg * sg - 2) * t004) * t004 / ((Bx - By) / 4))
             + sA * ((2 * t220 - 12 * t004) + 2 * (2 * t040 + 10 * t004) + 2 * (2 * t202)
                     + 2 * (2 * t022 + 4 * sg * t004))) / (2 * (By - Bz))).
    intros x y z. unfold a6, jk, kA, sA, sg. brackets. field. repeat split; lra.
  Qed.

  (** S reduction *)
  Hypothesis Nz : 2 * Bz <> Bx + By.
  Let sS := - 2 * t022 / (sg * (Bx - By)).
  Lemma sg_ne : sg <> 0.
  Proof.
    unfold sg. intros E. apply Rmult_integral in E as [E|E]; [lra|].
    revert E. apply Rinv_neq_0_compat. lra.
  Qed.
  Lemma reduceS4 x y z :
    bracket (gen3 sS) (rigid3 Bx By Bz) x y z =
    cyl4 (t400 - t022 / (2 * sg)) (t220 + 3 * t022 / sg) (t040 - 5 * t022 / (2 * sg)) t202 0
      (t004 + t022 / (4 * sg)) x y z
    - cyl4 t400 t220 t040 t202 t022 t004 x y z.
  Proof. unfold sS, sg. brackets. field. repeat split; lra. Qed.

  (** the three parameters of the sextic part, for a given asymmetry of the rotor *)
  Definition smu (b : R) : R :=
    (sg * p042 - 9 * p024 / 8
     + (- 2 * sg * t040 + (sg * sg + 3) * t022 - 5 * sg * t004) * t022 * b) / (2 * sg * sg + 27 / 16).
  Definition snu (b : R) : R := 3 * smu b / (16 * sg) + p024 / (8 * sg) + t004 * t022 * b.
  Definition sla (b : R) : R :=
    5 * snu b / sg + p222 / (2 * sg)
    + (- t220 / (2 * sg) + t202 - t022 / (sg * sg) - 2 * t004 / sg) * t022 * b.
  Definition s6 (b : R) : R -> R -> R -> R :=
    cyl6 (p600 - sla b) (p420 + 6 * sla b - 3 * smu b) (p240 - 5 * sla b + 10 * smu b) (p060 - 7 * smu b)
      (p402 - snu b) 0 0 (p204 + sla b / 2) 0 (p006 + snu b).
  Let kS := poly4 t400 t220 t040 t202 t022 t004 ++
            poly4 (t400 - t022 / (2 * sg)) (t220 + 3 * t022 / sg) (t040 - 5 * t022 / (2 * sg)) t202 0
              (t004 + t022 / (4 * sg)).
  Lemma reduceS6 : let b := / (Bz - (Bx + By) / 2) in
    exists a e c, forall x y z,
    bracket (gen5 a e c) (rigid3 Bx By Bz) x y z + / 2 * bracket (gen3 sS) kS x y z =
    s6 b x y z - cyl6 p600 p420 p240 p060 p402 p222 p042 p204 p024 p006 x y z.
  Proof.
    intros b.
    set (m := smu b). set (n := snu b). set (l := sla b).
    exists ((- 8 * l - 32 * n - sS * (4 * (2 * t202) + 16 * (2 * t004 + t022 / (4 * sg)))) / (2 * (Bx - By))).
    exists ((- 8 * l + 32 * n - sS * (4 * (2 * t202) - 16 * (2 * t004 + t022 / (4 * sg)))) / (2 * (Bx - By))).
    exists ((4 * l + 4 * m + 2 * n + 2 * p222 + 2 * p042
      + sS * ((2 * t220 + 3 * t022 / sg) + 2 * (2 * t040 - 5 * t022 / (2 * sg)) + 2 * (2 * t202)
              + 2 * t022)) / (2 * (By - Bz))).
    intros x y z. unfold s6. fold m n l.
    assert (P : 2 * sg * sg + 27 / 16 <> 0).
    { assert (0 <= sg * sg) by apply Rle_0_sqr. lra. }
    assert (E1 : p042 = (m * (2 * sg * sg + 27 / 16) + 9 * p024 / 8
      - (- 2 * sg * t040 + (sg * sg + 3) * t022 - 5 * sg * t004) * t022 * b) / sg).
    { unfold m, smu. field. split; [lra|apply sg_ne]. }
    assert (E2 : p024 = 8 * sg * n - 3 * m / 2 - 8 * sg * (t004 * t022 * b)).
    { unfold n, snu. fold m. field. apply sg_ne. }
    assert (E3 : p222 = 2 * sg * l - 10 * n
      - 2 * sg * ((- t220 / (2 * sg) + t202 - t022 / (sg * sg) - 2 * t004 / sg) * t022 * b)).
    { unfold l, sla. fold n. field. apply sg_ne. }
    clearbody m n l. rewrite E1, E2, E3. clear E1 E2 E3 P.
    assert (b = 1 / (sg * ((Bx - By) / 2))) as Eb.
    { unfold b, sg. field. repeat split; lra. }
    rewrite Eb. unfold kS, sS. clear Eb b.
    assert (Bz = (sg * (Bx - By) + Bx + By) / 2) as Ez by (unfold sg; field; lra).
    pose proof sg_ne as Ns. clear Nz. 
    brackets. clearbody sg. clear sA sS jk a6 kA kS. subst Bz. field.
    repeat split; lra.
  Qed.
End Reduce.

(** what is left in the S reduction because the code divides by the asymmetry of the rotor
    with a distortion term added *)
Definition late (sg t220 t040 t202 t022 t004 : R) : R -> R -> R -> R :=
  let mu := (- 2 * sg * t040 + (sg * sg + 3) * t022 - 5 * sg * t004) * t022 / (2 * sg * sg + 27 / 16) in
  let nu := 3 * mu / (16 * sg) + t004 * t022 in
  let la := 5 * nu / sg + (- t220 / (2 * sg) + t202 - t022 / (sg * sg) - 2 * t004 / sg) * t022 in
  cyl6 (- la) (6 * la - 3 * mu) (- 5 * la + 10 * mu) (- 7 * mu) (- nu) 0 0 (la / 2) 0 nu.
Lemma s6_affine Bx By Bz t220 t040 t202 t022 t004 p600 p420 p240 p060 p402 p222 p042 p204 p024 p006 b b' x y z :
  let sg := (2 * Bz - Bx - By) / (Bx - By) in
  s6 Bx By Bz t220 t040 t202 t022 t004 p600 p420 p240 p060 p402 p222 p042 p204 p024 p006 b x y z
  = s6 Bx By Bz t220 t040 t202 t022 t004 p600 p420 p240 p060 p402 p222 p042 p204 p024 p006 b' x y z
    + (b - b') * late sg t220 t040 t202 t022 t004 x y z.
Proof.
  intros sg. unfold s6, late, sla, snu, smu. fold sg. unfold cyl6, Rdiv. ring.
Qed.

Section Asym.
  Variables (nvib nfreq : nat) (B I w : nat -> R) (wl : nat -> nat -> R)
    (zm f3 : nat -> nat -> nat -> R).
  Let tau := tau_spec nvib w I wl.
  Let T a b := taup_spec nvib w I wl a b / 4.
  Let Bx := B 1%nat. Let By := B 2%nat. Let Bz := B 0%nat.

  (** the coefficients of the even quartic form, axes 1 = x, 2 = y, 0 = z *)
  Definition c400 := (3 * T 1 1 + 3 * T 2 2 + 2 * T 1 2) / 8.
  Definition c220 := T 1 0 + T 2 0 - 2 * c400.
  Definition c040 := T 0 0 - c220 - c400.
  Definition c202 := (T 1 1 - T 2 2) / 4.
  Definition c022 := (T 1 0 - T 2 0) / 2 - c202.
  Definition c004 := (T 1 1 + T 2 2 - 2 * T 1 2) / 16.

  Lemma tau_sym' a b d e : (a < 3)%nat -> (b < 3)%nat -> (d < 3)%nat -> (e < 3)%nat ->
    tau a b d e = tau b a d e /\ tau a b d e = tau a b e d /\ tau a b d e = tau d e a b.
  Proof.
    intros Ha Hb Hd He.
    destruct (tau_sym_lemma nvib w I wl a b d e Ha Hb Hd He) as (E & E1 & E2 & E3).
    unfold tau. rewrite <- !make_tau_R by assumption. auto.
  Qed.
  Lemma quartic_cyl x y z :
    even (quartic_form tau) z x y = cyl4 c400 c220 c040 c202 c022 c004 x y z.
  Proof.
    unfold c220, c022, c040, c202, c400, c004, T, taup_spec. cbn [Nat.eqb]. fold tau.
    unfold c220, c400, T, taup_spec. cbn [Nat.eqb]. fold tau.
    unfold even, quartic_form, cyl4, J2, q2, q4. rewrite !sum3_eq. cbn [xyz].
    rewrite !(tau_can tau tau_sym') by lia. unfold tcan. cbn [acol Nat.min Nat.max].
    field.
  Qed.

  Lemma make_phi_asym' (s : nat -> nat -> nat -> R) :
    (forall a b e, (a < 3)%nat -> (b < 3)%nat -> (e < 3)%nat -> sym3 s a b e) ->
    exists p,
    make_phi 3 (2, 0, 1)%nat s = Some p /\
    forall x y z,
      match make_psix p with
      | mk_p p600 p420 p240 p060 p402 p222 p042 p204 p024 p006 =>
        tensor_form s z x y = cyl6 p600 p420 p240 p060 p402 p222 p042 p204 p024 p006 x y z
      end.
  Proof.
    intros Hs. eexists. split; [reflexivity|]. intros x y z. unfold make_psix. cbv zeta.
    unfold upd3, at3. cbn [Nat.eqb andb fst snd]. cbn [nadd nsub nmul ndiv Rnum]. rewrite !nz_R.
    assert (s 1%nat 2%nat 0%nat = s 0%nat 1%nat 2%nat) as ->.
    { destruct (Hs 1 2 0)%nat as (_ & E1 & _); try lia. destruct (Hs 1 0 2)%nat as (E2 & _); try lia.
      congruence. }
    unfold tensor_form, cyl6, J2, q2, q4, q6. field.
  Qed.

  Lemma reductions_lemma :
    Bx <> By -> By <> Bz -> 2 * Bz <> Bx + By ->
    let H2 := rigid3 Bx By Bz in
    let H4 x y z := even (quartic_form tau) z x y in
    let H6 x y z := tensor_form (phi6 nvib nfreq B I w wl zm f3) z x y in
    exists q s,
      quartic_new AsymmTop nvib B I w wl = Some q /\
      sextic_new AsymmTop nvib nfreq B I w wl zm f3 = Some s /\
      (exists S3 S5 P4 Q4 : poly, forall x y z,
         ev P4 x y z = H4 x y z /\ ev Q4 x y z = A4 q x y z /\
         bracket S3 H2 x y z = A4 q x y z - H4 x y z /\
         bracket S5 H2 x y z + / 2 * bracket S3 (P4 ++ Q4) x y z = A6 s x y z - H6 x y z) /\
      (exists S3 S5 P4 Q4 : poly, forall x y z,
         ev P4 x y z = H4 x y z /\ ev Q4 x y z = S4 q x y z /\
         bracket S3 H2 x y z = S4 q x y z - H4 x y z /\
         bracket S5 H2 x y z + / 2 * bracket S3 (P4 ++ Q4) x y z = S6 s x y z - H6 x y z
           - (/ (Bz - (Bx + By) / 2 + 10 * c004) - / (Bz - (Bx + By) / 2))
             * late (sigma q) c220 c040 c202 c022 c004 x y z).
  Proof.
    intros Nxy Nyz Nz H2 H4 H6.
    destruct (make_t_asym nvib I w wl) as (t & Et & T00 & T11 & T22 & T01 & T02 & T12).
    set (ph := phi6 nvib nfreq B I w wl zm f3) in *.
    destruct (make_phi_asym' ph) as (p & Ep & Fp).
    { intros a b e Ha Hb He. unfold ph, phi6. apply scc_sym_lemma; auto. }
    pose proof (sg_ne Bx By Bz Nxy Nyz Nz) as Hs.
    set (sg := (2 * Bz - Bx - By) / (Bx - By)) in *.
    assert (E6 : make_tsix t = mk_t c400 c220 c040 c202 c022 c004).
    { unfold make_tsix. cbv zeta. cbn [nadd nsub nmul ndiv Rnum]. rewrite !nz_R.
      rewrite T00, T11, T22, T01, T02, T12.
      unfold c220, c022, c040, c202, c400, c004, c220, c400, T. reflexivity. }
    unfold quartic_new. cbn [is_linear princ_cart IPTOC ICTOP nth_error obind].
    rewrite Et. cbn [obind is_diatomic is_sym_top is_asymm_top is_spherical_top andb negb].
    rewrite E6. cbn [princ_cart IPTOC ICTOP nth_error obind].
    eexists. 
    unfold sextic_new. cbn [is_linear is_diatomic is_sym_top obind princ_cart IPTOC ICTOP nth_error].
    rewrite Et. cbn [obind]. fold (phi6 nvib nfreq B I w wl zm f3). fold ph. rewrite Ep. cbn [obind].
    unfold sextic_consts. rewrite E6.
    destruct (make_psix p) as [p600 p420 p240 p060 p402 p222 p042 p204 p024 p006].
    cbn [negb is_prolate is_asymm_top orb princ_cart IPTOC ICTOP nth_error obind].
    eexists. split; [reflexivity|]. split; [reflexivity|].
    unfold A4, S4, A6, S6.
    cbn [delj deljk delk sdelj sdelk dj djk dk sd1 sd2 sigma
         phij phijk phikj phik sphij sphijk sphik hj hjk hkj hk h1 h2 h3].
    cbn [at3 fst snd nadd nsub nmul ndiv nopp Rnum]. rewrite !nz_R.
    change (@nlit R Rnum 1 2) with (1 / 2). change (@nlit R Rnum 5 2) with (5 / 2).
    change (@nlit R Rnum 1 4) with (1 / 4).
    fold Bx By Bz. fold sg. unfold H4, H6, H2.
    assert (D1 : Bx - By <> 0) by lra.
    split.
    - destruct (reduceA6 Bx By Bz c400 c220 c040 c202 c022 c004 p600 p420 p240 p060 p402 p222 p042 p204
        p024 p006 Nxy Nyz) as (a & b & c & R6).
      exists (gen3 (8 * c004 / (Bx - By))), (gen5 a b c), (poly4 c400 c220 c040 c202 c022 c004),
        (poly4 (c400 + 2 * c004) (c220 - 12 * c004) (c040 + 10 * c004) c202 (c022 + 4 * sg * c004) 0).
      intros x y z. specialize (R6 x y z). specialize (Fp x y z). cbv beta iota in Fp.
      split; [rewrite poly4_ev, quartic_cyl; reflexivity|].
      split; [rewrite poly4_ev; unfold cyl4; ring|].
      split.
      + rewrite (reduceA4 Bx By Bz c400 c220 c040 c202 c022 c004) by assumption.
        rewrite quartic_cyl. fold sg. unfold cyl4. ring.
      + fold sg in R6. rewrite R6, Fp. unfold cyl6. field. assumption.
    - destruct (reduceS6 Bx By Bz c400 c220 c040 c202 c022 c004 p600 p420 p240 p060 p402 p222 p042 p204
        p024 p006 Nxy Nyz Nz) as (a & b & c & R6).
      exists (gen3 (- 2 * c022 / (sg * (Bx - By)))), (gen5 a b c), (poly4 c400 c220 c040 c202 c022 c004),
        (poly4 (c400 - c022 / (2 * sg)) (c220 + 3 * c022 / sg) (c040 - 5 * c022 / (2 * sg)) c202 0
              (c004 + c022 / (4 * sg))).
      intros x y z. specialize (R6 x y z). specialize (Fp x y z). cbv beta iota in Fp.
      split; [rewrite poly4_ev, quartic_cyl; reflexivity|].
      split; [rewrite poly4_ev; unfold cyl4; field; assumption|].
      split.
      + rewrite (reduceS4 Bx By Bz c400 c220 c040 c202 c022 c004) by assumption.
        rewrite quartic_cyl. fold sg. unfold cyl4. field. assumption.
      + fold sg in R6. rewrite R6, Fp.
        set (b0 := / (Bz - (Bx + By) / 2)). set (b1 := / (Bz - (Bx + By) / 2 + 10 * c004)).
        replace (s6 Bx By Bz c220 c040 c202 c022 c004 p600 p420 p240 p060 p402 p222 p042 p204 p024 p006 b0 x y z)
          with (s6 Bx By Bz c220 c040 c202 c022 c004 p600 p420 p240 p060 p402 p222 p042 p204 p024 p006 b1 x y z
                - (b1 - b0) * late sg c220 c040 c202 c022 c004 x y z)
          by (rewrite (s6_affine Bx By Bz c220 c040 c202 c022 c004 p600 p420 p240 p060 p402 p222 p042 p204
                        p024 p006 b1 b0); unfold sg; ring).
        replace (Bz - (1 / 2 * (Bx + By) - 4 * c004) + 6 * c004) with (Bz - (Bx + By) / 2 + 10 * c004) by field.
        assert (V : forall v, v / (Bz - (Bx + By) / 2 + 10 * c004) = v * b1) by reflexivity.
        rewrite !V. clear V R6. clearbody b1.
        unfold s6, sla, snu, smu. fold sg.
        assert (P : 2 * sg * sg + 27 / 16 <> 0).
        { assert (0 <= sg * sg) by apply Rle_0_sqr. lra. }
        assert (P' : 2 * sg * sg * 16 + 27 <> 0) by lra.
        generalize (late sg c220 c040 c202 c022 c004 x y z). intros L.
        clear E6 Ep Et T00 T11 T22 T01 T02 T12 Fp. clearbody sg.
        unfold cyl6. field. repeat split; assumption.
  Qed.
End Asym.

(** the same with the coefficients of the even quartic form by name *)
Lemma canonical_lemma nvib nfreq (B I w : nat -> R) wl zm f3 :
  let Bx := B 1%nat in let By := B 2%nat in let Bz := B 0%nat in
  Bx <> By -> By <> Bz -> 2 * Bz <> Bx + By ->
  let H2 := rigid3 Bx By Bz in
  let H4 x y z := even (quartic_form (tau_spec nvib w I wl)) z x y in
  let H6 x y z := tensor_form (phi6 nvib nfreq B I w wl zm f3) z x y in
  exists q s k400 k220 k040 k202 k022 k004,
    quartic_new AsymmTop nvib B I w wl = Some q /\
    sextic_new AsymmTop nvib nfreq B I w wl zm f3 = Some s /\
    (forall x y z, H4 x y z = cyl4 k400 k220 k040 k202 k022 k004 x y z) /\
    (exists S3 S5 P4 Q4 : poly, forall x y z,
       ev P4 x y z = H4 x y z /\ ev Q4 x y z = A4 q x y z /\
       bracket S3 H2 x y z = A4 q x y z - H4 x y z /\
       bracket S5 H2 x y z + / 2 * bracket S3 (P4 ++ Q4) x y z = A6 s x y z - H6 x y z) /\
    (exists S3 S5 P4 Q4 : poly, forall x y z,
       ev P4 x y z = H4 x y z /\ ev Q4 x y z = S4 q x y z /\
       bracket S3 H2 x y z = S4 q x y z - H4 x y z /\
       bracket S5 H2 x y z + / 2 * bracket S3 (P4 ++ Q4) x y z = S6 s x y z - H6 x y z
         - (/ (Bz - (Bx + By) / 2 + 10 * k004) - / (Bz - (Bx + By) / 2))
           * late ((2 * Bz - Bx - By) / (Bx - By)) k220 k040 k202 k022 k004 x y z).
Proof.
  intros Bx By Bz N1 N2 N3 H2 H4 H6.
  destruct (reductions_lemma nvib nfreq B I w wl zm f3 N1 N2 N3) as (q & s & Eq & Es & A & S).
  destruct (watson_lemma nvib B I w wl N1 N3) as (q' & Eq' & W).
  rewrite Eq in Eq'. injection Eq' as <-.
  assert (G : sigma q = (2 * Bz - Bx - By) / (Bx - By)).
  { do 16 apply proj2 in W. exact W. }
  rewrite G in S. clear W G.
  exists q, s, (c400 nvib I w wl), (c220 nvib I w wl), (c040 nvib I w wl), (c202 nvib I w wl),
    (c022 nvib I w wl), (c004 nvib I w wl).
  split; [exact Eq|]. split; [exact Es|].
  split; [intros; exact (quartic_cyl nvib nfreq I w wl zm f3 x y z)|]. split; [exact A|exact S].
Qed.
