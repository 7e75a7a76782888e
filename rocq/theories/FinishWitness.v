(** Molecules for the examples about whole runs, and double precision. *)
From Coq Require Import List ZArith Arith Lia Bool Permutation SpecFloat.
From Verif Require Import Num Loops ListFacts Index Modes ModesFacts StatesFacts ResFacts Anharm VibRot
  VibRotFacts SymRotFacts Distort Transform SymAnharm
  Polyads Report Geom Finish FinishFacts.
Import ListNotations.
Open Scope nat_scope.

(** ** double precision: three numbers that are not NaN can be compared *)
Lemma partial_cmp_64 (a b : f64) : a <> S754_nan -> b <> S754_nan -> exists c, partial_cmp a b = Some c.
Proof.
  intros Ha Hb. unfold partial_cmp. cbn [nltb neqb F64num]. unfold SFltb, SFeqb.
  assert (Q : exists c, SFcompare a b = Some c /\ SFcompare b a = Some (CompOpp c)).
  { destruct a as [sa|sa| |sa ma ea], b as [sb|sb| |sb mb eb]; try contradiction;
      try (destruct sa); try (destruct sb); cbn [SFcompare]; try (eexists; split; reflexivity);
      rewrite (Z.compare_antisym ea eb); destruct (Z.compare ea eb); cbn [CompOpp];
      try (eexists; split; reflexivity);
      pose proof (Pos.compare_cont_antisym ma mb Eq) as P; cbn [CompOpp] in P;
      rewrite <- P; eexists; split; reflexivity. }
  destruct Q as (c & -> & ->). destruct c; cbn; eauto.
Qed.
Lemma comparable_64 (freq : nat -> f64) n :
  (forall i j k, i < n -> j < n -> k < n ->
     nsub (nsub (freq i) (freq j)) (freq k) <> S754_nan /\
     nsub (nadd (nopp (freq i)) (freq j)) (freq k) <> S754_nan /\
     nadd (nsub (nopp (freq i)) (freq j)) (freq k) <> S754_nan) ->
  comparable freq n.
Proof.
  intros Hn i j k Hi Hj Hk. destruct (Hn i j k Hi Hj Hk) as (H1 & H2 & H3).
  unfold aminjm.
  destruct (partial_cmp_64 _ _ H1 H2) as (? & ->). destruct (partial_cmp_64 _ _ H1 H3) as (? & ->).
  destruct (partial_cmp_64 _ _ H2 H3) as (? & ->). cbn [obind].
  match goal with |- context [if ?b then _ else _] => destruct b end; discriminate.
Qed.

(** ** a bent molecule with a Fermi resonance of type 1 *)
Definition water : molecule f64 := mk_mol AsymmTop [1; 1; 1; 1; 1; 1; 1; 4]%Z 3 3
  (fun i => match i with
            | 0 => (nz 0, nlit 14 10, nz 1)
            | 1 => (nz 0, nz 0, nlit (-1) 10)
            | _ => (nz 0, nlit (-14) 10, nz 1) end)
  (fun i => match i with 1 => nz 16 | _ => nz 1 end)
  (fun i => match i with 0 => nz 27 | 1 => nz 14 | _ => nz 9 end)
  (fun i => match i with 0 => nlit 6 10 | 1 => nlit 12 10 | _ => nlit 18 10 end).
Definition water_freq : list f64 := [nz 3943; nz 3833; nz 1920; nz 0; nz 0; nz 0; nz 0; nz 0; nz 0].
Definition water_f3 : list f64 := map (fun k => nz (Z.of_nat (100 * k) - 350)) (seq 0 10).
Definition water_f4 : list f64 := map (fun k => nz (Z.of_nat (50 * k) - 300)) (seq 0 15).
Definition water_lxm (a i : nat) : f64 := nlit (Z.of_nat (3 * a + 2 * i + a * i) - 9) 10.

(** ** a symmetric top with a degenerate pair *)
Definition oblate : molecule f64 := mk_mol OblateSymmTop [1; 1; 1; 1; 1; 1; 1; 4]%Z 2 3
  (fun i => match i with 0 => (nz 1, nz 0, nz 0) | _ => (nz 0, nz 1, nz 0) end)
  (fun _ => nz 12)
  (fun i => match i with 2 => nz 5 | _ => nz 10 end)
  (fun i => match i with 2 => nz 4 | _ => nz 2 end).
Definition oblate_freq : list f64 := [nz 3000; nz 1000; nz 1000; nz 0; nz 0; nz 0].

(** a stand-in for the eigensolver of two by two matrices *)
Definition plain2 (a b c : f64) : f64 * f64 * (f64 * f64) := (a, c, (nz 1, nz 0)).

Ltac below3 i := destruct i as [|[|[|i]]]; [| | |lia].
Lemma water_comparable : comparable (fun i => nth i water_freq (nz 0)) 3.
Proof.
  apply comparable_64. intros i j k Hi Hj Hk.
  below3 i; below3 j; below3 k; vm_compute; repeat split; discriminate.
Qed.
Lemma oblate_comparable : comparable (fun i => nth i oblate_freq (nz 0)) 3.
Proof.
  apply comparable_64. intros i j k Hi Hj Hk.
  below3 i; below3 j; below3 k; vm_compute; repeat split; discriminate.
Qed.
Lemma oblate_modes : deg_modes OblateSymmTop 3 (fun i => nth i oblate_freq (nz 0)) = Some [I2 1 2; I1 0].
Proof. vm_compute. reflexivity. Qed.

(** ** two theorems of completion, over the real numbers and in double precision *)
Section Completes.
  Context {I : Type}.
  Lemma finish_64_lemma eig2 (m : molecule f64) freql f3l f4l (irreps : list I) lxm lx modes :
    let freq i := nth i freql (nz 0) in
    m_rotor m <> SphericalTop -> m_rotor m <> NoRotor ->
    deg_modes (m_rotor m) (m_nvib m) freq = Some modes ->
    Permutation (flat_map members modes) (seq 0 (m_nvib m)) ->
    (forall i j k, i < m_nvib m -> j < m_nvib m -> k < m_nvib m ->
       nsub (nsub (freq i) (freq j)) (freq k) <> S754_nan /\
       nsub (nadd (nopp (freq i)) (freq j)) (freq k) <> S754_nan /\
       nadd (nsub (nopp (freq i)) (freq j)) (freq k) <> S754_nan) ->
    m_nvib m <= length freql -> 0 < m_natom m ->
    (m_rotor m = AsymmTop -> 2 < nth 7 (m_header m) 4)%Z ->
    exists o, finish eig2 false m freql f3l f4l irreps lxm lx = Some o /\
      length (o_harms (out_lists o)) = length (flat_map get1 modes) + length (flat_map get2 modes) /\
      length (o_funds (out_lists o)) = length (o_harms (out_lists o)) /\
      length (o_corrs (out_lists o)) = length modes /\
      o_irreps (out_lists o) = irreps /\
      length (out_rots o) = 1 + length (o_harms (out_lists o)).
  Proof.
    intros freq H1 H2 Ed Hp Hc Hf Hn Hd.
    destruct (finish_total_lemma eig2 m freql f3l f4l irreps lxm lx modes H1 H2 Ed Hp (comparable_64 _ _ Hc) Hf Hn Hd)
      as (o & E & _ & L1 & L2 & L3 & Ei & Mr).
    exists o. split; [exact E|].
    assert (Lr : length (out_rots o) = 1 + (n1dm modes + n2dm modes)).
    { rewrite <- (map_length rot_state), Mr. unfold fund_states. cbn [length].
      rewrite app_length, !map_length, !seq_length. lia. }
    rewrite n1dm_len, n2dm_len in *. unfold nondeg, degs in *.
    split; [exact L1|]. split; [congruence|].
    split. { rewrite L3. rewrite n3dm_eq, i3mode_eq. clear. induction modes as [|[]]; cbn; rewrite ?app_length in *; lia. }
    split; [exact Ei|lia].
  Qed.
End Completes.
