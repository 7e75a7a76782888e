(** The whole orientation step, the recorded axis, printed constants of linear molecules and
    a result whose rows do not line up. *)
From Coq Require Import Reals Lra Lia List Arith Bool Permutation ZArith SpecFloat.
From Verif Require Import Num Loops Index Modes Anharm VibRot Distort Transform Report Geom ListFacts
  ModesFacts ResFacts StatesFacts AnharmFacts VibRotFacts TransformFacts ModeFacts SymRotFacts ResWitness GeomFacts
  OutputFacts.
Import ListNotations.
Open Scope nat_scope.
Local Open Scope R_scope.

Lemma oriented_lemma (g : group) old (atoms : list (R * R * R)) axes :
  well_formed g -> along_z g ->
  (orient_geom true false g old atoms axes = None <-> forall v, In v atoms -> ~ suitable g v) /\
  (forall atoms' axes' r, orient_geom true false g old atoms axes = Some (atoms', axes', r) ->
     exists i n a x y z, r = Some (i, n, a) /\ nth_error atoms i = Some (x, y, z) /\
       suitable g (x, y, z) /\
       (forall j u, (j < i)%nat -> nth_error atoms j = Some u -> ~ suitable g u) /\
       nth_error atoms' i = Some (sqrt (x * x + y * y), 0, z) /\ 0 < sqrt (x * x + y * y) /\
       length atoms' = length atoms /\
       (forall i j u v u' v', nth_error atoms i = Some u -> nth_error atoms j = Some v ->
          nth_error atoms' i = Some u' -> nth_error atoms' j = Some v' -> sqdist u' v' = sqdist u v) /\
       (forall i u u', nth_error atoms i = Some u -> nth_error atoms' i = Some u' -> snd u' = snd u) /\
       (orth 3 axes -> orth 3 axes') /\ det3 axes' = det3 axes /\
       (forall orig, atoms = map (in_frame axes) orig -> atoms' = map (in_frame axes') orig)).
Proof.
  intros Wf Az. destruct (iatl_lemma atoms old g Wf) as [S N].
  unfold orient_geom. cbn [andb negb].
  destruct (make_iatl atoms old g) as [[[i n] a]|] eqn:E.
  - destruct (S i n a eq_refl) as ([[x y] z] & Ha & Hs & Hf).
    pose proof (off_z g (x, y, z) Az Hs) as Hn. cbn in Hn.
    destruct (orient_lemma i atoms axes x y z Ha Hn)
      as (atoms' & axes' & Eo & O1 & O2 & O3 & O4 & O5 & O6 & O7).
    cbn [obind fst]. rewrite Eo. cbn [obind]. split.
    + split; [discriminate|]. intros Q. exfalso. apply (Q (x, y, z)); [|exact Hs].
      eapply nth_error_In, Ha.
    + intros at' ax' r [= <- <- <-]. exists i, n, a, x, y, z.
      refine (conj eq_refl (conj Ha (conj Hs (conj Hf (conj O1 (conj _ (conj O2 (conj O3 (conj O4
        (conj O5 (conj O6 O7))))))))))).
      apply sqrt_lt_R0. nra.
  - cbn [obind]. split; [|intros; discriminate]. split; [intros _; now apply N|reflexivity].
Qed.

(** linear molecules and asymmetric tops: no atom moves *)
Lemma not_oriented_lemma (sym : bool) g old (atoms : list (R * R * R)) axes :
  orient_geom sym true g old atoms axes = Some (atoms, fix_linear axes, None) /\
  orient_geom false false g old atoms axes = Some (atoms, axes, None).
Proof. split; [|reflexivity]. unfold orient_geom. now destruct sym. Qed.

(** the main axis of a group *)
Definition main_axis (g : group) : option axis :=
  match g with
  | C2h a | C3 a | C2v a _ | C3v a _ | C5v a _ | C6h a _ | D2h a _ | D3h a _ | D5h a _ => Some a
  | OtherGroup => None
  end.
Definition main_order (g : group) : nat :=
  match g with
  | C2h _ | C2v _ _ | D2h _ _ => 2 | C3 _ | C3v _ _ | D3h _ _ => 3
  | C5v _ _ | D5h _ _ => 5 | C6h _ _ => 6 | OtherGroup => 0
  end.
Lemma axis_lemma {F} {N : Num F} (atoms : list (F * F * F)) old g i n a :
  make_iatl atoms old g = Some (i, n, a) ->
  n = main_order g /\
  (main_axis g = Some a \/ ((exists b, g = C2h b \/ g = C3 b) /\ a = old)).
Proof.
  destruct g; cbn [make_iatl main_order main_axis];
    try discriminate; destruct (find_off_axis _ _) || destruct (find_plane_atom _ _ _);
    cbn [obind]; try discriminate; intros [= <- <- <-]; split; try reflexivity; eauto 6.
Qed.
Lemma axis_refuted_lemma :
  exists (atoms : list (R * R * R)) old g i n a,
    well_formed g /\ along_z g /\ make_iatl atoms old g = Some (i, n, a) /\ main_axis g <> Some a.
Proof.
  exists [(1, 0, 0)], AX, (C3 AZ), 0%nat, 3%nat, AX.
  split; [exact Logic.I|]. split; [reflexivity|]. split; [|discriminate].
  unfold make_iatl, find_off_axis. cbn [position not_axis fst snd coord].
  assert (ngtb (nabs 1) GTOL = true) as ->; [|reflexivity].
  unfold ngtb, GTOL. cbn. apply Rltb_true. rewrite Rabs_R1. lra.
Qed.

Lemma linear_rows_lemma nvib modes r (B I w : nat -> R) wl zm f3 cor primat quartic_wila q :
  r = Linear \/ r = Diatomic ->
  Permutation (flat_map members modes) (seq 0 nvib) ->
  quartic_new r nvib B primat w quartic_wila = Some q ->
  exists t rows out,
    restst_tables nvib (ioff (nvib + 1)) modes = Some t /\
    alphas B I w wl zm f3 r modes (t_states t) cor = Some rows /\
    rots B r rows (t_states t) (bxs q) (bys q) (bzs q) = Some out /\
    map rot_state out =
      I1st (repeat 0%nat nvib)
      :: map (fun p => I1st (unit1 nvib p 1)) (seq 0 (length (nondeg modes)))
      ++ map (fun p => I2st (punit1 nvib p (1, 1)%nat)) (seq 0 (length (degs modes))) /\
    let v s := sym_vib modes (fun i => sym_alpha B I w wl zm f3 r modes cor i 1%nat) s in
    (forall c, In c out -> rot_b c = v (rot_state c)) /\
    linear_rows out B = map (fun c => (rot_state c, B 1%nat + v (rot_state c))) out.
Proof.
  intros Hr Hp Eq.
  destruct (rots_lemma nvib modes r B I w wl zm f3 cor (bxs q) (bys q) (bzs q) Hp)
    as (t & rows & out & g & Et & Ea & Er & Es & Hv & _).
  { destruct Hr as [->| ->]; discriminate. }
  { destruct Hr as [->| ->]; discriminate. }
  exists t, rows, out. split; [exact Et|]. split; [exact Ea|]. split; [exact Er|]. split; [exact Es|].
  cbv zeta.
  assert (Z : bxs q = 0).
  { destruct Hr as [->| ->]; unfold quartic_new in Eq; cbn [is_linear is_diatomic obind] in Eq;
      (destruct (princ_cart 2) as [[c d]|]; [|discriminate]); cbn [obind] in Eq;
      repeat (match type of Eq with (let* _ := ?x in _) = _ => destruct x; [|discriminate] end;
              cbn [obind] in Eq);
      injection Eq as <-; unfold quartic_linear; cbn [bxs]; now rewrite ?nz_R. }
  assert (Q : forall c, In c out -> rot_b c =
     sym_vib modes (fun i => sym_alpha B I w wl zm f3 r modes cor i 1%nat) (rot_state c)).
  { intros c Hc. destruct (Hv c Hc) as [E _]. rewrite E, Z. ring. }
  split; [exact Q|]. unfold linear_rows. apply map_ext_in. intros c Hc. rewrite (Q c Hc).
  cbn [nadd Rnum]. f_equal. ring.
Qed.

(** ammonia: the highest frequency belongs to a degenerate pair *)
Definition nh3_freq : list f64 :=
  [nz 3597; nz 3597; nz 3471; nz 1691; nz 1691; nz 1062; nz 0; nz 0; nz 0; nz 0; nz 0; nz 0].
Lemma rows_refuted_lemma :
  exists modes o rws r,
    deg_modes OblateSymmTop 6 (fun i => nth i nh3_freq (nz 0)) = Some modes /\
    finish_lists true 6 modes nh3_freq (fun _ _ => nz 0) (Some (fun _ _ => nz 0)) (repeat (nz 0) 20)
      (seq 0 6) = Some o /\
    table o = Some rws /\ nth_error rws 0 = Some r /\
    row_irrep r = 0%nat /\ Some (row_harm r) = nth_error nh3_freq 2 /\
    Some (row_harm r) <> nth_error nh3_freq 0.
Proof.
  do 4 eexists. split; [vm_compute; reflexivity|]. split; [vm_compute; reflexivity|].
  split; [vm_compute; reflexivity|]. split; [reflexivity|]. split; [reflexivity|].
  split; [vm_compute; reflexivity|]. vm_compute. discriminate.
Qed.

Lemma harmonic_table_both :
  (forall (F I : Type) nvib (freq : list F) (irreps : list I) o,
     harmonic_lists nvib freq irreps = Some o -> (table o = None <-> (0 < nvib)%nat)) /\
  exists o, harmonic_lists 3 nh3_freq [0; 1; 2]%nat = Some o /\ table o = None.
Proof.
  split; [exact (@harmonic_table_lemma)|].
  eexists. split; [vm_compute; reflexivity|reflexivity].
Qed.
