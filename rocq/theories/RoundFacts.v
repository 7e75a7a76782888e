(** Writing an input file and reading it back. *)
From Coq Require Import List ZArith NArith Arith Lia Bool Ascii String.
From Verif Require Import Num Loops Index ListFacts LoadFacts Text TextFacts.
Import ListNotations.
Open Scope list_scope.
Open Scope nat_scope.

(** ** The specification side *)
Section Spec.
  Context {F : Type} `{FText F}.

  Definition index_list (c : curvil) : list N :=
    match c with
    | Bond i j => [i; j]
    | Bend i j k => [i; j; k]
    | Tors i j k l => [i; j; k; l]
    end.

  (** The value [v] is on axis [sel] of a dummy atom: any atom that has a
      coordinate printed the same way has it on that axis too. *)
  Definition unambiguous (at_ : list (atom F)) (sel : atom F -> F) (v : F) : Prop :=
    forall a, In a at_ ->
      In (fprint 8 v) [fprint 8 (ax a); fprint 8 (ay a); fprint 8 (az a)] ->
      fprint 8 (sel a) = fprint 8 v.

  (** The descriptions whose file keeps its columns apart: integers of at most
      four characters, coordinates of at most 15, weights of at most 11; real
      atomic numbers; no empty list of degenerate modes; at least the two header
      entries the reader looks at; unambiguous dummy atoms; and weights for real
      atoms only when the header asks for them. *)
  Record printable (s : spectro F) : Prop := {
    p_length : 2 <= List.length (header s);
    p_header : Forall (fun h => -999 <= h <= 9999)%Z (header s);
    p_atoms : Forall (fun a => (0 < number a <= 9007199254740992)%N /\
                List.length (fprint 8 (ax a)) <= 15 /\
                List.length (fprint 8 (ay a)) <= 15 /\
                List.length (fprint 8 (az a)) <= 15) (atoms s);
    p_dummies : Forall (fun d => exists x y z, get_vals (atoms s) d = Some (x, y, z) /\
                  (List.length (fprint 8 x) <= 15 /\ unambiguous (atoms s) ax x) /\
                  (List.length (fprint 8 y) <= 15 /\ unambiguous (atoms s) ay y) /\
                  (List.length (fprint 8 z) <= 15 /\ unambiguous (atoms s) az z)) (dummies s);
    p_weights : Forall (fun w => (fst w <= u64_max)%N /\
                  List.length (fprint 6 (snd w)) <= 11) (weights s);
    p_indices : nth_error (header s) 1 = Some (-1)%Z ->
      Forall (fun w => 1 <= fst w <= N.of_nat (List.length (atoms s)))%N (weights s);
    p_curvils : Forall (fun c => Forall (fun i => i <= 9999)%N (index_list c)) (curvils s);
    p_degmodes : Forall (fun r => r <> [] /\ Forall (fun i => i <= 9999)%N r) (degmodes s) }.

  (** the same atom up to the printed precision *)
  Definition same_atom (a b : atom F) : Prop :=
    number b = number a /\ fprint 8 (ax b) = fprint 8 (ax a) /\
    fprint 8 (ay b) = fprint 8 (ay a) /\ fprint 8 (az b) = fprint 8 (az a).

  Definition same_dummy (s s' : spectro F) (d d' : dummy F) : Prop :=
    exists x y z x' y' z',
      get_vals (atoms s) d = Some (x, y, z) /\ get_vals (atoms s') d' = Some (x', y', z') /\
      fprint 8 x' = fprint 8 x /\ fprint 8 y' = fprint 8 y /\ fprint 8 z' = fprint 8 z.

  Definition same_weight (w w' : N * F) : Prop :=
    fst w' = fst w /\ fprint 6 (snd w') = fprint 6 (snd w).

  Definition same_input (s s' : spectro F) : Prop :=
    header s' = header s /\ Forall2 same_atom (atoms s) (atoms s') /\
    Forall2 (same_dummy s s') (dummies s) (dummies s') /\
    Forall2 same_weight (weights s) (weights s') /\
    curvils s' = curvils s /\ degmodes s' = degmodes s.
End Spec.

(** ** Reading *)
Lemma text_eqb_eq a b : text_eqb a b = true <-> a = b.
Proof.
  revert b. induction a as [|x a IH]; intros [|y b]; cbn; try (split; congruence).
  rewrite andb_true_iff, Ascii.eqb_eq, IH. split; [intros [-> ->]; reflexivity|].
  now intros [= -> ->].
Qed.

Lemma lookup_cons (t u : text) i m :
  lookup ((u, i) :: m) t = if text_eqb u t then Some i else lookup m t.
Proof. unfold lookup. cbn. destruct (text_eqb u t); reflexivity. Qed.

Lemma Forall2_length {A B} (R : A -> B -> Prop) l l' :
  Forall2 R l l' -> List.length l = List.length l'.
Proof. induction 1; cbn; congruence. Qed.

Lemma Forall2_impl {A B} (R R' : A -> B -> Prop) l l' :
  (forall a b, R a b -> R' a b) -> Forall2 R l l' -> Forall2 R' l l'.
Proof. intros Hr. induction 1; constructor; auto. Qed.

Section Read.
  Context {F : Type} `{FT : FText F}.
  Hypothesis L : float_text F.

  Lemma fprint_solid p x : solid (fprint p x).
  Proof.
    destruct (fprint_chars L p x) as [Hn Hc]. split; [exact Hn|].
    eapply Forall_impl; [|exact Hc]. apply number_char_solid.
  Qed.
  Lemma fprint_row p x : Forall row_char (fprint p x).
  Proof.
    destruct (fprint_chars L p x) as [_ Hc]. eapply Forall_impl; [|exact Hc].
    intros c Hc'. now left.
  Qed.

  Lemma read_row (s : reading F) line : skip s = 0 -> Forall row_char line ->
    read_line s line =
      let r := ret s in
      match state s with
      | InHeader =>
          let* l := omap parse_Z (words line) in
          Some (with_ret s
            {| header := header r ++ l; atoms := atoms r; weights := weights r;
               curvils := curvils r; degmodes := degmodes r; dummies := dummies r |})
      | InGeom => read_geom s line
      | InWeight =>
          match words line with
          | a :: b :: _ =>
              let* i := parse_N a in
              let* w := fparse b in
              Some (with_ret s
                {| header := header r; atoms := atoms r; weights := weights r ++ [(i, w)];
                   curvils := curvils r; degmodes := degmodes r; dummies := dummies r |})
          | _ => None
          end
      | InCurvil =>
          let* v := omap parse_N (words line) in
          let add c := Some (with_ret s
                {| header := header r; atoms := atoms r; weights := weights r;
                   curvils := curvils r ++ [c]; degmodes := degmodes r;
                   dummies := dummies r |}) in
          match v with
          | [] => Some s
          | [i; j] => add (Bond i j)
          | [i; j; k] => add (Bend i j k)
          | [i; j; k; l] => add (Tors i j k l)
          | _ => None
          end
      | InDegmode =>
          let* v := omap parse_N (words line) in
          match v with
          | [] => Some s
          | _ => Some (with_ret s
                {| header := header r; atoms := atoms r; weights := weights r;
                   curvils := curvils r; degmodes := degmodes r ++ [v];
                   dummies := dummies r |})
          end
      | Outside => Some s
      end.
  Proof.
    intros Hs Hr. unfold read_line. rewrite Hs. cbn [Nat.ltb Nat.leb].
    destruct (row_no_keyword line Hr) as (-> & -> & -> & -> & -> & ->). reflexivity.
  Qed.

  (** *** header *)
  Lemma read_header rows (s : reading F) :
    skip s = 0 -> state s = InHeader ->
    Forall (Forall (fun h => -999 <= h <= 9999)%Z) rows ->
    ofold read_line (map (fun c => int_row (map show_Z c)) rows) s =
      Some (with_ret s
        {| header := header (ret s) ++ List.concat rows; atoms := atoms (ret s);
           weights := weights (ret s); curvils := curvils (ret s);
           degmodes := degmodes (ret s); dummies := dummies (ret s) |}).
  Proof.
    intros Hs Hst Hrows. revert s Hs Hst.
    induction Hrows as [|c rows Hc Hrows IH]; intros s Hs Hst.
    - cbn. rewrite app_nil_r. destruct s as [m st k r]; destruct r; reflexivity.
    - cbn [map ofold]. rewrite read_row; [|exact Hs|].
      + rewrite Hst. cbv zeta.
        rewrite words_int_row.
        * rewrite (omap_back parse_Z show_Z).
          -- cbn [obind]. rewrite IH; [|exact Hs|exact Hst]. cbn [with_ret ret header].
             unfold with_ret. cbn. now rewrite <- app_assoc.
          -- intros a Ha. rewrite Forall_forall in Hc. specialize (Hc a Ha).
             apply parse_show_Z. lia.
        * apply Forall_map. eapply Forall_impl; [|exact Hc]. intros a Ha.
          split; [apply show_Z_solid|now apply show_Z_short].
      + apply int_row_row, Forall_map. apply Forall_forall. intros a _. apply show_Z_row.
  Qed.

  (** *** geometry *)
  Lemma words_geom n x y z :
    List.length (fprint 8 x) <= 15 -> List.length (fprint 8 y) <= 15 ->
    List.length (fprint 8 z) <= 15 ->
    words (geom_row n x y z) = [fprint 2 n; fprint 8 x; fprint 8 y; fprint 8 z].
  Proof.
    intros Hx Hy Hz. unfold geom_row.
    destruct (pad_starts 16 (fprint 8 x)) as (rx & Ex); [lia|].
    destruct (pad_starts 16 (fprint 8 y)) as (ry & Ey); [lia|].
    destruct (pad_starts 16 (fprint 8 z)) as (rz & Ez); [lia|].
    rewrite words_pad; [|apply fprint_solid|right; rewrite Ex; eexists; reflexivity].
    rewrite words_pad; [|apply fprint_solid|right; rewrite Ey; eexists; reflexivity].
    rewrite words_pad; [|apply fprint_solid|right; rewrite Ez; eexists; reflexivity].
    rewrite <- (app_nil_r (pad 16 (fprint 8 z))).
    rewrite words_pad; [reflexivity|apply fprint_solid|now left].
  Qed.

  Lemma geom_row_row n x y z : Forall row_char (geom_row n x y z).
  Proof.
    unfold geom_row.
    do 3 (apply Forall_app; split; [apply pad_row, fprint_row|]). apply pad_row, fprint_row.
  Qed.

  (** what an atom line becomes *)
  Definition read_atom (a b : atom F) : Prop := same_atom a b.

  Definition sound (m : list (text * nat)) (l : list (atom F)) : Prop :=
    forall t i, lookup m t = Some i ->
      exists a, nth_error l i = Some a /\
        In t [fprint 8 (ax a); fprint 8 (ay a); fprint 8 (az a)].

  Lemma Forall2_snoc {A B} (R : A -> B -> Prop) l l' a b :
    Forall2 R l l' -> R a b -> Forall2 R (l ++ [a]) (l' ++ [b]).
  Proof. intros Hl Hr. apply Forall2_app; [exact Hl|now constructor]. Qed.

  Lemma sound_snoc m l a i : sound m l -> i = List.length l ->
    sound (fold_left (fun m t => (t, i) :: m)
             [fprint 8 (ax a); fprint 8 (ay a); fprint 8 (az a)] m) (l ++ [a]).
  Proof.
    intros Hm -> t k Hk. cbn [fold_left] in Hk. rewrite !lookup_cons in Hk.
    assert (Hnew : nth_error (l ++ [a]) (List.length l) = Some a).
    { rewrite nth_error_app2 by lia. now rewrite Nat.sub_diag. }
    repeat match type of Hk with
    | (if text_eqb ?u t then _ else _) = _ =>
        destruct (text_eqb u t) eqn:?; [injection Hk as <-; exists a; split; [exact Hnew|];
          rewrite text_eqb_eq in *; subst t; cbn; tauto|]
    end.
    destruct (Hm t k Hk) as (b & Hb & Hin). exists b. split; [|exact Hin].
    rewrite nth_error_app1; [exact Hb|]. apply nth_error_Some. congruence.
  Qed.

  Lemma read_atoms l : forall done (s : reading F),
    skip s = 0 -> state s = InGeom ->
    Forall (fun a => (0 < number a <= 9007199254740992)%N /\
              List.length (fprint 8 (ax a)) <= 15 /\
              List.length (fprint 8 (ay a)) <= 15 /\
              List.length (fprint 8 (az a)) <= 15) l ->
    Forall2 same_atom done (atoms (ret s)) -> sound (coord_map s) done ->
    exists s', ofold read_line
      (map (fun a => geom_row (f_of_N (number a)) (ax a) (ay a) (az a)) l) s = Some s' /\
      skip s' = 0 /\ state s' = InGeom /\
      Forall2 same_atom (done ++ l) (atoms (ret s')) /\ sound (coord_map s') (done ++ l) /\
      header (ret s') = header (ret s) /\ weights (ret s') = weights (ret s) /\
      curvils (ret s') = curvils (ret s) /\ degmodes (ret s') = degmodes (ret s) /\
      dummies (ret s') = dummies (ret s).
  Proof.
    induction l as [|a l IH]; intros done s Hs Hst Hl Hat Hm.
    - exists s. rewrite app_nil_r. cbn. intuition auto.
    - inversion Hl as [|? ? (Hn & Hx & Hy & Hz) Hl']; subst. cbn [map ofold].
      rewrite read_row; [|exact Hs|apply geom_row_row]. rewrite Hst. cbv zeta.
      unfold read_geom. rewrite words_geom by assumption.
      destruct (fprint_parse L 2 (f_of_N (number a))) as (n & Hpn & _).
      rewrite Hpn. cbn [obind].
      assert (Hnum : f_to_N n = number a).
      { apply (number_back L (number a)); [lia|exact Hpn]. }
      destruct (N.eqb_spec (f_to_N n) 0) as [E|_]; [lia|].
      destruct (fprint_parse L 8 (ax a)) as (x & Px & Qx).
      destruct (fprint_parse L 8 (ay a)) as (y & Py & Qy).
      destruct (fprint_parse L 8 (az a)) as (z & Pz & Qz).
      rewrite Px, Py, Pz. cbn [obind].
      match goal with |- exists s', ofold _ _ ?s1 = Some s' /\ _ => set (s1' := s1) end.
      destruct (IH (done ++ [a]) s1') as (s' & He & H1 & H2 & H3 & H4 & H5 & H6 & H7 & H8 & H9).
      + exact Hs.
      + exact Hst.
      + exact Hl'.
      + apply Forall2_snoc; [exact Hat|]. unfold same_atom. cbn. auto.
      + cbn [s1' coord_map]. apply sound_snoc; [exact Hm|].
        symmetry. exact (Forall2_length _ _ _ Hat).
      + exists s'. rewrite <- !app_assoc in *. cbn [List.app] in *.
        refine (conj He (conj H1 (conj H2 (conj H3 (conj H4 _))))).
        cbn in H5, H6, H7, H8, H9. auto.
  Qed.

  Lemma nth_error_Forall2 {A B} (R : A -> B -> Prop) l l' i a :
    Forall2 R l l' -> nth_error l i = Some a -> exists b, nth_error l' i = Some b /\ R a b.
  Proof.
    intros Hf. revert i. induction Hf as [|x y l l' Hr Hf IH]; intros [|i]; cbn; try discriminate.
    - intros [= ->]. eauto.
    - apply IH.
  Qed.

  Lemma dummy_coord_ok (sel : atom F -> F) m at_ at' v :
    (forall a b, same_atom a b -> fprint 8 (sel b) = fprint 8 (sel a)) ->
    unambiguous at_ sel v -> sound m at_ -> Forall2 same_atom at_ at' ->
    exists d v', dummy_coord m (fprint 8 v) = Some d /\
      get_val sel at' d = Some v' /\ fprint 8 v' = fprint 8 v.
  Proof.
    intros Hsel Hu Hm Hat. unfold dummy_coord.
    destruct (lookup m (fprint 8 v)) as [i|] eqn:E.
    - destruct (Hm _ _ E) as (a & Ha & Hin).
      destruct (nth_error_Forall2 _ _ _ _ _ Hat Ha) as (b & Hb & Hab).
      exists (FromAtom i), (sel b). refine (conj eq_refl (conj _ _)).
      + cbn. now rewrite Hb.
      + rewrite (Hsel _ _ Hab). apply Hu; [|exact Hin]. eapply nth_error_In, Ha.
    - destruct (fprint_parse L 8 v) as (v' & P & Q). rewrite P. cbn [obind].
      exists (Value v'), v'. auto.
  Qed.

  Lemma read_dummies at_ l : forall (s : reading F),
    skip s = 0 -> state s = InGeom ->
    Forall2 same_atom at_ (atoms (ret s)) -> sound (coord_map s) at_ ->
    Forall (fun d => exists x y z, get_vals at_ d = Some (x, y, z) /\
       (List.length (fprint 8 x) <= 15 /\ unambiguous at_ ax x) /\
       (List.length (fprint 8 y) <= 15 /\ unambiguous at_ ay y) /\
       (List.length (fprint 8 z) <= 15 /\ unambiguous at_ az z)) l ->
    exists rows s' ds,
      omap (fun d => let* v := get_vals at_ d in
                  let '(x, y, z) := v in Some (geom_row (f_of_N 0) x y z)) l = Some rows /\
      Forall (Forall row_char) rows /\
      ofold read_line rows s = Some s' /\
      skip s' = 0 /\ state s' = InGeom /\
      atoms (ret s') = atoms (ret s) /\ dummies (ret s') = dummies (ret s) ++ ds /\
      Forall2 (fun d d' => exists x y z x' y' z',
        get_vals at_ d = Some (x, y, z) /\ get_vals (atoms (ret s)) d' = Some (x', y', z') /\
        fprint 8 x' = fprint 8 x /\ fprint 8 y' = fprint 8 y /\ fprint 8 z' = fprint 8 z) l ds /\
      header (ret s') = header (ret s) /\ weights (ret s') = weights (ret s) /\
      curvils (ret s') = curvils (ret s) /\ degmodes (ret s') = degmodes (ret s).
  Proof.
    intros s Hs Hst Hat Hm Hl.
    pose (row := fun d => match get_vals at_ d with
                          | Some (x, y, z) => geom_row (f_of_N 0) x y z
                          | None => [] end).
    exists (map row l).
    assert (Hrows : omap (fun d => let* v := get_vals at_ d in
                  let '(x, y, z) := v in Some (geom_row (f_of_N 0) x y z)) l = Some (map row l)).
    { apply omap_some. intros d Hd. rewrite Forall_forall in Hl.
      destruct (Hl d Hd) as (x & y & z & Hv & _). unfold row. rewrite Hv. reflexivity. }
    assert (Hchars : Forall (Forall row_char) (map row l)).
    { apply Forall_map, Forall_forall. intros d _. unfold row.
      destruct (get_vals at_ d) as [[[x y] z]|]; [apply geom_row_row|constructor]. }
    enough (Hgo : forall (s : reading F), skip s = 0 -> state s = InGeom ->
      Forall2 same_atom at_ (atoms (ret s)) -> sound (coord_map s) at_ ->
      exists s' ds, ofold read_line (map row l) s = Some s' /\
      skip s' = 0 /\ state s' = InGeom /\
      atoms (ret s') = atoms (ret s) /\ dummies (ret s') = dummies (ret s) ++ ds /\
      Forall2 (fun d d' => exists x y z x' y' z',
        get_vals at_ d = Some (x, y, z) /\ get_vals (atoms (ret s)) d' = Some (x', y', z') /\
        fprint 8 x' = fprint 8 x /\ fprint 8 y' = fprint 8 y /\ fprint 8 z' = fprint 8 z) l ds /\
      header (ret s') = header (ret s) /\ weights (ret s') = weights (ret s) /\
      curvils (ret s') = curvils (ret s) /\ degmodes (ret s') = degmodes (ret s)).
    { destruct (Hgo s Hs Hst Hat Hm) as (s' & ds & Hr). exists s', ds.
      exact (conj Hrows (conj Hchars Hr)). }
    clear s Hs Hst Hat Hm Hrows Hchars.
    induction Hl as [|d l (x & y & z & Hv & (Hx & Ux) & (Hy & Uy) & (Hz & Uz)) Hl IH];
      intros s Hs Hst Hat Hm.
    - exists s, []. cbn. rewrite app_nil_r. intuition auto.
    - cbn [map ofold]. unfold row at 1. rewrite Hv.
      rewrite read_row; [|exact Hs|apply geom_row_row]. rewrite Hst. cbv zeta.
      unfold read_geom. rewrite words_geom by assumption.
      destruct (fprint_parse L 2 (f_of_N 0)) as (n & Hpn & _). rewrite Hpn. cbn [obind].
      assert (Hnum : f_to_N n = 0%N) by (apply (number_back L 0); [lia|exact Hpn]).
      rewrite Hnum. cbn [N.eqb].
      destruct (dummy_coord_ok ax (coord_map s) at_ (atoms (ret s)) x) as (dx' & x' & Dx & Gx & Px);
        [unfold same_atom; tauto|assumption..|].
      destruct (dummy_coord_ok ay (coord_map s) at_ (atoms (ret s)) y) as (dy' & y' & Dy & Gy & Py);
        [unfold same_atom; tauto|assumption..|].
      destruct (dummy_coord_ok az (coord_map s) at_ (atoms (ret s)) z) as (dz' & z' & Dz & Gz & Pz);
        [unfold same_atom; tauto|assumption..|].
      unfold omap. cbn [ofold]. rewrite Dx. cbn [obind]. rewrite Dy. cbn [obind]. rewrite Dz.
      cbn [obind List.app].
      match goal with |- exists s' ds, ofold _ _ ?s1 = Some s' /\ _ => set (s1' := s1) end.
      destruct (IH s1' Hs Hst Hat Hm) as (s' & ds & He & H1 & H2 & H3 & H4 & H5 & H6 & H7 & H8 & H9).
      exists s', ({| dx := dx'; dy := dy'; dz := dz' |} :: ds).
      refine (conj He (conj H1 (conj H2 (conj H3 (conj _ (conj _ _)))))).
      + rewrite H4. cbn [s1' ret with_ret dummies]. now rewrite <- app_assoc.
      + constructor; [|exact H5]. exists x, y, z, x', y', z'.
        refine (conj Hv (conj _ (conj Px (conj Py Pz)))).
        unfold get_vals. cbn [dx dy dz]. now rewrite Gx, Gy, Gz.
      + cbn in H6, H7, H8, H9. auto.
  Qed.

  (** *** weights *)
  Lemma read_weights l : forall (s : reading F),
    skip s = 0 -> state s = InWeight ->
    Forall (fun w => (fst w <= u64_max)%N /\ List.length (fprint 6 (snd w)) <= 11) l ->
    exists s' ws, ofold read_line
      (map (fun w => pad 5 (show_N (fst w)) ++ pad 12 (fprint 6 (snd w))) l) s = Some s' /\
      skip s' = 0 /\ state s' = InWeight /\
      weights (ret s') = weights (ret s) ++ ws /\ Forall2 same_weight l ws /\
      header (ret s') = header (ret s) /\ atoms (ret s') = atoms (ret s) /\
      curvils (ret s') = curvils (ret s) /\ degmodes (ret s') = degmodes (ret s) /\
      dummies (ret s') = dummies (ret s).
  Proof.
    induction l as [|w l IH]; intros s Hs Hst Hl.
    - exists s, []. cbn. rewrite app_nil_r. intuition auto.
    - inversion Hl as [|? ? (Hn & Hw) Hl']; subst. cbn [map ofold].
      rewrite read_row; [|exact Hs|].
      2:{ apply Forall_app. split; apply pad_row; [apply show_N_row|apply fprint_row]. }
      rewrite Hst. cbv zeta.
      destruct (pad_starts 12 (fprint 6 (snd w))) as (rw & Ew); [lia|].
      rewrite words_pad; [|apply show_N_solid|right; rewrite Ew; eexists; reflexivity].
      rewrite <- (app_nil_r (pad 12 (fprint 6 (snd w)))).
      rewrite words_pad; [|apply fprint_solid|now left]. cbn [words].
      rewrite parse_show_N by exact Hn. cbn [obind].
      destruct (fprint_parse L 6 (snd w)) as (v & P & Q). rewrite P. cbn [obind].
      match goal with |- exists s' ws, ofold _ _ ?s1 = Some s' /\ _ => set (s1' := s1) end.
      destruct (IH s1' Hs Hst Hl') as (s' & ws & He & H1 & H2 & H3 & H4 & H5 & H6 & H7 & H8 & H9).
      exists s', ((fst w, v) :: ws).
      refine (conj He (conj H1 (conj H2 (conj _ (conj _ _))))).
      + rewrite H3. cbn [s1' ret with_ret weights]. now rewrite <- app_assoc.
      + constructor; [|exact H4]. split; [reflexivity|exact Q].
      + cbn in H5, H6, H7, H8, H9. auto.
  Qed.

  (** *** curvilinear coordinates and degenerate modes *)
  Lemma words_indices r : Forall (fun i => i <= 9999)%N r ->
    omap parse_N (words (int_row (map show_N r))) = Some r.
  Proof.
    intros Hr. rewrite words_int_row.
    - apply omap_back. intros a Ha. rewrite Forall_forall in Hr. specialize (Hr a Ha).
      apply parse_show_N. unfold u64_max. lia.
    - apply Forall_map. eapply Forall_impl; [|exact Hr]. intros a Ha.
      split; [apply show_N_solid|now apply show_N_short].
  Qed.

  Lemma indices_row r : Forall row_char (int_row (map show_N r)).
  Proof. apply int_row_row, Forall_map, Forall_forall. intros a _. apply show_N_row. Qed.

  Lemma read_curvils l : forall (s : reading F),
    skip s = 0 -> state s = InCurvil ->
    Forall (fun c => Forall (fun i => i <= 9999)%N (index_list c)) l ->
    ofold read_line (map (fun c => int_row (map show_N (curvil_indices c))) l) s =
      Some (with_ret s
        {| header := header (ret s); atoms := atoms (ret s);
           weights := weights (ret s); curvils := curvils (ret s) ++ l;
           degmodes := degmodes (ret s); dummies := dummies (ret s) |}).
  Proof.
    induction l as [|c l IH]; intros s Hs Hst Hl.
    - cbn. rewrite app_nil_r. destruct s as [m st k r]; destruct r; reflexivity.
    - inversion Hl as [|? ? Hc Hl']; subst. cbn [map ofold].
      rewrite read_row; [|exact Hs|apply indices_row]. rewrite Hst. cbv zeta.
      change (curvil_indices c) with (index_list c). rewrite words_indices by exact Hc.
      cbn [obind].
      destruct c as [i j|i j k|i j k m]; cbn [index_list];
        (rewrite IH; [|exact Hs|exact Hst|exact Hl']; unfold with_ret; cbn; now rewrite <- app_assoc).
  Qed.

  Lemma read_degmodes l : forall (s : reading F),
    skip s = 0 -> state s = InDegmode ->
    Forall (fun r => r <> [] /\ Forall (fun i => i <= 9999)%N r) l ->
    ofold read_line (map (fun r => int_row (map show_N r)) l) s =
      Some (with_ret s
        {| header := header (ret s); atoms := atoms (ret s);
           weights := weights (ret s); curvils := curvils (ret s);
           degmodes := degmodes (ret s) ++ l; dummies := dummies (ret s) |}).
  Proof.
    induction l as [|c l IH]; intros s Hs Hst Hl.
    - cbn. rewrite app_nil_r. destruct s as [m st k r]; destruct r; reflexivity.
    - inversion Hl as [|? ? [Hne Hc] Hl']; subst. cbn [map ofold].
      rewrite read_row; [|exact Hs|apply indices_row]. rewrite Hst. cbv zeta.
      rewrite words_indices by exact Hc.
      cbn [obind]. destruct c as [|i c']; [congruence|].
      rewrite IH; [|exact Hs|exact Hst|exact Hl']. unfold with_ret. cbn. now rewrite <- app_assoc.
  Qed.

  (** *** the weights of the atoms *)
  Definition same_place (a b : atom F) : Prop :=
    number b = number a /\ ax b = ax a /\ ay b = ay a /\ az b = az a.

  Lemma same_place_refl (l : list (atom F)) : Forall2 same_place l l.
  Proof. induction l; constructor; [unfold same_place; auto|assumption]. Qed.

  Lemma same_place_trans (l1 l2 l3 : list (atom F)) :
    Forall2 same_place l1 l2 -> Forall2 same_place l2 l3 -> Forall2 same_place l1 l3.
  Proof.
    intros H1. revert l3. induction H1 as [|a b l1 l2 Hab H1 IH]; intros l3 H2;
      inversion H2 as [|? c ? l3' Hbc H2']; subst; constructor.
    - unfold same_place in *. intuition congruence.
    - now apply IH.
  Qed.

  Lemma set_nth_place (l : list (atom F)) k a b : nth_error l k = Some a -> same_place a b ->
    exists l', set_nth l k b = Some l' /\ Forall2 same_place l l'.
  Proof.
    revert k. induction l as [|c l IH]; intros [|k]; cbn; try discriminate.
    - intros [= ->] Hb. eexists. split; [reflexivity|]. constructor; [exact Hb|apply same_place_refl].
    - intros Hk Hb. destruct (IH k Hk Hb) as (l' & -> & Hl). eexists. split; [reflexivity|].
      constructor; [unfold same_place; auto|exact Hl].
  Qed.

  Lemma set_weights ws : forall at_ : list (atom F),
    Forall (fun w => 1 <= fst w <= N.of_nat (List.length at_))%N ws ->
    exists at', ofold set_weight ws at_ = Some at' /\ Forall2 same_place at_ at'.
  Proof.
    induction ws as [|[i w] ws IH]; intros at_ Hw.
    - exists at_. split; [reflexivity|apply same_place_refl].
    - inversion Hw as [|? ? Hi Hw']; subst. cbn [fst] in Hi. cbn [ofold set_weight].
      destruct (N.eqb_spec i 0); [lia|].
      destruct (N.ltb_spec (N.of_nat (List.length at_)) i); [lia|]. cbn [orb].
      destruct (nth_error at_ (N.to_nat (i - 1))) as [a|] eqn:E.
      2:{ apply nth_error_None in E. lia. }
      cbn [obind].
      destruct (set_nth_place at_ _ a {| number := number a; ax := ax a; ay := ay a; az := az a;
                       weight := Some w |} E) as (l' & -> & Hl); [unfold same_place; cbn; auto|].
      destruct (IH l') as (at' & -> & Hat).
      + rewrite <- (Forall2_length _ _ _ Hl). exact Hw'.
      + exists at'. split; [reflexivity|]. eapply same_place_trans; eassumption.
  Qed.

  Lemma get_val_place (sel : atom F -> F) at_ at' d v :
    (forall a b, same_place a b -> sel b = sel a) ->
    Forall2 same_place at_ at' -> get_val sel at_ d = Some v -> get_val sel at' d = Some v.
  Proof.
    intros Hsel Hat. destruct d as [x|i]; cbn; [auto|].
    destruct (nth_error at_ i) as [a|] eqn:E; [|discriminate]. cbn. intros [= <-].
    destruct (nth_error_Forall2 _ _ _ _ _ Hat E) as (b & -> & Hb). cbn. now rewrite (Hsel _ _ Hb).
  Qed.

  Lemma get_vals_place at_ at' d v :
    Forall2 same_place at_ at' -> get_vals at_ d = Some v -> get_vals at' d = Some v.
  Proof.
    intros Hat. unfold get_vals.
    destruct (get_val ax at_ (dx d)) as [x|] eqn:Ex; [|discriminate]. cbn.
    destruct (get_val ay at_ (dy d)) as [y|] eqn:Ey; [|discriminate]. cbn.
    destruct (get_val az at_ (dz d)) as [z|] eqn:Ez; [|discriminate]. cbn. intros [= <-].
    rewrite (get_val_place ax at_ at' _ x), (get_val_place ay at_ at' _ y),
      (get_val_place az at_ at' _ z); try assumption; try reflexivity;
      unfold same_place; tauto.
  Qed.

  (** ** The round trip *)
  Lemma chunks_concat {A} n (Hn : n <> 0) fuel (l : list A) :
    List.length l <= fuel -> List.concat (chunks fuel n l) = l.
  Proof.
    revert l. induction fuel as [|fuel IH]; intros l Hl.
    - destruct l; [reflexivity|cbn in Hl; lia].
    - destruct l as [|a l]; [reflexivity|]. cbn [chunks List.concat].
      rewrite IH; [apply firstn_skipn|]. rewrite skipn_length. cbn [List.length] in *. lia.
  Qed.

  Lemma chunks_forall {A} (P : A -> Prop) n (Hn : n <> 0) fuel (l : list A) :
    List.length l <= fuel -> Forall P l -> Forall (Forall P) (chunks fuel n l).
  Proof.
    revert l. induction fuel as [|fuel IH]; intros l Hl Hp.
    - destruct l; constructor.
    - destruct l as [|a l]; [constructor|]. cbn [chunks].
      rewrite <- (firstn_skipn n (a :: l)) in Hp. apply Forall_app in Hp as [H1 H2].
      constructor; [exact H1|]. apply IH; [|exact H2].
      rewrite skipn_length. cbn [List.length] in *. lia.
  Qed.

  Lemma read_skip (s : reading F) line k : skip s = S k ->
    read_line s line = Some (goto s (state s) k).
  Proof. intros Hs. unfold read_line. rewrite Hs. cbn. now rewrite Nat.sub_0_r. Qed.

  Lemma write_same (s s' : spectro F) : same_input s s' ->
    Forall (fun d => exists v, get_vals (atoms s) d = Some v) (dummies s) ->
    write s' = write s.
  Proof.
    intros (Hh & Ha & Hd & Hw & Hc & Hdeg) _. unfold write.
    enough (He : write_lines s' = write_lines s) by now rewrite He.
    unfold write_lines.
    assert (Ed : forall acc, ofold (fun acc d => let* b :=
         (let* v := get_vals (atoms s') d in
          let '(x, y, z) := v in Some (geom_row (f_of_N 0) x y z)) in Some (acc ++ [b]))
         (dummies s') acc
       = ofold (fun acc d => let* b :=
         (let* v := get_vals (atoms s) d in
          let '(x, y, z) := v in Some (geom_row (f_of_N 0) x y z)) in Some (acc ++ [b]))
         (dummies s) acc).
    { induction Hd as [|d d' l l' (x & y & z & x' & y' & z' & G & G' & Px & Py & Pz) Hd IH];
        intros acc; [reflexivity|]. cbn [ofold]. rewrite G, G'. cbn [obind].
      unfold geom_row. rewrite Px, Py, Pz. apply IH. }
    unfold omap. rewrite Ed.
    match goal with |- (let* _ := ?o in _) = _ => destruct o as [dum|]; [|reflexivity] end.
    cbn [obind]. rewrite Hh, Hc, Hdeg.
    rewrite <- (Forall2_length _ _ _ Ha), <- (Forall2_length _ _ _ Hd), <- (Forall2_length _ _ _ Hw).
    assert (Ea : map (fun a => geom_row (f_of_N (number a)) (ax a) (ay a) (az a)) (atoms s')
               = map (fun a => geom_row (f_of_N (number a)) (ax a) (ay a) (az a)) (atoms s)).
    { clear - Ha. induction Ha as [|a b l l' (Hn & Hx & Hy & Hz) Ha IH]; [reflexivity|].
      cbn [map]. rewrite IH. unfold geom_row. now rewrite Hn, Hx, Hy, Hz. }
    assert (Ew : map (fun w => pad 5 (show_N (fst w)) ++ pad 12 (fprint 6 (snd w))) (weights s')
               = map (fun w => pad 5 (show_N (fst w)) ++ pad 12 (fprint 6 (snd w))) (weights s)).
    { clear - Hw. induction Hw as [|a b l l' (Hn & Hx) Hw' IH]; [reflexivity|].
      cbn [map]. rewrite IH. now rewrite Hn, Hx. }
    rewrite Ea, Ew. reflexivity.
  Qed.

  Lemma lit_line t : forallb (fun c => negb (Ascii.eqb c newline) && negb (Ascii.eqb c carriage)) t = true ->
    one_line t.
  Proof.
    intros Ht. apply Forall_forall. intros c Hc. rewrite forallb_forall in Ht.
    specialize (Ht c Hc). destruct (Ascii.eqb c newline), (Ascii.eqb c carriage); cbn in Ht;
      try discriminate. auto.
  Qed.

  Lemma round_trip_lemma (s : spectro F) : printable s ->
    exists t s', write s = Some t /\ read t = Some s' /\ same_input s s' /\ write s' = Some t.
  Proof.
    intros [Plen Phead Patoms Pdum Pw Pidx Pcur Pdeg].
    (* header *)
    pose (s0 := goto (start : reading F) InHeader 0).
    pose proof (read_header (chunks (List.length (header s)) 15 (header s)) s0 eq_refl eq_refl
      (chunks_forall _ 15 ltac:(lia) _ _ (le_n _) Phead)) as E1.
    rewrite (chunks_concat 15) in E1 by lia.
    match type of E1 with _ = Some ?x => set (s1 := x) in E1 end.
    (* geometry *)
    pose (s2 := goto (goto s1 InGeom 1) InGeom 0).
    destruct (read_atoms (atoms s) [] s2 eq_refl eq_refl Patoms) as
      (s3 & E3 & K3 & T3 & A3 & M3 & H3 & W3 & C3 & G3 & D3).
    { constructor. }
    { intros t i Ht. discriminate. }
    cbn [List.app] in A3, M3.
    destruct (read_dummies (atoms s) (dummies s) s3 K3 T3 A3 M3 Pdum) as
      (rows & s4 & ds & Erows & Crows & E4 & K4 & T4 & A4 & D4 & DD4 & H4 & W4 & C4 & G4).
    (* weights *)
    pose (s5 := goto (goto s4 InWeight 1) InWeight 0).
    destruct (read_weights (weights s) s5 eq_refl eq_refl Pw) as
      (s6 & ws & E6 & K6 & T6 & W6 & WW6 & H6 & A6 & C6 & G6 & D6).
    (* curvilinear coordinates *)
    pose (s7 := goto s6 InCurvil 0).
    pose proof (read_curvils (curvils s) s7 eq_refl eq_refl Pcur) as E7.
    match type of E7 with _ = Some ?x => set (s8 := x) in E7 end.
    (* the whole text *)
    pose (deg := match degmodes s with
          | [] => []
          | _ => lit "# DEGMODE #############"
                 :: map (fun r => int_row (map show_N r)) (degmodes s)
          end).
    assert (E9 : exists s9, ofold read_line deg s8 = Some s9 /\
        header (ret s9) = header (ret s8) /\ atoms (ret s9) = atoms (ret s8) /\
        weights (ret s9) = weights (ret s8) /\ curvils (ret s9) = curvils (ret s8) /\
        dummies (ret s9) = dummies (ret s8) /\
        degmodes (ret s9) = degmodes (ret s8) ++ degmodes s).
    { unfold deg. destruct (degmodes s) as [|r rs] eqn:Er.
      - exists s8. cbn [ofold]. rewrite app_nil_r. intuition auto.
      - set (dl := map (fun r => int_row (map show_N r)) (r :: rs)).
        cbn [ofold]. unfold read_line at 1.
        replace (0 <? skip s8) with false by reflexivity.
        change (contains (lit "SPECTRO") (lit "# DEGMODE #############")) with false.
        change (contains (lit "GEOM") (lit "# DEGMODE #############")) with false.
        change (contains (lit "WEIGHT") (lit "# DEGMODE #############")) with false.
        change (contains (lit "CURVIL") (lit "# DEGMODE #############")) with false.
        change (contains (lit "DEGMODE") (lit "# DEGMODE #############")) with true.
        cbv iota.
        pose proof (read_degmodes (r :: rs) (goto s8 InDegmode 0) eq_refl eq_refl Pdeg) as E.
        fold dl in E. rewrite E. eexists. split; [reflexivity|]. cbn. intuition auto. }
    destruct E9 as (s9 & E9 & H9 & A9 & W9 & C9 & D9 & G9).
    pose (all := [lit "# SPECTRO #############"]
       ++ map (fun c => int_row (map show_Z c))
              (chunks (List.length (header s)) 15 (header s))
       ++ [lit "# GEOM #############";
           int_row [show_N (N.of_nat (List.length (atoms s) + List.length (dummies s)));
                    show_N 0]]
       ++ map (fun a => geom_row (f_of_N (number a)) (ax a) (ay a) (az a)) (atoms s)
       ++ rows
       ++ [lit "# WEIGHT #############";
           pad 5 (show_N (N.of_nat (List.length (weights s))))]
       ++ map (fun w => pad 5 (show_N (fst w)) ++ pad 12 (fprint 6 (snd w))) (weights s)
       ++ [lit "# CURVIL #############"]
       ++ map (fun c => int_row (map show_N (curvil_indices c))) (curvils s)
       ++ deg).
    assert (Hwrite : write s = Some (unlines all)).
    { unfold write, write_lines. rewrite Erows. reflexivity. }
    assert (Hlines : lines (unlines all) = all).
    { apply lines_unlines. unfold all, deg.
      assert (Hlit : forall k, In k ["# SPECTRO #############"; "# GEOM #############";
                "# WEIGHT #############"; "# CURVIL #############";
                "# DEGMODE #############"]%string -> one_line (lit k)).
      { intros k Hk. cbn in Hk. repeat destruct Hk as [<-|Hk]; try destruct Hk;
          apply lit_line; reflexivity. }
      apply Forall_app. split; [constructor; [apply Hlit; cbn; tauto|constructor]|].
      apply Forall_app. split.
      { apply Forall_map, Forall_forall. intros x Hx. apply row_one_line.
        apply int_row_row, Forall_map, Forall_forall. intros z _. apply show_Z_row. }
      apply Forall_app. split.
      { constructor; [apply Hlit; cbn; tauto|]. constructor; [|constructor].
        apply row_one_line, int_row_row.
        constructor; [apply show_N_row|constructor; [apply show_N_row|constructor]]. }
      apply Forall_app. split.
      { apply Forall_map, Forall_forall. intros x Hx. apply row_one_line, geom_row_row. }
      apply Forall_app. split.
      { eapply Forall_impl; [|exact Crows]. apply row_one_line. }
      apply Forall_app. split.
      { constructor; [apply Hlit; cbn; tauto|]. constructor; [|constructor].
        apply row_one_line, pad_row, show_N_row. }
      apply Forall_app. split.
      { apply Forall_map, Forall_forall. intros x Hx. apply row_one_line.
        apply Forall_app. split; apply pad_row; [apply show_N_row|apply fprint_row]. }
      apply Forall_app. split; [constructor; [apply Hlit; cbn; tauto|constructor]|].
      apply Forall_app. split.
      { apply Forall_map, Forall_forall. intros x Hx. apply row_one_line, indices_row. }
      destruct (degmodes s) as [|r rs]; [constructor|].
      constructor; [apply Hlit; cbn; tauto|].
      apply Forall_map, Forall_forall. intros x Hx. apply row_one_line, indices_row. }
    assert (Hread : ofold read_line all start = Some s9).
    { unfold all. cbn [obind List.app ofold].
      change (read_line start (lit "# SPECTRO #############")) with (Some s0). cbv iota.
      rewrite ofold_app, E1. cbn [obind List.app ofold].
      change (read_line s1 (lit "# GEOM #############")) with (Some (goto s1 InGeom 1)). cbv iota.
      rewrite (read_skip (goto s1 InGeom 1) _ 0 eq_refl). cbv iota. fold s2.
      change (goto (goto s1 InGeom 1) (state (goto s1 InGeom 1)) 0) with s2.
      rewrite ofold_app, E3. cbn [obind]. rewrite ofold_app, E4. cbn [obind List.app ofold].
      assert (Ek : read_line s4 (lit "# WEIGHT #############") = Some (goto s4 InWeight 1)).
      { unfold read_line. rewrite K4. reflexivity. }
      rewrite Ek. rewrite (read_skip (goto s4 InWeight 1) _ 0 eq_refl).
      change (goto (goto s4 InWeight 1) (state (goto s4 InWeight 1)) 0) with s5.
      rewrite ofold_app, E6. cbn [obind List.app ofold].
      assert (Ec : read_line s6 (lit "# CURVIL #############") = Some s7).
      { unfold read_line. rewrite K6. reflexivity. }
      rewrite Ec, ofold_app, E7. cbn [obind]. exact E9. }
    (* what was read *)
    assert (RH : header (ret s9) = header s).
    { rewrite H9. unfold s8. cbn. rewrite H6. cbn. rewrite H4, H3. reflexivity. }
    assert (RA : Forall2 same_atom (atoms s) (atoms (ret s9))).
    { rewrite A9. unfold s8. cbn. rewrite A6. cbn. rewrite A4. exact A3. }
    assert (RD : dummies (ret s9) = ds).
    { rewrite D9. unfold s8. cbn. rewrite D6. cbn. rewrite D4, D3. reflexivity. }
    assert (RW : Forall2 same_weight (weights s) (weights (ret s9))).
    { rewrite W9. unfold s8. cbn. rewrite W6. cbn. rewrite W4, W3. exact WW6. }
    assert (RC : curvils (ret s9) = curvils s).
    { rewrite C9. unfold s8. cbn. rewrite C6. cbn. rewrite C4, C3. reflexivity. }
    assert (RG : degmodes (ret s9) = degmodes s).
    { rewrite G9. unfold s8. cbn. rewrite G6. cbn. rewrite G4, G3. reflexivity. }
    assert (RDD : Forall2 (fun d d' => exists x y z x' y' z',
        get_vals (atoms s) d = Some (x, y, z) /\ get_vals (atoms (ret s9)) d' = Some (x', y', z') /\
        fprint 8 x' = fprint 8 x /\ fprint 8 y' = fprint 8 y /\ fprint 8 z' = fprint 8 z)
        (dummies s) (dummies (ret s9))).
    { rewrite RD, A9. unfold s8. cbn. rewrite A6. cbn. rewrite A4. exact DD4. }
    assert (Hfin : exists s', apply_weights (ret s9) = Some s' /\ same_input s s').
    { unfold apply_weights. rewrite RH.
      destruct (nth_error (header s) 1) as [h|] eqn:Eh.
      2:{ apply nth_error_None in Eh. lia. }
      cbn [obind]. destruct (Z.eqb_spec h (-1)) as [->|Hh].
      - destruct (set_weights (weights (ret s9)) (atoms (ret s9))) as (at' & -> & Hat).
        + specialize (Pidx eq_refl). clear - Pidx RW RA.
          rewrite <- (Forall2_length _ _ _ RA).
          induction RW as [|w w' l l' (Hi & _) RW IH]; [constructor|].
          inversion Pidx; subst. constructor; [rewrite Hi; assumption|auto].
        + cbn [obind]. eexists. split; [reflexivity|]. unfold same_input. cbn.
          refine (conj eq_refl (conj _ (conj _ (conj RW (conj RC RG))))).
          * clear - RA Hat. revert at' Hat.
            induction RA as [|a b l l' (Hn & Hx & Hy & Hz) RA IH]; intros at' Hat;
              inversion Hat as [|? c ? l2 (Hn' & Hx' & Hy' & Hz') Hat']; subst; constructor.
            -- unfold same_atom. rewrite Hn', Hx', Hy', Hz'. auto.
            -- now apply IH.
          * eapply Forall2_impl; [|exact RDD].
            intros d d' (x & y & z & x' & y' & z' & G & G' & Px & Py & Pz).
            exists x, y, z, x', y', z'. cbn.
            refine (conj G (conj _ (conj Px (conj Py Pz)))).
            eapply get_vals_place; eassumption.
      - eexists. split; [reflexivity|]. unfold same_input, same_dummy. auto 10. }
    destruct Hfin as (s' & Hs' & Hsame). exists (unlines all), s'.
    refine (conj Hwrite (conj _ (conj Hsame _))).
    - unfold read. rewrite Hlines, Hread. exact Hs'.
    - rewrite <- Hwrite. apply write_same; [exact Hsame|].
      eapply Forall_impl; [|exact Pdum]. intros d (x & y & z & Hv & _). eauto.
  Qed.
End Read.
