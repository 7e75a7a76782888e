(** Where dummy atoms end up, and input files that do not survive. *)
From Coq Require Import List ZArith NArith Arith Lia Bool Ascii String.
From Verif Require Import Num Loops Index ListFacts LoadFacts Text TextFacts RoundFacts.
Import ListNotations.
Open Scope list_scope.
Open Scope nat_scope.

Section Dummy.
  Context {F : Type} `{FT : FText F}.

  Definition no_keyword (l : text) : Prop :=
    forall k, In k ["SPECTRO"; "GEOM"; "WEIGHT"; "CURVIL"; "DEGMODE"; "CORIOL"]%string ->
      contains (lit k) l = false.

  (** After the lines [before] the reader is in the geometry section and [l] is
      one of its data lines. *)
  Definition in_geometry (before : list text) (l : text) : Prop :=
    exists s : reading F, ofold read_line before start = Some s /\
      state s = InGeom /\ skip s = 0 /\ no_keyword l.

  (** the atom lines among [before]: their fields after the atomic number *)
  Definition atom_fields (before : list text) (f : list text) : Prop :=
    exists b1 l b2 n v, before = b1 ++ l :: b2 /\ in_geometry b1 l /\
      words l = n :: f /\ fparse n = Some v /\ f_to_N v <> 0%N.

  (** no earlier atom has the text [t] on an axis other than the [k]-th without
      having it on the [k]-th *)
  Definition clear_of (before : list text) (k : nat) (t : text) : Prop :=
    forall f, atom_fields before f -> In t f -> nth_error f k = Some t.

  Lemma no_keyword_line (s : reading F) l : skip s = 0 -> state s = InGeom -> no_keyword l ->
    read_line s l = read_geom s l.
  Proof.
    intros Hs Hst Hk. unfold read_line. rewrite Hs, Hst. cbn [Nat.ltb Nat.leb].
    rewrite !Hk by (cbn; tauto). reflexivity.
  Qed.

  (** every entry of the coordinate map comes from an atom line *)
  Definition map_ok (before : list text) (s : reading F) : Prop :=
    forall t i, lookup (coord_map s) t = Some i ->
      exists f fx fy fz rest a, atom_fields before f /\ f = fx :: fy :: fz :: rest /\ In t f /\
        nth_error (atoms (ret s)) i = Some a /\
        fparse fx = Some (ax a) /\ fparse fy = Some (ay a) /\ fparse fz = Some (az a).

  Lemma atom_fields_snoc before l f : atom_fields before f -> atom_fields (before ++ [l]) f.
  Proof.
    intros (b1 & x & b2 & n & v & -> & Hr). exists b1, x, (b2 ++ [l]), n, v.
    now rewrite <- app_assoc.
  Qed.

  Lemma lookup_fold (f : list text) i m t k :
    lookup (fold_left (fun m t => (t, i) :: m) f m) t = Some k ->
    (k = i /\ In t f) \/ lookup m t = Some k.
  Proof.
    revert m. induction f as [|u f IH]; intros m; cbn [fold_left]; [auto|].
    intros Hl. destruct (IH _ Hl) as [[-> Hin]|Hl']; [left; split; [reflexivity|now right]|].
    rewrite lookup_cons in Hl'. destruct (text_eqb u t) eqn:E; [|now right].
    apply text_eqb_eq in E. injection Hl' as <-. left. split; [reflexivity|now left].
  Qed.

  (** reading a line: atoms and dummies only grow, and the map stays right *)
  Lemma read_line_step before (s s' : reading F) l :
    ofold read_line before start = Some s -> map_ok before s -> read_line s l = Some s' ->
    map_ok (before ++ [l]) s' /\
    (exists more, atoms (ret s') = atoms (ret s) ++ more) /\
    (exists more, dummies (ret s') = dummies (ret s) ++ more).
  Proof.
    intros Hb Hm Hl.
    assert (Hsame : forall s2 : reading F, coord_map s2 = coord_map s -> atoms (ret s2) = atoms (ret s) ->
              dummies (ret s2) = dummies (ret s) ->
              map_ok (before ++ [l]) s2 /\ (exists more, atoms (ret s2) = atoms (ret s) ++ more) /\
              (exists more, dummies (ret s2) = dummies (ret s) ++ more)).
    { intros s2 E1 E2 E3. refine (conj _ (conj _ _)).
      - intros t i Ht. rewrite E1 in Ht. rewrite E2.
        destruct (Hm t i Ht) as (f & fx & fy & fz & rest & a & Hf & Hr).
        exists f, fx, fy, fz, rest, a. split; [now apply atom_fields_snoc|exact Hr].
      - exists []. now rewrite app_nil_r.
      - exists []. now rewrite app_nil_r. }
    unfold read_line in Hl.
    destruct (Nat.ltb_spec 0 (skip s)) as [_|Hsk].
    { injection Hl as <-. now apply Hsame. }
    destruct (contains (lit "SPECTRO") l) eqn:K1; [injection Hl as <-; now apply Hsame|].
    destruct (contains (lit "GEOM") l) eqn:K2; [injection Hl as <-; now apply Hsame|].
    destruct (contains (lit "WEIGHT") l) eqn:K3; [injection Hl as <-; now apply Hsame|].
    destruct (contains (lit "CURVIL") l) eqn:K4; [injection Hl as <-; now apply Hsame|].
    destruct (contains (lit "DEGMODE") l) eqn:K5; [injection Hl as <-; now apply Hsame|].
    destruct (contains (lit "CORIOL") l) eqn:K6; [injection Hl as <-; now apply Hsame|].
    cbv zeta in Hl. destruct (state s) eqn:Est.
    - destruct (omap parse_Z (words l)); [|discriminate]. injection Hl as <-. now apply Hsame.
    - assert (Hg : in_geometry before l).
      { exists s. assert (Hsk0 : skip s = 0) by lia. refine (conj Hb (conj Est (conj Hsk0 _))).
        intros k Hk. cbn in Hk. repeat destruct Hk as [<-|Hk]; try destruct Hk; assumption. }
      unfold read_geom in Hl. destruct (words l) as [|n f] eqn:Ew; [discriminate|].
      destruct (fparse n) as [v|] eqn:En; [|discriminate]. cbn [obind] in Hl. cbv zeta in Hl.
      destruct (N.eqb_spec (f_to_N v) 0) as [Ez|Ez].
      + destruct (omap (dummy_coord (coord_map s)) f) as [ds|]; [|discriminate]. cbn [obind] in Hl.
        destruct ds as [|d1 [|d2 [|d3 [|d4 ds]]]]; try discriminate. injection Hl as <-.
        refine (conj _ (conj _ _)).
        * intros t i Ht. cbn [with_ret coord_map ret atoms] in *.
          destruct (Hm t i Ht) as (g & fx & fy & fz & rest & a & Hf & Hr).
          exists g, fx, fy, fz, rest, a. split; [now apply atom_fields_snoc|exact Hr].
        * exists []. cbn. now rewrite app_nil_r.
        * cbn. eexists. reflexivity.
      + destruct f as [|fx [|fy [|fz rest]]]; try discriminate.
        destruct (fparse fx) as [x|] eqn:Ex; [|discriminate].
        destruct (fparse fy) as [y|] eqn:Ey; [|discriminate].
        destruct (fparse fz) as [z|] eqn:Ezz; [|discriminate].
        cbn [obind] in Hl. injection Hl as <-.
        refine (conj _ (conj _ _)).
        * intros t i Ht. cbn [coord_map ret atoms] in *.
          apply (lookup_fold (fx :: fy :: fz :: rest)) in Ht as [[-> Hin]|Ht].
          -- exists (fx :: fy :: fz :: rest), fx, fy, fz, rest. eexists.
             refine (conj _ (conj eq_refl (conj Hin (conj _ _)))).
             ++ exists before, l, [], n, v. auto.
             ++ rewrite nth_error_app2, Nat.sub_diag by lia. reflexivity.
             ++ cbn. auto.
          -- destruct (Hm t i Ht) as (g & gx & gy & gz & rest' & a & Hf & Hg1 & Hg2 & Hg3 & Hr).
             exists g, gx, gy, gz, rest', a.
             refine (conj (atom_fields_snoc _ _ _ Hf) (conj Hg1 (conj Hg2 (conj _ Hr)))).
             rewrite nth_error_app1; [exact Hg3|]. apply nth_error_Some. congruence.
        * cbn. eexists. reflexivity.
        * exists []. cbn. now rewrite app_nil_r.
    - destruct (words l) as [|a [|b w]]; try discriminate.
      destruct (parse_N a); [|discriminate]. cbn [obind] in Hl.
      destruct (fparse b); [|discriminate]. injection Hl as <-. now apply Hsame.
    - destruct (omap parse_N (words l)) as [q|]; [|discriminate]. cbn [obind] in Hl.
      destruct q as [|a [|b [|c [|d [|e q]]]]]; try discriminate; injection Hl as <-;
        now apply Hsame.
    - destruct (omap parse_N (words l)) as [q|]; [|discriminate]. cbn [obind] in Hl.
      destruct q; injection Hl as <-; now apply Hsame.
    - injection Hl as <-. now apply Hsame.
  Qed.

  Lemma map_ok_start : map_ok [] (start : reading F).
  Proof. intros t i Ht. discriminate. Qed.

  Lemma ofold_split {A S} (f : S -> A -> option S) l a l' s r :
    ofold f (l ++ a :: l') s = Some r ->
    exists s1 s2, ofold f l s = Some s1 /\ f s1 a = Some s2 /\ ofold f l' s2 = Some r.
  Proof.
    rewrite ofold_app. destruct (ofold f l s) as [s1|]; [|discriminate]. cbn.
    destruct (f s1 a) as [s2|] eqn:E; [|discriminate]. eauto.
  Qed.

  Lemma read_all before (s : reading F) : ofold read_line before start = Some s -> map_ok before s.
  Proof.
    revert s. induction before as [|l before IH] using rev_ind; intros s Hs.
    - injection Hs as <-. apply map_ok_start.
    - destruct (ofold_split _ _ _ _ _ _ Hs) as (s1 & s2 & E1 & E2 & E3).
      injection E3 as <-. exact (proj1 (read_line_step before s1 s2 l E1 (IH s1 E1) E2)).
  Qed.

  Lemma read_more after : forall before (s s' : reading F),
    ofold read_line before start = Some s -> ofold read_line after s = Some s' ->
    (exists more, atoms (ret s') = atoms (ret s) ++ more) /\
    (exists more, dummies (ret s') = dummies (ret s) ++ more).
  Proof.
    induction after as [|l after IH]; intros before s s' Hb Ha.
    - injection Ha as <-. split; exists []; now rewrite app_nil_r.
    - cbn [ofold] in Ha. destruct (read_line s l) as [s1|] eqn:E; [|discriminate].
      destruct (read_line_step before s s1 l Hb (read_all _ _ Hb) E) as (_ & (m1 & E1) & (m2 & E2)).
      destruct (IH (before ++ [l]) s1 s') as ((m3 & E3) & (m4 & E4)).
      + rewrite ofold_app, Hb. cbn. now rewrite E.
      + exact Ha.
      + rewrite E3, E4, E1, E2, <- !app_assoc. split; eexists; reflexivity.
  Qed.

  Lemma coord_kept (sel : atom F -> F) k before (s : reading F) t d more :
    (forall f fx fy fz rest a, f = fx :: fy :: fz :: rest ->
       fparse fx = Some (ax a) -> fparse fy = Some (ay a) -> fparse fz = Some (az a) ->
       nth_error f k = Some t -> fparse t = Some (sel a)) ->
    map_ok before s -> clear_of before k t -> dummy_coord (coord_map s) t = Some d ->
    exists v, fparse t = Some v /\ get_val sel (atoms (ret s) ++ more) d = Some v.
  Proof.
    intros Hsel Hm Hc. unfold dummy_coord.
    destruct (lookup (coord_map s) t) as [i|] eqn:E.
    - intros [= <-]. destruct (Hm t i E) as (f & fx & fy & fz & rest & a & Hf & Hff & Hin & Ha & Px & Py & Pz).
      exists (sel a). split; [exact (Hsel f fx fy fz rest a Hff Px Py Pz (Hc f Hf Hin))|].
      cbn. rewrite nth_error_app1; [now rewrite Ha|]. apply nth_error_Some. congruence.
    - destruct (fparse t) as [v|]; [|discriminate]. cbn. intros [= <-]. eauto.
  Qed.

  Lemma dummy_lemma (file : text) (s : spectro F) before line after n tx ty tz v :
    read file = Some s -> lines file = before ++ line :: after ->
    in_geometry before line -> words line = [n; tx; ty; tz] ->
    fparse n = Some v -> f_to_N v = 0%N ->
    clear_of before 0 tx -> clear_of before 1 ty ->
    clear_of before 2 tz ->
    exists d x y z, In d (dummies s) /\
      fparse tx = Some x /\ fparse ty = Some y /\ fparse tz = Some z /\
      get_vals (atoms s) d = Some (x, y, z).
  Proof.
    intros Hr Hlines (s0 & Hs0 & Hst & Hsk & Hk) Hw Hn Hz Cx Cy Cz.
    unfold read in Hr. rewrite Hlines in Hr.
    destruct (ofold read_line (before ++ line :: after) start) as [s9|] eqn:E9; [|discriminate].
    cbn [obind] in Hr.
    destruct (ofold_split _ _ _ _ _ _ E9) as (s1 & s2 & E1 & E2 & E3).
    assert (s1 = s0) by congruence. subst s1.
    pose proof (read_all before s0 Hs0) as Hm.
    rewrite no_keyword_line in E2 by assumption.
    unfold read_geom in E2. rewrite Hw, Hn in E2. cbn [obind] in E2. rewrite Hz in E2.
    cbn [N.eqb] in E2. unfold omap in E2. cbn [ofold] in E2.
    destruct (dummy_coord (coord_map s0) tx) as [d1|] eqn:D1; [|discriminate].
    cbn [obind] in E2.
    destruct (dummy_coord (coord_map s0) ty) as [d2|] eqn:D2; [|discriminate].
    cbn [obind] in E2.
    destruct (dummy_coord (coord_map s0) tz) as [d3|] eqn:D3; [|discriminate].
    cbn [obind List.app] in E2. injection E2 as <-.
    match type of E3 with ofold _ _ ?x = _ => set (s2 := x) in E3 end.
    assert (Hb2 : ofold read_line (before ++ [line]) start = Some s2).
    { rewrite ofold_app, Hs0. cbn [obind ofold]. rewrite no_keyword_line by assumption.
      unfold read_geom. rewrite Hw, Hn. cbn [obind]. rewrite Hz. cbn [N.eqb].
      unfold omap. cbn [ofold]. rewrite D1. cbn [obind]. rewrite D2. cbn [obind]. rewrite D3.
      reflexivity. }
    destruct (read_more after (before ++ [line]) s2 s9 Hb2 E3) as ((ma & Ea) & (md & Ed)).
    cbn [s2 with_ret ret atoms dummies] in Ea, Ed.
    destruct (coord_kept ax 0 before s0 tx d1 ma) as (x & Px & Gx); [|assumption..|].
    { intros f fx fy fz rest a -> P1 P2 P3 [= ->]. exact P1. }
    destruct (coord_kept ay 1 before s0 ty d2 ma) as (y & Py & Gy); [|assumption..|].
    { intros f fx fy fz rest a -> P1 P2 P3 [= ->]. exact P2. }
    destruct (coord_kept az 2 before s0 tz d3 ma) as (z & Pz & Gz); [|assumption..|].
    { intros f fx fy fz rest a -> P1 P2 P3 [= ->]. exact P3. }
    rewrite <- Ea in Gx, Gy, Gz.
    assert (Hd : In {| dx := d1; dy := d2; dz := d3 |} (dummies (ret s9))).
    { rewrite Ed. apply in_or_app. left. apply in_or_app. right. now left. }
    assert (Hv : get_vals (atoms (ret s9)) {| dx := d1; dy := d2; dz := d3 |} = Some (x, y, z)).
    { unfold get_vals. cbn [dx dy dz]. now rewrite Gx, Gy, Gz. }
    assert (Hfin : Forall2 same_place (atoms (ret s9)) (atoms s) /\ dummies s = dummies (ret s9)).
    { unfold apply_weights in Hr. destruct (nth_error (header (ret s9)) 1) as [h|]; [|discriminate].
      cbn [obind] in Hr. destruct (Z.eqb h (-1)).
      - destruct (ofold set_weight (weights (ret s9)) (atoms (ret s9))) as [at'|] eqn:E; [|discriminate].
        injection Hr as <-. cbn. split; [|reflexivity].
        assert (Hok : forall ws (at_ at' : list (atom F)),
                  ofold set_weight ws at_ = Some at' -> Forall2 same_place at_ at').
        { clear. induction ws as [|[i w] ws IH]; intros at_ at'; cbn [ofold].
          - intros [= <-]. apply same_place_refl.
          - destruct (set_weight at_ (i, w)) as [at1|] eqn:E; [|discriminate]. intros Hr.
            eapply same_place_trans; [|exact (IH _ _ Hr)].
            unfold set_weight in E.
            destruct ((i =? 0)%N || (N.of_nat (List.length at_) <? i)%N); [discriminate|].
            cbv zeta in E. destruct (nth_error at_ (N.to_nat (i - 1))) as [a|] eqn:Ea; [|discriminate].
            cbn [obind] in E.
            destruct (set_nth_place at_ _ a _ Ea
              (conj eq_refl (conj eq_refl (conj eq_refl eq_refl))
               : same_place a {| number := number a; ax := ax a; ay := ay a; az := az a;
                       weight := Some w |})) as (l' & El & Hl).
            rewrite El in E. injection E as <-. exact Hl. }
        eapply Hok, E.
      - injection Hr as <-. split; [apply same_place_refl|reflexivity]. }
    destruct Hfin as [Hp Hdd].
    exists {| dx := d1; dy := d2; dz := d3 |}, x, y, z. rewrite Hdd.
    refine (conj Hd (conj Px (conj Py (conj Pz _)))).
    eapply get_vals_place; eassumption.
  Qed.
End Dummy.

(** ** An arithmetic for the examples: whole numbers, printed with zeros after
    the point; parsing accepts nothing else *)
Fixpoint before_dot (t : text) : text * text :=
  match t with
  | [] => ([], [])
  | c :: r => if Ascii.eqb c "." then ([], r)
              else let '(a, b) := before_dot r in (c :: a, b)
  end.

Definition whole (t : text) : option Z :=
  match t with
  | [] => None
  | c :: r => if Ascii.eqb c "-" then let* n := parse_digits r in Some (- Z.of_N n)%Z
              else let* n := parse_digits t in Some (Z.of_N n)
  end.

#[export] Instance Ztext : FText Z := {
  fprint := fun p z => show_Z z ++ "."%char :: repeat "0"%char p;
  fparse := fun t => let '(a, b) := before_dot t in
                     if forallb (fun c => Ascii.eqb c "0") b then whole a else None;
  f_of_N := Z.of_N;
  f_to_N := Z.to_N }.

Lemma before_dot_app a b : Forall (fun c => Ascii.eqb c "." = false) a ->
  before_dot (a ++ "."%char :: b) = (a, b).
Proof.
  induction 1 as [|c a Hc Ha IH]; [reflexivity|]. cbn [List.app before_dot].
  now rewrite Hc, IH.
Qed.

Lemma show_N_nodot n : Forall (fun c => Ascii.eqb c "." = false) (show_N n).
Proof.
  eapply Forall_impl; [|apply show_N_digits]. unfold is_digit. cbn. intros c Hc.
  repeat destruct Hc as [<-|Hc]; try destruct Hc; reflexivity.
Qed.

Lemma show_Z_nodot z : Forall (fun c => Ascii.eqb c "." = false) (show_Z z).
Proof.
  unfold show_Z. destruct (z <? 0)%Z; [|apply show_N_nodot].
  constructor; [reflexivity|apply show_N_nodot].
Qed.

Lemma whole_show z : whole (show_Z z) = Some z.
Proof.
  unfold show_Z. destruct (Z.ltb_spec z 0).
  - cbn [whole]. cbv [Ascii.eqb Bool.eqb]. rewrite parse_digits_show. cbn [obind]. f_equal. lia.
  - destruct (show_N_head (Z.to_N z)) as (c & r & E & Hc). rewrite E. cbn [whole].
    destruct (digit_not_sign c Hc) as [_ ->]. rewrite <- E, parse_digits_show. cbn [obind].
    f_equal. lia.
Qed.

Lemma Ztext_parse p z : fparse (fprint p z) = Some z.
Proof.
  cbn [fparse fprint Ztext]. rewrite before_dot_app by apply show_Z_nodot.
  replace (forallb (fun c => Ascii.eqb c "0") (repeat "0"%char p)) with true.
  - apply whole_show.
  - symmetry. apply forallb_forall. intros c Hc. apply repeat_spec in Hc. now subst.
Qed.

Lemma Ztext_ok : float_text Z.
Proof.
  constructor.
  - intros p z. split.
    + cbn. destruct (show_Z z); discriminate.
    + cbn [fprint Ztext]. apply Forall_app. split.
      * unfold show_Z. destruct (z <? 0)%Z; [constructor|];
          try (eapply Forall_impl; [|apply show_N_digits]; unfold is_digit, number_char; cbn; tauto).
        unfold number_char. cbn. tauto.
      * constructor; [unfold number_char; cbn; tauto|].
        apply Forall_forall. intros c Hc. apply repeat_spec in Hc. subst c.
        unfold number_char. cbn. tauto.
  - intros p z. exists z. split; [apply Ztext_parse|reflexivity].
  - intros n y _. rewrite Ztext_parse. cbn. intros [= <-]. lia.
Qed.

(** ** Files that do not survive *)
Definition at_ (n : N) (x y z : Z) : atom Z :=
  {| number := n; ax := x; ay := y; az := z; weight := None |}.

Definition input (h : list Z) (a : list (atom Z)) (w : list (N * Z)) (g : list (list N))
  (d : list (dummy Z)) : spectro Z :=
  {| header := h; atoms := a; weights := w; curvils := []; degmodes := g; dummies := d |}.

Definition water : list (atom Z) := [at_ 8 0 0 (-1); at_ 1 0 2 1; at_ 1 0 (-2) 1].

Definition dummy_at (x y z : Z) : dummy Z := {| dx := Value x; dy := Value y; dz := Value z |}.

Definition reread (s : spectro Z) : option (spectro Z) := let* t := write s in read t.

Lemma round_trip_refuted_lemma :
  (exists s s' : spectro Z, reread s = Some s' /\ header s' <> header s) /\
  (exists s s' : spectro Z, reread s = Some s' /\ degmodes s' <> degmodes s) /\
  (exists (s s' : spectro Z) d d', reread s = Some s' /\ dummies s = [d] /\ dummies s' = [d'] /\
     get_vals (atoms s) d <> None /\ get_vals (atoms s') d' <> get_vals (atoms s) d) /\
  (exists s t : _, write s = Some t /\ read t = (None : option (spectro Z)) /\
     List.length (header s) = 30).
Proof.
  refine (conj _ (conj _ (conj _ _))).
  - exists (input [1; 12345; 0]%Z water [] [] []). eexists. split; [vm_compute; reflexivity|].
    discriminate.
  - exists (input [1; 1; 0]%Z water [] [[3; 4]%N; []] []). eexists.
    split; [vm_compute; reflexivity|]. discriminate.
  - exists (input [1; 1; 0]%Z water [] [] [dummy_at 1 0 5]). do 3 eexists.
    split; [vm_compute; reflexivity|]. split; [reflexivity|]. split; [reflexivity|].
    split; vm_compute; discriminate.
  - exists (input (1 :: (-1) :: repeat 0 28)%Z water [(4%N, 0%Z)] [] [dummy_at 7 8 9]).
    eexists. split; [vm_compute; reflexivity|]. split; vm_compute; reflexivity.
Qed.

Definition dummy_file : text :=
  unlines (map lit ["# SPECTRO"; "    1    1    0"; "# GEOM"; "    4    1";
                    " 8.00  0.0  0.0 -1.0"; " 1.00  0.0  2.0  1.0"; " 1.00  0.0 -2.0  1.0";
                    " 0.00  1.0  0.0  5.0"; "# WEIGHT"; "    0"]%string).

Lemma dummy_refuted_lemma :
  exists (file line n tx ty tz : text) (x y z : Z) (s : spectro Z) (d : dummy Z),
    read file = Some s /\ In line (lines file) /\ words line = [n; tx; ty; tz] /\
    fparse n = Some 0%Z /\ fparse tx = Some x /\ fparse ty = Some y /\ fparse tz = Some z /\
    dummies s = [d] /\ get_vals (atoms s) d = Some (0, -2, 5)%Z /\ (x, y, z) = (1, 0, 5)%Z.
Proof.
  exists dummy_file, (lit " 0.00  1.0  0.0  5.0"). do 4 eexists. exists 1%Z, 0%Z, 5%Z. do 2 eexists.
  split; [vm_compute; reflexivity|]. split; [vm_compute; tauto|].
  split; [vm_compute; reflexivity|]. repeat (split; [vm_compute; reflexivity|]).
  reflexivity.
Qed.

Lemma dummy_frame_refuted_lemma :
  exists (s : spectro Z) (f : Z * Z * Z -> Z * Z * Z) (d : dummy Z) (p q : Z * Z * Z),
    dummies s = [d] /\ dummies (process_geom f s) = [d] /\
    get_vals (atoms s) d = Some p /\ get_vals (atoms (process_geom f s)) d = Some q /\
    q <> f p.
Proof.
  exists (input [1; 1; 0]%Z water [] [] [dummy_at 3 4 5]),
    (fun '(x, y, z) => (x, y, z + 1)%Z), (dummy_at 3 4 5), (3, 4, 5)%Z, (3, 4, 5)%Z.
  repeat (split; [reflexivity|]). discriminate.
Qed.

(** ** Examples *)
Definition sample : spectro Z :=
  {| header := (1 :: (-1) :: repeat 0 28)%Z;
     atoms := water;
     weights := [(1%N, 16%Z); (2%N, 1%Z); (3%N, 2%Z)];
     curvils := [Bond 1 2; Bond 1 3; Bend 2 1 3; Tors 1 2 3 4];
     degmodes := [[1; 2; 12]%N; [3]%N];
     dummies := [dummy_at 0 7 1; {| dx := FromAtom 1; dy := Value 9%Z; dz := FromAtom 2 |}] |}.

Lemma in_water a : In a water -> a = at_ 8 0 0 (-1) \/ a = at_ 1 0 2 1 \/ a = at_ 1 0 (-2) 1.
Proof. cbn. intuition auto. Qed.

Lemma sample_printable : printable sample.
Proof.
  constructor.
  - vm_compute. lia.
  - cbn [header sample]. repeat constructor; try lia; vm_compute; discriminate.
  - repeat constructor; try (vm_compute; lia); vm_compute; discriminate.
  - cbn [dummies sample].
    assert (Hu : forall sel v, sel = ax /\ v = 0%Z \/ sel = ay /\ v = 7%Z \/ sel = az /\ v = 1%Z
                 \/ sel = ay /\ v = 9%Z -> unambiguous (atoms sample) sel v).
    { intros sel v Hv a Ha. apply in_water in Ha.
      destruct Hv as [[-> ->]|[[-> ->]|[[-> ->]|[-> ->]]]];
        destruct Ha as [->|[->| ->]]; vm_compute; try (intros _; reflexivity);
        intros Hin; repeat destruct Hin as [Hin|Hin]; try discriminate; destruct Hin. }
    constructor; [|constructor; [|constructor]].
    + exists 0%Z, 7%Z, 1%Z. split; [reflexivity|].
      split; [|split]; (split; [vm_compute; lia|apply Hu; tauto]).
    + exists 0%Z, 9%Z, 1%Z. split; [reflexivity|].
      split; [|split]; (split; [vm_compute; lia|apply Hu; tauto]).
  - repeat constructor; try (vm_compute; lia); vm_compute; discriminate.
  - intros _. repeat constructor; vm_compute; discriminate.
  - repeat constructor; vm_compute; discriminate.
  - repeat constructor; try discriminate; vm_compute; discriminate.
Qed.

Lemma clear_by {F} `{FText F} before k t :
  (forall l, In l before -> In t (tl (words l)) -> nth_error (tl (words l)) k = Some t) ->
  clear_of (F := F) before k t.
Proof.
  intros Hc f (b1 & l & b2 & n & v & -> & _ & Hw & _) Hin.
  specialize (Hc l (in_elt _ _ _)). rewrite Hw in Hc. now apply Hc.
Qed.

Definition clear_before : list text :=
  map lit ["# SPECTRO"; "    1    1    0"; "# GEOM"; "    4    1";
           " 8.00  0.0  0.0 -1.0"; " 1.00  0.0  2.0  1.0"; " 1.00  0.0 -2.0  1.0"]%string.
Definition clear_line : text := lit " 0.00  0.0  7.0  1.0".
Definition clear_after : list text := map lit ["# WEIGHT"; "    0"]%string.
Definition clear_file : text := unlines (clear_before ++ clear_line :: clear_after).

Lemma clear_example_lemma :
  exists (s : spectro Z) n v,
    read clear_file = Some s /\ lines clear_file = clear_before ++ clear_line :: clear_after /\
    in_geometry (F := Z) clear_before clear_line /\
    words clear_line = [n; lit "0.0"; lit "7.0"; lit "1.0"] /\
    fparse n = Some v /\ f_to_N v = 0%N /\
    clear_of (F := Z) clear_before 0 (lit "0.0") /\ clear_of (F := Z) clear_before 1 (lit "7.0") /\
    clear_of (F := Z) clear_before 2 (lit "1.0") /\
    (exists d, In d (dummies s) /\ get_vals (atoms s) d = Some (0, 7, 1)%Z /\
       dx d = FromAtom 2).
Proof.
  do 3 eexists. split; [vm_compute; reflexivity|]. split; [vm_compute; reflexivity|].
  split.
  { eexists. split; [vm_compute; reflexivity|]. split; [reflexivity|]. split; [reflexivity|].
    intros k Hk. cbn in Hk. repeat destruct Hk as [<-|Hk]; try destruct Hk; reflexivity. }
  split; [vm_compute; reflexivity|]. split; [vm_compute; reflexivity|]. split; [reflexivity|].
  assert (Hc : forall k t, In (k, t) [(0, lit "0.0"); (1, lit "7.0"); (2, lit "1.0")] ->
             clear_of (F := Z) clear_before k t).
  { intros k t Hkt. apply clear_by. intros l Hl. cbn [clear_before map In] in Hl.
    cbn [In] in Hkt.
    destruct Hkt as [[= <- <-]|[[= <- <-]|[[= <- <-]|[]]]];
      repeat destruct Hl as [<-|Hl]; try destruct Hl; vm_compute; try (intros _; reflexivity);
      intros Hin; repeat destruct Hin as [Hin|Hin]; try discriminate; destruct Hin. }
  repeat (split; [apply Hc; cbn; tauto|]).
  eexists. split; [left; reflexivity|]. split; vm_compute; reflexivity.
Qed.
