(** How the input file may be spaced, the masses it gives to the atoms, and what
    becomes of a molecule that is written and loaded again. *)
From Coq Require Import List ZArith NArith Arith Bool Ascii String Lia.
From Verif Require Import Num Loops Index Text TextFacts RoundFacts DummyFacts.
Import ListNotations.
Open Scope list_scope.
Open Scope nat_scope.

(** ** The specification side *)

(** tab, line feed, vertical tab, form feed, carriage return and space *)
Definition blank (c : ascii) : Prop := In (nat_of_ascii c) [9; 10; 11; 12; 13; 32].
Definition token (w : text) : Prop := w <> [] /\ Forall (fun c => ~ blank c) w.

(** [spaced t ws]: the text [t] consists of the words [ws] in this order, any two
    separated by at least one blank, with any further blanks around them *)
Inductive spaced : text -> list text -> Prop :=
| spaced_end : spaced [] []
| spaced_blank c t ws : blank c -> spaced t ws -> spaced (c :: t) ws
| spaced_last w : token w -> spaced w [w]
| spaced_word w c t ws : token w -> blank c -> spaced t ws -> spaced (w ++ c :: t) (w :: ws).

(** the mass of atom [k] (counted from zero) according to the list [ws]: the last
    one listed for it *)
Definition mass_of {F} (ws : list (N * F)) (k : nat) (m : option F) : Prop :=
  match m with
  | Some w => exists l1 l2, ws = l1 ++ (N.of_nat (S k), w) :: l2 /\
                ~ In (N.of_nat (S k)) (map fst l2)
  | None => ~ In (N.of_nat (S k)) (map fst ws)
  end.

(** the same number in every printed digit *)
Definition same_mass {F} `{FText F} (m m' : option F) : Prop :=
  match m, m' with
  | Some w, Some w' => fprint 6 w' = fprint 6 w
  | None, None => True
  | _, _ => False
  end.

(** [b] is what [f] makes of a point that prints like [a] *)
Definition moved_again {F} `{FText F} (f : F * F * F -> F * F * F) (a b : atom F) : Prop :=
  number b = number a /\ same_mass (weight a) (weight b) /\
  exists x y z, fprint 8 x = fprint 8 (ax a) /\ fprint 8 y = fprint 8 (ay a) /\
    fprint 8 z = fprint 8 (az a) /\ (ax b, ay b, az b) = f (x, y, z).

(** ** Words *)
Lemma blank_is_space c : is_space c = true <-> blank c.
Proof.
  destruct c as [[] [] [] [] [] [] [] []]; split; intro H; try reflexivity; try discriminate H;
    unfold blank in *; vm_compute in H |- *; tauto || (exfalso; intuition discriminate).
Qed.
Lemma not_blank c : is_space c = false <-> ~ blank c.
Proof. rewrite <- blank_is_space. destruct (is_space c); split; congruence. Qed.
Lemma token_solid w : token w <-> solid w.
Proof.
  unfold token, solid. split; intros [H1 H2]; (split; [exact H1|]);
    (eapply Forall_impl; [|exact H2]); intros c; apply not_blank.
Qed.

Lemma words_solid_blank w c t : solid w -> is_space c = true -> words (w ++ c :: t) = w :: words t.
Proof.
  intros [Hne Hs] Hc. induction Hs as [|d w Hd Hw IH]; [congruence|].
  cbn [Datatypes.app words]. rewrite Hd. destruct w as [|e w'].
  - cbn [Datatypes.app]. rewrite Hc. cbn [words]. now rewrite Hc.
  - cbn [Datatypes.app] in *. inversion Hw as [|? ? He]; subst. rewrite He.
    rewrite IH by discriminate. reflexivity.
Qed.

Lemma spaced_words t ws : spaced t ws -> words t = ws.
Proof.
  induction 1 as [|c t ws Hc _ IH|w Hw|w c t ws Hw Hc _ IH].
  - reflexivity.
  - cbn [words]. apply blank_is_space in Hc. now rewrite Hc.
  - apply token_solid in Hw. rewrite <- (app_nil_r w) at 1. rewrite words_solid by auto. reflexivity.
  - apply token_solid in Hw. apply blank_is_space in Hc. rewrite words_solid_blank by assumption. now rewrite IH.
Qed.

Lemma words_spaced t : spaced t (words t).
Proof.
  induction t as [|c r IH]; [constructor|]. cbn [words].
  destruct (is_space c) eqn:Ec.
  - constructor; [now apply blank_is_space|exact IH].
  - apply not_blank in Ec. destruct r as [|d r'].
    + apply spaced_last. split; [discriminate|]. now repeat constructor.
    + destruct (is_space d) eqn:Ed.
      * change (c :: d :: r') with ([c] ++ d :: r'). cbn [words] in IH |- *. rewrite Ed in IH |- *.
        apply spaced_word; [split; [discriminate|now repeat constructor]|now apply blank_is_space|].
        inversion IH as [|? ? ? _ IH'|? Hw|w' ? ? ? Hw]; subst.
        -- exact IH'.
        -- exfalso. destruct Hw as [_ Hw]. inversion Hw as [|? ? Hd]; subst. apply not_blank in Hd. congruence.
        -- exfalso. destruct Hw as [Hn Hw]. destruct w' as [|e w']; [congruence|].
           match goal with E : (e :: w') ++ _ = _ |- _ => cbn in E; injection E as -> _ end.
           inversion Hw as [|? ? Hd]; subst. apply not_blank in Hd. congruence.
      * revert IH. generalize (words (d :: r')). intros ws IH.
        apply not_blank in Ed. inversion IH as [|? ? ? Hd _|w Hw|w x t ws' Hw Hx Ht E]; subst.
        -- contradiction.
        -- apply spaced_last. destruct Hw as [_ Hw]. split; [discriminate|]. now constructor.
        -- destruct w as [|e w]; [now destruct Hw|]. cbn in E. injection E as -> <-.
           change (spaced ((c :: d :: w) ++ x :: t) ((c :: d :: w) :: ws')).
           apply spaced_word; [|assumption|assumption].
           destruct Hw as [_ Hw]. split; [discriminate|]. now constructor.
Qed.

Lemma words_spaced_iff t ws : words t = ws <-> spaced t ws.
Proof. split; [intros <-; apply words_spaced|apply spaced_words]. Qed.

(** ** Keywords *)
Lemma starts_stop k w c t : ~ In c k -> starts k (w ++ c :: t) = starts k w.
Proof.
  revert w. induction k as [|a k IH]; intros w Hc; [now destruct w|].
  destruct w as [|b w]; cbn [Datatypes.app starts].
  - destruct (Ascii.eqb_spec a c) as [->|_]; [exfalso; apply Hc; now left|reflexivity].
  - rewrite IH; [reflexivity|]. intros H. apply Hc. now right.
Qed.

Lemma contains_split k w c t : k <> [] -> ~ In c k ->
  contains k (w ++ c :: t) = contains k w || contains k t.
Proof.
  intros Hk Hc. induction w as [|d w IH].
  - cbn [Datatypes.app]. change (contains k (c :: t)) with (starts k (c :: t) || contains k t).
    change (c :: t) with ([] ++ c :: t) at 1. rewrite starts_stop by exact Hc.
    destruct k; [congruence|reflexivity].
  - change (contains k ((d :: w) ++ c :: t)) with (starts k ((d :: w) ++ c :: t) || contains k (w ++ c :: t)).
    rewrite starts_stop, IH by exact Hc. cbn [contains]. now rewrite orb_assoc.
Qed.

Lemma contains_words k t : k <> [] -> Forall (fun c => ~ blank c) k ->
  contains k t = existsb (contains k) (words t).
Proof.
  intros Hk Hb. assert (Hc : forall c, blank c -> ~ In c k).
  { intros c Hc Hin. rewrite Forall_forall in Hb. exact (Hb c Hin Hc). }
  generalize (words_spaced t). generalize (words t). intros ws Hs.
  induction Hs as [|c t ws Hb' _ IH|w Hw|w c t ws Hw Hb' _ IH].
  - destruct k; [congruence|reflexivity].
  - change (c :: t) with ([] ++ c :: t). rewrite contains_split by auto. rewrite IH.
    destruct k; [congruence|reflexivity].
  - cbn. now rewrite orb_false_r.
  - rewrite contains_split by auto. cbn [existsb]. now rewrite IH.
Qed.

Section Spacing.
  Context {F : Type} `{FText F}.

  Lemma read_line_words (s : reading F) l l' : words l = words l' -> read_line s l = read_line s l'.
  Proof.
    intros E.
    assert (C : forall k, k <> [] -> forallb (fun c => negb (is_space c)) k = true ->
              contains k l = contains k l').
    { intros k Hk Hb. assert (Hb' : Forall (fun c => ~ blank c) k).
      { apply Forall_forall. intros c Hc. rewrite forallb_forall in Hb. apply Hb in Hc.
        apply not_blank. now destruct (is_space c). }
      now rewrite !contains_words, E by assumption. }
    unfold read_line, read_geom.
    rewrite (C (lit "SPECTRO")), (C (lit "GEOM")), (C (lit "WEIGHT")), (C (lit "CURVIL")),
      (C (lit "DEGMODE")), (C (lit "CORIOL")), E by (discriminate || reflexivity).
    reflexivity.
  Qed.

  Lemma read_lines_words ls : forall ls' (s : reading F), map words ls = map words ls' ->
    ofold read_line ls s = ofold read_line ls' s.
  Proof.
    induction ls as [|l ls IH]; intros [|l' ls'] s E; try discriminate; [reflexivity|].
    cbn [map] in E. injection E as El Els. cbn [ofold]. rewrite (read_line_words s l l' El).
    destruct (read_line s l'); [|reflexivity]. now apply IH.
  Qed.

  Lemma read_words t t' : map words (lines t) = map words (lines t') -> read (F := F) t = read t'.
  Proof. intros E. unfold read. now rewrite (read_lines_words _ _ _ E). Qed.

  Lemma read_spaced t t' : Forall2 (fun l l' => exists ws, spaced l ws /\ spaced l' ws) (lines t) (lines t') ->
    read (F := F) t = read t'.
  Proof.
    intros E. apply read_words. induction E as [|l l' ls ls' (ws & Hl & Hl') _ IH]; [reflexivity|].
    cbn [map]. rewrite IH. f_equal. now rewrite (spaced_words _ _ Hl), (spaced_words _ _ Hl').
  Qed.

  (** ** Masses *)
  Lemma read_line_unweighted (s s' : reading F) l : read_line s l = Some s' ->
    Forall (fun a => weight a = None) (atoms (ret s)) -> Forall (fun a => weight a = None) (atoms (ret s')).
  Proof.
    intros Hl Hs. unfold read_line in Hl.
    destruct (0 <? skip s); [injection Hl as <-; exact Hs|].
    repeat match type of Hl with
    | (if contains ?k l then _ else _) = _ => destruct (contains k l); [injection Hl as <-; exact Hs|]
    end.
    cbv zeta in Hl. destruct (state s).
    - destruct (omap parse_Z (words l)); [|discriminate]. injection Hl as <-. exact Hs.
    - unfold read_geom in Hl. destruct (words l) as [|n f]; [discriminate|].
      destruct (fparse n) as [v|]; [|discriminate]. cbn [obind] in Hl. cbv zeta in Hl.
      destruct (f_to_N v =? 0)%N.
      + destruct (omap (dummy_coord (coord_map s)) f) as [ds|]; [|discriminate]. cbn [obind] in Hl.
        destruct ds as [|d1 [|d2 [|d3 [|d4 ds]]]]; try discriminate. injection Hl as <-. exact Hs.
      + destruct f as [|fx [|fy [|fz rest]]]; try discriminate.
        destruct (fparse fx) as [x|]; [|discriminate].
        destruct (fparse fy) as [y|]; [|discriminate].
        destruct (fparse fz) as [z|]; [|discriminate].
        cbn [obind] in Hl. injection Hl as <-. cbn [ret atoms]. apply Forall_app. split; [exact Hs|].
        now repeat constructor.
    - destruct (words l) as [|a [|b w]]; try discriminate.
      destruct (parse_N a); [|discriminate]. cbn [obind] in Hl.
      destruct (fparse b); [|discriminate]. injection Hl as <-. exact Hs.
    - destruct (omap parse_N (words l)) as [q|]; [|discriminate]. cbn [obind] in Hl.
      destruct q as [|a [|b [|c [|d [|e q]]]]]; try discriminate; injection Hl as <-; exact Hs.
    - destruct (omap parse_N (words l)) as [q|]; [|discriminate]. cbn [obind] in Hl.
      destruct q; injection Hl as <-; exact Hs.
    - injection Hl as <-. exact Hs.
  Qed.
  Lemma read_unweighted ls : forall s s' : reading F, ofold read_line ls s = Some s' ->
    Forall (fun a => weight a = None) (atoms (ret s)) -> Forall (fun a => weight a = None) (atoms (ret s')).
  Proof.
    induction ls as [|l ls IH]; intros s s' Hl Hs; cbn [ofold] in Hl; [now injection Hl as <-|].
    destruct (read_line s l) as [s1|] eqn:E; [|discriminate]. exact (IH s1 s' Hl (read_line_unweighted _ _ _ E Hs)).
  Qed.

  Lemma set_nth_nth {A} (l l' : list A) k b : set_nth l k b = Some l' ->
    forall j, nth_error l' j = if (j =? k)%nat then Some b else nth_error l j.
  Proof.
    revert k l'. induction l as [|c l IH]; intros [|k] l' E j; cbn [set_nth] in E; try discriminate.
    - injection E as <-. destruct j; reflexivity.
    - destruct (set_nth l k b) as [m|] eqn:Em; [|discriminate]. injection E as <-.
      destruct j as [|j]; [reflexivity|]. cbn [nth_error Nat.eqb]. now apply IH.
  Qed.

  (** one more weight: the earlier list [done] has been applied *)
  Lemma set_weight_masses done iw (l l' : list (atom F)) : set_weight l iw = Some l' ->
    (forall k a, nth_error l k = Some a -> mass_of done k (weight a)) ->
    forall k a, nth_error l' k = Some a -> mass_of (done ++ [iw]) k (weight a).
  Proof.
    destruct iw as [i w]. unfold set_weight. intros E D k a Ha.
    destruct (N.eqb_spec i 0) as [|Hi]; [discriminate|].
    destruct (N.ltb_spec (N.of_nat (List.length l)) i) as [|Hn]; [discriminate|]. cbn [orb] in E.
    destruct (nth_error l (N.to_nat (i - 1))) as [b|] eqn:Eb; [|discriminate]. cbn [obind] in E.
    rewrite (set_nth_nth _ _ _ _ E) in Ha. destruct (Nat.eqb_spec k (N.to_nat (i - 1))) as [->|Hk].
    - injection Ha as <-. cbn [weight mass_of]. exists done, []. split; [|now intros []].
      replace (N.of_nat (S (N.to_nat (i - 1)))) with i by lia. reflexivity.
    - specialize (D k a Ha). destruct (weight a) as [m|]; cbn [mass_of] in *.
      + destruct D as (l1 & l2 & -> & Hl2). exists l1, (l2 ++ [(i, w)]). split; [now rewrite <- app_assoc|].
        rewrite map_app. intros Hin. apply in_app_iff in Hin as [Hin|[Hin|[]]]; [contradiction|].
        cbn [fst] in Hin. lia.
      + rewrite map_app. intros Hin. apply in_app_iff in Hin as [Hin|[Hin|[]]]; [contradiction|].
        cbn [fst] in Hin. lia.
  Qed.
  Lemma set_weights_masses ws : forall done (l l' : list (atom F)), ofold set_weight ws l = Some l' ->
    (forall k a, nth_error l k = Some a -> mass_of done k (weight a)) ->
    forall k a, nth_error l' k = Some a -> mass_of (done ++ ws) k (weight a).
  Proof.
    induction ws as [|iw ws IH]; intros done l l' E D; cbn [ofold] in E.
    - injection E as <-. now rewrite app_nil_r.
    - destruct (set_weight l iw) as [l1|] eqn:E1; [|discriminate].
      change (iw :: ws) with ([iw] ++ ws). rewrite app_assoc.
      exact (IH (done ++ [iw]) l1 l' E (set_weight_masses done iw l l1 E1 D)).
  Qed.

  Lemma read_masses t (s : spectro F) : read t = Some s -> forall k a, nth_error (atoms s) k = Some a ->
    (nth_error (header s) 1 = Some (-1)%Z -> mass_of (weights s) k (weight a)) /\
    (nth_error (header s) 1 <> Some (-1)%Z -> weight a = None).
  Proof.
    unfold read. intros E k a Ha. destruct (ofold read_line (lines t) start) as [r|] eqn:Er; [|discriminate].
    cbn [obind] in E. pose proof (read_unweighted _ _ _ Er (Forall_nil _)) as N0.
    rewrite Forall_forall in N0. unfold apply_weights in E.
    destruct (nth_error (header (ret r)) 1) as [h|] eqn:Eh; [|discriminate]. cbn [obind] in E.
    destruct (Z.eqb_spec h (-1)) as [->|Hh].
    - destruct (ofold set_weight (weights (ret r)) (atoms (ret r))) as [l|] eqn:El; [|discriminate].
      cbn [obind] in E. injection E as <-. cbn [header weights atoms] in *. split; [|congruence].
      intros _. apply (set_weights_masses _ [] _ _ El); [|exact Ha].
      intros j b Hb. rewrite (N0 b) by (now apply nth_error_In in Hb). now intros [].
    - injection E as <-. split; [congruence|]. intros _. apply N0. now apply nth_error_In in Ha.
  Qed.

  Lemma moved_nth (f : F * F * F -> F * F * F) (s : spectro F) k b :
    nth_error (atoms (process_geom f s)) k = Some b ->
    exists a, nth_error (atoms s) k = Some a /\ number b = number a /\ weight b = weight a /\
      (ax b, ay b, az b) = f (ax a, ay a, az a).
  Proof.
    cbn [process_geom atoms]. rewrite nth_error_map. destruct (nth_error (atoms s) k) as [a|]; [|discriminate].
    cbn [option_map]. intros E. injection E as <-. exists a. destruct (f (ax a, ay a, az a)) as [[x y] z]. now cbn.
  Qed.

  Lemma load_masses f t (s : spectro F) : load f t = Some s -> forall k a, nth_error (atoms s) k = Some a ->
    (nth_error (header s) 1 = Some (-1)%Z -> mass_of (weights s) k (weight a)) /\
    (nth_error (header s) 1 <> Some (-1)%Z -> weight a = None).
  Proof.
    unfold load. destruct (read t) as [r|] eqn:Er; [|discriminate]. cbn [obind]. intros [= <-] k b Hb.
    destruct (moved_nth f r k b Hb) as (a & Ha & _ & -> & _). exact (read_masses t r Er k a Ha).
  Qed.

  (** ** Loading what was written *)
  Lemma same_weight_fst ws ws' : Forall2 (same_weight (F := F)) ws ws' -> map fst ws' = map fst ws.
  Proof. induction 1 as [|a b ws ws' [E _] _ IH]; [reflexivity|]. cbn [map]. now rewrite E, IH. Qed.
  Lemma last_unique {A} (i : N) (w u : A) l1 : forall l2 m1 m2,
    l1 ++ (i, w) :: l2 = m1 ++ (i, u) :: m2 ->
    ~ In i (map fst l2) -> ~ In i (map fst m2) -> w = u.
  Proof.
    induction l1 as [|p l1 IH]; intros l2 [|q m1] m2 E Hl Hm; cbn [Datatypes.app] in E.
    - congruence.
    - injection E as _ ->. exfalso. apply Hl. rewrite map_app. apply in_or_app. right. now left.
    - injection E as -> <-. exfalso. apply Hm. rewrite map_app. apply in_or_app. right. now left.
    - injection E as _ E. exact (IH _ _ _ E Hl Hm).
  Qed.
  Lemma same_mass_of ws ws' k m m' : Forall2 (same_weight (F := F)) ws ws' ->
    mass_of ws k m -> mass_of ws' k m' -> same_mass m m'.
  Proof.
    intros W M M'. pose proof (same_weight_fst _ _ W) as Ef.
    destruct m as [w|], m' as [w'|]; cbn [mass_of same_mass] in *; [| | |exact I].
    - destruct M as (l1 & l2 & -> & Hl), M' as (m1 & m2 & E & Hm).
      apply Forall2_app_inv_l in W as (l1' & r & _ & W2 & ->).
      inversion W2 as [|? [i u] ? l2' [Hi Hu] W3]; subst. cbn [fst snd] in Hi, Hu. subst i.
      apply last_unique in E; [congruence| |exact Hm]. now rewrite (same_weight_fst _ _ W3).
    - destruct M as (l1 & l2 & -> & _). apply M'. rewrite Ef, map_app. apply in_or_app. right. now left.
    - destruct M' as (l1 & l2 & -> & _). apply M. rewrite <- Ef, map_app. apply in_or_app. right. now left.
  Qed.

  Lemma Forall2_nth {A B} (P : A -> B -> Prop) l : forall l', List.length l = List.length l' ->
    (forall k a b, nth_error l k = Some a -> nth_error l' k = Some b -> P a b) -> Forall2 P l l'.
  Proof.
    induction l as [|a l IH]; intros [|b l'] E HP; try discriminate; [constructor|].
    constructor; [now apply (HP 0)|]. apply IH; [now injection E|]. intros k. exact (HP (S k)).
  Qed.
  Lemma Forall2_at {A B} (P : A -> B -> Prop) l l' : Forall2 P l l' ->
    forall k a b, nth_error l k = Some a -> nth_error l' k = Some b -> P a b.
  Proof.
    induction 1 as [|a b l l' Hab _ IH]; intros [|k] x y Hx Hy; try discriminate.
    - cbn in *. congruence.
    - exact (IH k x y Hx Hy).
  Qed.

  Lemma reload_lemma f t (s : spectro F) : float_text F -> load f t = Some s -> printable s ->
    exists t' s', write s = Some t' /\ load f t' = Some s' /\
      header s' = header s /\ curvils s' = curvils s /\ degmodes s' = degmodes s /\
      Forall2 same_weight (weights s) (weights s') /\
      Forall2 (moved_again f) (atoms s) (atoms s').
  Proof.
    intros L Hs P. destruct (round_trip_lemma L s P) as (t' & r & Hw & Hr & (Eh & Ea & _ & Ew & Ec & Ed) & _).
    assert (Hl : load f t' = Some (process_geom f r)) by (unfold load; now rewrite Hr).
    exists t', (process_geom f r). repeat (split; [assumption|]).
    apply Forall2_nth.
    - cbn [process_geom atoms]. rewrite map_length. exact (Forall2_length _ _ _ Ea).
    - intros k a b Ha Hb.
      destruct (load_masses f t s Hs k a Ha) as [M1 M2].
      destruct (load_masses f t' _ Hl k b Hb) as [M1' M2'].
      cbn [process_geom header weights] in M1', M2'. rewrite Eh in M1', M2'.
      destruct (moved_nth f r k b Hb) as (c & Hc & En & _ & Exyz).
      pose proof (Forall2_at _ _ _ Ea k a c Ha Hc) as (An & Ax & Ay & Az).
      split; [congruence|]. split.
      + destruct (nth_error (header s) 1) as [h|].
        * destruct (Z.eq_dec h (-1)) as [->|Hh].
          -- exact (same_mass_of _ _ k _ _ Ew (M1 eq_refl) (M1' eq_refl)).
          -- rewrite M2, M2' by congruence. exact I.
        * rewrite M2, M2' by congruence. exact I.
      + exists (ax c), (ay c), (az c). auto.
  Qed.
End Spacing.

(** ** A reload that changes the molecule, and examples *)
Definition double (p : Z * Z * Z) : Z * Z * Z := let '(x, y, z) := p in (2 * x, 2 * y, 2 * z)%Z.
Definition water_file : text := unlines (map lit
  ["# SPECTRO ####"; "    1   -1"; "# GEOM ####"; "    3    0";
   " 8.00  0.0  0.0 -1.0"; " 1.00  0.0  2.0  1.0"; " 1.00  0.0 -2.0  1.0";
   "# WEIGHT ####"; "    3"; "    2   1.0"; "    3   1.0"; "    2   2.0"; "# CURVIL ####"; "    1    2"]%string).
Definition water_by_hand : text := List.app (unlines (map lit
  ["#   SPECTRO ####"; "1 -1"; "   # GEOM ####"; "3 0"; "8.00 0.0 0.0 -1.0"]%string))
  (lit "1.00" ++ ["009"%char; "009"%char] ++ lit "0.0 2.0  1.0" ++ [carriage; newline] ++
   unlines (map lit ["  1.00 0.0 -2.0 1.0   "; "# WEIGHT ####"; "3"; "2 1.0"; "3 1.0"; "2 2.0"; "# CURVIL ####"; "1 2"]%string)).
Definition water_loaded : spectro Z :=
  {| header := [1; -1]%Z;
     atoms := [at_ 8 0 0 (-2);
               {| number := 1; ax := 0%Z; ay := 4%Z; az := 2%Z; weight := Some 2%Z |};
               {| number := 1; ax := 0%Z; ay := (-4)%Z; az := 2%Z; weight := Some 1%Z |}];
     weights := [(2%N, 1%Z); (3%N, 1%Z); (2%N, 2%Z)];
     curvils := [Bond 1 2]; degmodes := []; dummies := [] |}.
Lemma water_file_loaded : load double water_file = Some water_loaded.
Proof. vm_compute. reflexivity. Qed.
Lemma water_printable : printable water_loaded.
Proof.
  constructor; cbn; try lia; repeat constructor; cbn; try lia; try discriminate.
Qed.

Lemma reload_refuted_lemma :
  exists (f : Z * Z * Z -> Z * Z * Z) t s t' s', load f t = Some s /\ printable s /\ write s = Some t' /\
    load f t' = Some s' /\ ~ Forall2 same_atom (atoms s) (atoms s').
Proof.
  exists double, water_file, water_loaded. eexists. eexists.
  split; [exact water_file_loaded|]. split; [exact water_printable|].
  split; [vm_compute; reflexivity|]. split; [vm_compute; reflexivity|].
  intros H. inversion H as [|a b l l' Hab _]; subst. destruct Hab as (_ & _ & _ & Hz). vm_compute in Hz. discriminate.
Qed.
