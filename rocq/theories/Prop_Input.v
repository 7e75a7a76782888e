(** Input files written by hand, masses, and reloading a written file: C95, C96. *)
From Coq Require Import List ZArith NArith Arith Bool Ascii String.
From Verif Require Import Num Loops Index Text TextFacts RoundFacts DummyFacts SpacingFacts.
Import ListNotations.
Open Scope list_scope.
Open Scope nat_scope.

(** C95, a line: its fields are exactly the words that are separated by blanks,
    whatever blanks and however many. *)
Theorem words_any_spacing :
  forall (t : text) (ws : list text), words t = ws <-> spaced t ws.
Proof. exact words_spaced_iff. Qed.
Print Assumptions words_any_spacing.

Example words_any_spacing_applies :
  spaced (lit "  1.00" ++ ["009"%char; "009"%char] ++ lit "-2.0 " ++ [carriage]) [lit "1.00"; lit "-2.0"] /\
  ~ spaced (lit "1.00-2.0") [lit "1.00"; lit "-2.0"].
Proof.
  split; [now apply words_any_spacing|]. intros H. apply words_any_spacing in H. discriminate.
Qed.

(** C95, the whole file: two files whose lines have the same words are read alike,
    including whether reading panics. *)
Theorem read_any_spacing :
  forall (F : Type) (T : FText F) (t t' : text),
    Forall2 (fun l l' => exists ws, spaced l ws /\ spaced l' ws) (lines t) (lines t') ->
    read (F := F) t = read t'.
Proof. exact (@read_spaced). Qed.
Print Assumptions read_any_spacing.

Example read_any_spacing_applies :
  Forall2 (fun l l' => exists ws, spaced l ws /\ spaced l' ws) (lines water_file) (lines water_by_hand) /\
  water_file <> water_by_hand /\ read (F := Z) water_by_hand <> None.
Proof.
  split.
  - cbn. repeat (constructor; [eexists; split; apply words_any_spacing; [reflexivity|vm_compute; reflexivity]|]).
    constructor.
  - split; [discriminate|]. rewrite <- (read_any_spacing Z _ water_file).
    + vm_compute. discriminate.
    + cbn. repeat (constructor; [eexists; split; apply words_any_spacing; [reflexivity|vm_compute; reflexivity]|]).
      constructor.
Qed.

(** C96, masses: when the second header entry is -1, every loaded atom has the mass
    listed last for its number, and none if none is listed; otherwise no atom has one. *)
Theorem masses_loaded :
  forall (F : Type) (T : FText F) (f : F * F * F -> F * F * F) (t : text) (s : spectro F),
    load f t = Some s -> forall k a, nth_error (atoms s) k = Some a ->
    (nth_error (header s) 1 = Some (-1)%Z -> mass_of (weights s) k (weight a)) /\
    (nth_error (header s) 1 <> Some (-1)%Z -> weight a = None).
Proof. exact (@load_masses). Qed.
Print Assumptions masses_loaded.

Example masses_loaded_applies :
  load double water_file = Some water_loaded /\ nth_error (header water_loaded) 1 = Some (-1)%Z /\
  mass_of (weights water_loaded) 1 (Some 2%Z) /\ mass_of (weights water_loaded) 0 None.
Proof.
  split; [exact water_file_loaded|]. split; [reflexivity|].
  split; [exact (proj1 (masses_loaded Z _ double water_file water_loaded water_file_loaded 1 _ eq_refl) eq_refl)|].
  exact (proj1 (masses_loaded Z _ double water_file water_loaded water_file_loaded 0 _ eq_refl) eq_refl).
Qed.

(** C96, reloading: a loaded molecule that can be printed can be written and loaded
    again.  All integers and the masses come back, and every atom is the image, under
    one further pass of the conversion and reorientation, of the point that was
    printed.  The full statement, that the molecule comes back, is refuted below. *)
Theorem reload_converts_again :
  forall (F : Type) (T : FText F) (f : F * F * F -> F * F * F) (t : text) (s : spectro F),
    float_text F -> load f t = Some s -> printable s ->
    exists t' s', write s = Some t' /\ load f t' = Some s' /\
      header s' = header s /\ curvils s' = curvils s /\ degmodes s' = degmodes s /\
      Forall2 same_weight (weights s) (weights s') /\
      Forall2 (moved_again f) (atoms s) (atoms s').
Proof. exact (@reload_lemma). Qed.
Print Assumptions reload_converts_again.

Example reload_converts_again_applies :
  float_text Z /\ load double water_file = Some water_loaded /\ printable water_loaded.
Proof. exact (conj Ztext_ok (conj water_file_loaded water_printable)). Qed.

(** C96, the molecule does not come back: [load] takes the coordinates to be in bohr
    and keeps them in angstroms, and they are written as they are kept. *)
Theorem reload_refuted :
  exists (f : Z * Z * Z -> Z * Z * Z) t s t' s', load f t = Some s /\ printable s /\ write s = Some t' /\
    load f t' = Some s' /\ ~ Forall2 same_atom (atoms s) (atoms s').
Proof. exact reload_refuted_lemma. Qed.
Print Assumptions reload_refuted.
