(** Input files, dummy atoms and force constant listings: C48, C49, C57. *)
From Coq Require Import List ZArith NArith Arith Bool Ascii String Permutation.
From Verif Require Import Num Loops Index Text TextFacts RoundFacts DummyFacts DumpFacts.
Import ListNotations.
Open Scope list_scope.
Open Scope nat_scope.

(** C48.  For every description whose numbers fit their columns, with real atomic
    numbers, no empty list of degenerate modes, at least two header entries,
    unambiguous dummy atoms and, if the header asks for weights, weights of real
    atoms only: the file can be written and read back, the integers are the same,
    the coordinates and weights agree in every printed digit, and writing what was
    read gives the same file.  The full statement (every description) is refuted
    below. *)
Theorem input_round_trip_partial :
  forall (F : Type) (T : FText F), float_text F ->
  forall s : spectro F, printable s ->
  exists t s', write s = Some t /\ read t = Some s' /\ same_input s s' /\ write s' = Some t.
Proof. exact (@round_trip_lemma). Qed.
Print Assumptions input_round_trip_partial.

Example input_round_trip_partial_applies :
  float_text Z /\ printable sample /\
  exists s', reread sample = Some s' /\ degmodes s' = [[1; 2; 12]%N; [3]%N] /\
    curvils s' = [Bond 1 2; Bond 1 3; Bend 2 1 3; Tors 1 2 3 4].
Proof.
  split; [exact Ztext_ok|]. split; [exact sample_printable|].
  eexists. split; [vm_compute; reflexivity|]. split; reflexivity.
Qed.

(** C48 without the conditions.  A five digit header entry merges with its left
    neighbour; an empty list of degenerate modes is dropped; a dummy atom comes
    back elsewhere; and a weight given for a dummy atom makes the reader panic. *)
Theorem input_round_trip_refuted :
  (exists s s' : spectro Z, reread s = Some s' /\ header s' <> header s) /\
  (exists s s' : spectro Z, reread s = Some s' /\ degmodes s' <> degmodes s) /\
  (exists (s s' : spectro Z) d d', reread s = Some s' /\ dummies s = [d] /\ dummies s' = [d'] /\
     get_vals (atoms s) d <> None /\ get_vals (atoms s') d' <> get_vals (atoms s) d) /\
  (exists s t : _, write s = Some t /\ read t = (None : option (spectro Z)) /\
     List.length (header s) = 30).
Proof. exact round_trip_refuted_lemma. Qed.
Print Assumptions input_round_trip_refuted.

(** C49.  A dummy line in any readable file: if every earlier atom line that
    contains the text of one of its coordinates has it on the same axis, the dummy
    is placed at the written coordinates.  The full statement has no such
    condition and is refuted below. *)
Theorem dummy_position_partial :
  forall (F : Type) (T : FText F) (file : text) (s : spectro F)
    before line after n tx ty tz v,
    read file = Some s -> lines file = before ++ line :: after ->
    in_geometry (F := F) before line -> words line = [n; tx; ty; tz] ->
    fparse n = Some v -> f_to_N v = 0%N ->
    clear_of (F := F) before 0 tx -> clear_of (F := F) before 1 ty ->
    clear_of (F := F) before 2 tz ->
    exists d x y z, In d (dummies s) /\
      fparse tx = Some x /\ fparse ty = Some y /\ fparse tz = Some z /\
      get_vals (atoms s) d = Some (x, y, z).
Proof. exact (@dummy_lemma). Qed.
Print Assumptions dummy_position_partial.

Example dummy_position_partial_applies :
  exists (s : spectro Z) n v,
    read clear_file = Some s /\ lines clear_file = clear_before ++ clear_line :: clear_after /\
    in_geometry (F := Z) clear_before clear_line /\
    words clear_line = [n; lit "0.0"; lit "7.0"; lit "1.0"] /\
    fparse n = Some v /\ f_to_N v = 0%N /\
    clear_of (F := Z) clear_before 0 (lit "0.0") /\ clear_of (F := Z) clear_before 1 (lit "7.0") /\
    clear_of (F := Z) clear_before 2 (lit "1.0") /\
    (exists d, In d (dummies s) /\ get_vals (atoms s) d = Some (0, 7, 1)%Z /\
       dx d = FromAtom 2).
Proof. exact clear_example_lemma. Qed.

(** C49, a dummy written at (1, 0, 5) is placed at (0, -2, 5): its "1.0" is also a
    z coordinate and its "0.0" also an x coordinate of the last atom. *)
Theorem dummy_position_refuted :
  exists (file line n tx ty tz : text) (x y z : Z) (s : spectro Z) (d : dummy Z),
    read file = Some s /\ In line (lines file) /\ words line = [n; tx; ty; tz] /\
    fparse n = Some 0%Z /\ fparse tx = Some x /\ fparse ty = Some y /\ fparse tz = Some z /\
    dummies s = [d] /\ get_vals (atoms s) d = Some (0, -2, 5)%Z /\ (x, y, z) = (1, 0, 5)%Z.
Proof. exact dummy_refuted_lemma. Qed.
Print Assumptions dummy_position_refuted.

(** C49, the molecule's frame: a literal dummy coordinate does not follow the
    motion applied to the atoms. *)
Theorem dummy_frame_refuted :
  exists (s : spectro Z) (f : Z * Z * Z -> Z * Z * Z) (d : dummy Z) (p q : Z * Z * Z),
    dummies s = [d] /\ dummies (process_geom f s) = [d] /\
    get_vals (atoms s) d = Some p /\ get_vals (atoms (process_geom f s)) d = Some q /\
    q <> f p.
Proof. exact dummy_frame_refuted_lemma. Qed.
Print Assumptions dummy_frame_refuted.

(** C57, the plain dump. *)
Theorem dump_lists_each_once :
  forall (F : Type) (r r2 : nat) (fc2 : nat -> nat -> F) (a b : nat)
    (lxm : nat -> nat -> F) (f3 f4 : list F),
    r < r2 ->
    List.length f3 = r * (r + 1) * (r + 2) / 6 ->
    List.length f4 = r * (r + 1) * (r + 2) * (r + 3) / 24 ->
    exists hess modes cubic quartic,
      dump_fcs r r2 r2 fc2 a b lxm f3 f4 = Some (hess, modes, cubic, quartic) /\
    (forall i j, j <= i -> i < r2 -> appears_once hess [i + 1; j + 1; 0; 0] (fc2 i j)) /\
    (forall i j, i < a -> j < b -> In ([i + 1; j + 1; 0; 0], lxm i j) modes) /\
    (forall i j k, i < r -> j < r -> k < r ->
       exists v, f3qcm_get f3 i j k = Some v /\ appears_once cubic [i + 1; j + 1; k + 1; 0] v) /\
    (forall i j k l, i < r -> j < r -> k < r -> l < r ->
       exists v, f4qcm_get f4 i j k l = Some v /\
         appears_once quartic [i + 1; j + 1; k + 1; l + 1] v) /\
    List.length hess = r2 * (r2 + 1) / 2 /\ List.length modes = a * b /\
    List.length cubic = List.length f3 /\ List.length quartic = List.length f4.
Proof. exact (@dump_lemma). Qed.
Print Assumptions dump_lists_each_once.

Example dump_lists_each_once_applies :
  dump_fcs 2 6 6 (fun i j => i + j) 1 2 (fun i j => i * j) [1; 2; 3; 4] [5; 6; 7; 8; 9] <> None.
Proof. vm_compute. discriminate. Qed.

(** the two assertions at the start of the dump *)
Theorem dump_assertions :
  forall (F : Type) (r r2 c2 : nat) (fc2 : nat -> nat -> F) (a b : nat)
    (lxm : nat -> nat -> F) (f3 f4 : list F),
    r2 <> c2 \/ r2 <= r -> dump_fcs r r2 c2 fc2 a b lxm f3 f4 = None.
Proof. exact (@dump_panic_lemma). Qed.
Print Assumptions dump_assertions.

Example dump_assertions_applies :
  dump_fcs 2 2 2 (fun i j => i + j) 1 2 (fun i j => i * j) [1; 2; 3; 4] [5; 6; 7; 8; 9] = None.
Proof. reflexivity. Qed.

(** C57, the Gaussian style listing: the constants above 1e-6 in magnitude once
    each, the others not at all, in any arithmetic. *)
Theorem gauss_lists_each_once :
  forall (F : Type) (N : Num F) (r : nat) (f3 f4 : list F),
    List.length f3 = r * (r + 1) * (r + 2) / 6 ->
    List.length f4 = r * (r + 1) * (r + 2) * (r + 3) / 24 ->
    exists cubic quartic : list (list nat * F), to_gauss r f3 f4 = Some (cubic, quartic) /\
    (forall i j k, i < r -> j < r -> k < r ->
       exists v, f3qcm_get f3 i j k = Some v /\
         (ngtb (nabs v) (nlit 1 1000000) = true ->
          appears_once cubic [i + 1; j + 1; k + 1] v) /\
         (ngtb (nabs v) (nlit 1 1000000) = false ->
          absent cubic [i + 1; j + 1; k + 1])) /\
    (forall i j k l, i < r -> j < r -> k < r -> l < r ->
       exists v, f4qcm_get f4 i j k l = Some v /\
         (ngtb (nabs v) (nlit 1 1000000) = true ->
          appears_once quartic [i + 1; j + 1; k + 1; l + 1] v) /\
         (ngtb (nabs v) (nlit 1 1000000) = false ->
          absent quartic [i + 1; j + 1; k + 1; l + 1])) /\
    (forall row : list nat * F, In row cubic -> exists i j k, i < r /\ j < r /\ k < r /\
       fst row = [i + 1; j + 1; k + 1]) /\
    (forall row : list nat * F, In row quartic -> exists i j k l, i < r /\ j < r /\ k < r /\ l < r /\
       fst row = [i + 1; j + 1; k + 1; l + 1]).
Proof. exact (@gauss_lemma). Qed.
Print Assumptions gauss_lists_each_once.

Example gauss_lists_each_once_applies :
  exists c q, @to_gauss _ Qnum 2 (map (nlit (Num := Qnum) 1) [1; 10000000; 3; 4]%positive)
                (map nz [5; 6; 7; 8; 9]%Z) = Some (c, q)
              /\ List.length c = 3 /\ List.length q = 5.
Proof. do 2 eexists. split; [vm_compute; reflexivity|]. split; reflexivity. Qed.
