(** Properties C53, C54 and C73-C78: resonance polyads of asymmetric tops. *)
From Coq Require Import Reals Lra Lia List ZArith Arith Bool Sorted QArith.
From Verif Require Import Num Loops Index Modes Anharm Polyads ListFacts ModesFacts StatesFacts
  ResFacts AnharmFacts EnergyFacts PolyadFacts PolyadExact PolyadWitness.
Import ListNotations.
Open Scope nat_scope.

(** C53: every inverse denominator is 1/(+-w_i +-w_j +-w_k), and 0 if a reported resonance
    has just this denominator *)
Theorem polyad_denominators : forall (w : nat -> R) fm1 fm2 res s1 s2 s3,
  reported fm1 fm2 res ->
  (dropped res s1 s2 s3 = false -> sval w s1 + sval w s2 + sval w s3 <> 0)%R ->
  denom w (init_res_denom w fm1 fm2) s1 s2 s3
  = keep (dropped res s1 s2 s3) (1 / (sval w s1 + sval w s2 + sval w s3))%R.
Proof. exact denom_lemma. Qed.
Example polyad_denominators_ex :
  let w := fun i => nth i [30#1; 21#1; 12#1]%Q 1%Q in
  let d := denom w (init_res_denom w [(2, 1)] []) in
  (d (Plus 2%nat) (Plus 2%nat) (Minus 1%nat) == 0)%Q /\
  (d (Plus 2%nat) (Plus 1%nat) (Minus 0%nat) == 1 # 3)%Q /\
  (d (Minus 2%nat) (Plus 1%nat) (Minus 0%nat) == - (1 # 21))%Q.
Proof. repeat split. Qed.
Print Assumptions polyad_denominators.

(** C54: the coupling of two states does not depend on their order, panics included *)
Theorem polyad_symmetric : forall (F : Type) (N : Num F) freq zmat f3 f4 rotcon i1 (dnm : nat -> nat -> nat -> F)
    n iirst s t,
  genrsa freq zmat f3 f4 rotcon i1 dnm n iirst s t = genrsa freq zmat f3 f4 rotcon i1 dnm n iirst t s.
Proof. exact @genrsa_sym. Qed.
(** and states more than four quanta apart never couple *)
Theorem polyad_beyond_quartic : forall (F : Type) (N : Num F) freq zmat f3 f4 rotcon i1
    (dnm : nat -> nat -> nat -> F) n iirst s t,
  (4 < moved n (fun i => iirst i s) (fun i => iirst i t))%Z ->
  genrsa freq zmat f3 f4 rotcon i1 dnm n iirst s t = Some (nz 0).
Proof. exact @genrsa_far. Qed.
Example polyad_beyond_quartic_ex :
  let q := fun m s => nth m (nth s [[3; 0; 1]; [0; 2; 1]] []) 0 in
  moved 3 (fun i => q i 0) (fun i => q i 1) = 5%Z /\
  moved 3 (fun i => q i 0) (fun i => q i 0) = 0%Z.
Proof. split; reflexivity. Qed.
Print Assumptions polyad_symmetric.
Print Assumptions polyad_beyond_quartic.

(** C73, what is computed: the cubic coupling of two states that differ by one quantum in
    each of three modes is the matrix element of the cubic term if any resonance among the
    three modes is reported; [ho1] and [ho2] are the harmonic oscillator matrix elements of
    the coordinate and of its square *)
Theorem polyad_type2_partial : forall (w : nat -> R) zmat f3 f4 rotcon i1 fm1 fm2 res n iirst s t,
  reported fm1 fm2 res ->
  (forall i j m, i < n -> j < n -> m < n -> res i j m = false -> (w i + w j - w m <> 0)%R) ->
  forall i j k, i < j -> j < k -> k < n ->
  let q := fun i => iirst i s in
  let q' := fun i => iirst i t in
  apart q q' i 1 -> apart q q' j 1 -> apart q q' k 1 ->
  (forall m, m < n -> m <> i -> m <> j -> m <> k -> q m = q' m) ->
  genrsa w zmat f3 f4 rotcon i1 (init_res_denom w fm1 fm2) n iirst s t
  = Some (if res j k i || res i k j || res i j k
          then f3 i j k * (ho1 (q i) (q' i) * ho1 (q j) (q' j) * ho1 (q k) (q' k)) else 0)%R.
Proof. exact type2_lemma. Qed.
(** the same with two quanta in one mode *)
Theorem polyad_type1_partial : forall (w : nat -> R) zmat f3 f4 rotcon i1 fm1 fm2 res n iirst s t,
  reported fm1 fm2 res ->
  (forall i j m, i < n -> j < n -> m < n -> res i j m = false -> (w i + w j - w m <> 0)%R) ->
  forall i j, i <> j -> i < n -> j < n ->
  (forall a b, f3 a b b = f3 b b a) ->
  let q := fun i => iirst i s in
  let q' := fun i => iirst i t in
  apart q q' i 2 -> apart q q' j 1 ->
  (forall m, m < n -> m <> i -> m <> j -> q m = q' m) ->
  genrsa w zmat f3 f4 rotcon i1 (init_res_denom w fm1 fm2) n iirst s t
  = Some (if res i i j then / 2 * f3 i i j * (ho2 (q i) (q' i) * ho1 (q j) (q' j)) else 0)%R.
Proof. exact type1_lemma. Qed.
Example polyad_type1_ex :
  let q := fun m s => nth m (nth s [[2; 0; 1]; [0; 1; 1]] []) 0 in
  apart (fun i => q i 0) (fun i => q i 1) 0 2 /\ apart (fun i => q i 0) (fun i => q i 1) 1 1 /\
  (forall m, m < 3 -> m <> 0 -> m <> 1 -> q m 0 = q m 1) /\
  flagged (make_fermi_checks [(0, 1)] []) 0 0 1 = true /\
  (ho2 2 0 * ho1 0 1 = / 2)%R.
Proof. exact polyad_example1. Qed.
Print Assumptions polyad_type2_partial.
Print Assumptions polyad_type1_partial.

(** C73 is false: two states made by reported resonances are coupled by a cubic term although
    they are not the two states of a reported resonance, so this interaction is also in the
    perturbation theory *)
Theorem polyad_coupling_refuted :
  exists n (w : nat -> R) zmat f3 f4 B fm1 fm2 ins sa sb v i j k,
    asym_lists fm1 fm2 /\ resin_inserts n fm1 fm2 = Some ins /\ In sa ins /\ In sb ins /\
    (forall i j m, i < n -> j < n -> m < n -> ~ resonant fm1 fm2 i j m -> (w i + w j - w m <> 0)%R) /\
    is_state n sa (fun m => if (m =? i) || (m =? j) then 1 else 0) /\
    is_state n sb (fun m => if m =? k then 1 else 0) /\
    ~ resonant fm1 fm2 i j k /\
    genrsa w zmat f3 f4 B (seq 0 n) (init_res_denom w fm1 fm2) n
      (fun m s => nth m (nth s [sa; sb] []) 0) 0 1 = Some v /\ (v <> 0)%R.
Proof. exact coupling_refuted_lemma. Qed.
Print Assumptions polyad_coupling_refuted.

(** C74: the quartic resonance constants, without Fermi resonances, and the couplings built
    from them *)
Theorem polyad_constants : forall (w : nat -> R) zmat f3 f4 B n,
  (forall i, i < n -> (0 < w i)%R) ->
  (forall i j m, i < n -> j < n -> m < n -> (w i + w j - w m <> 0)%R) ->
  forall a b c, a < n -> b < n -> c < n -> a <> b -> a <> c -> b <> c ->
  let k := res2a w zmat f3 f4 B (seq 0 n) (init_res_denom w [] []) in
  k a a b b = Some (k_aabb w zmat f3 f4 B n a b) /\ k a a a b = Some (k_aaab w f3 f4 n a b) /\
  k a c b c = Some (k_acbc w zmat f3 f4 B n a c b) /\ k a a b c = Some (k_aabc w zmat f3 f4 B n a b c).
Proof. exact res2a_lemma. Qed.
Theorem darling_dennison : forall (w : nat -> R) zmat f3 f4 B n iirst s t,
  (forall i, i < n -> (0 < w i)%R) ->
  (forall i j m, i < n -> j < n -> m < n -> (w i + w j - w m <> 0)%R) ->
  forall i j, i < j -> j < n ->
  let q := fun i => iirst i s in
  let q' := fun i => iirst i t in
  apart q q' i 2 -> apart q q' j 2 -> q i + q j = q' i + q' j ->
  (forall m, m < n -> m <> i -> m <> j -> q m = q' m) ->
  genrsa w zmat f3 f4 B (seq 0 n) (init_res_denom w [] []) n iirst s t
  = Some (k_aabb w zmat f3 f4 B n i j * (ho2 (q i) (q' i) * ho2 (q j) (q' j)))%R.
Proof. exact dd_lemma. Qed.
Theorem polyad_aabc : forall (w : nat -> R) zmat f3 f4 B n iirst s t,
  (forall i, i < n -> (0 < w i)%R) ->
  (forall i j m, i < n -> j < n -> m < n -> (w i + w j - w m <> 0)%R) ->
  forall i j k, i <> j -> i <> k -> j < k -> i < n -> k < n ->
  (forall a b c d, f4 a b c d = f4 a b d c) -> (forall a b c, f3 a b c = f3 b a c) ->
  let q := fun i => iirst i s in
  let q' := fun i => iirst i t in
  apart q q' i 2 -> apart q q' j 1 -> apart q q' k 1 ->
  q i + q j + q k = q' i + q' j + q' k ->
  (forall m, m < n -> m <> i -> m <> j -> m <> k -> q m = q' m) ->
  genrsa w zmat f3 f4 B (seq 0 n) (init_res_denom w [] []) n iirst s t
  = Some (k_aabc w zmat f3 f4 B n i j k * (ho2 (q i) (q' i) * ho1 (q j) (q' j) * ho1 (q k) (q' k)))%R.
Proof. exact aabc_lemma. Qed.
Theorem polyad_one_one : forall (w : nat -> R) zmat f3 f4 B n iirst s t,
  (forall i, i < n -> (0 < w i)%R) ->
  (forall i j m, i < n -> j < n -> m < n -> (w i + w j - w m <> 0)%R) ->
  forall i j, i < j -> j < n ->
  let q := fun i => iirst i s in
  let q' := fun i => iirst i t in
  apart q q' i 1 -> apart q q' j 1 ->
  (forall m, m < n -> m <> i -> m <> j -> q m = q' m) ->
  genrsa w zmat f3 f4 B (seq 0 n) (init_res_denom w [] []) n iirst s t
  = Some ((k_aaab w f3 f4 n i j * (INR (Nat.min (q i) (q' i)) + 1) / 2
           + k_aaab w f3 f4 n j i * (INR (Nat.min (q j) (q' j)) + 1) / 2
           + Rsum (seq 0 n) (fun k => if ((k =? i) || (k =? j))%nat then 0
               else k_acbc w zmat f3 f4 B n i k j * (INR (q k) + / 2)))
          * (ho1 (q i) (q' i) * ho1 (q j) (q' j)))%R.
Proof. exact oneone_lemma. Qed.
Example darling_dennison_ex :
  let q := fun m s => nth m (nth s [[2; 0; 1]; [0; 2; 1]] []) 0 in
  apart (fun i => q i 0) (fun i => q i 1) 0 2 /\ apart (fun i => q i 0) (fun i => q i 1) 1 2 /\
  q 0 0 + q 1 0 = q 0 1 + q 1 1 /\
  (forall m, m < 3 -> m <> 0 -> m <> 1 -> q m 0 = q m 1) /\
  (k_aabb (fun i => 10 + 7 * INR i) (fun _ _ _ => 0) (fun _ _ _ => 0) (fun _ _ _ _ => 8) (fun _ => 0) 3 0 1
   * (ho2 2 0 * ho2 0 2) = 1)%R.
Proof. exact polyad_example2. Qed.
Print Assumptions polyad_constants.
Print Assumptions darling_dennison.
Print Assumptions polyad_aabc.
Print Assumptions polyad_one_one.

(** C75: the diagonal of the polyad matrix is the vibrational energy above the ground state,
    and for a fundamental it is the reported fundamental frequency *)
Theorem polyad_energies : forall (w : nat -> R) x n e0 v,
  polyad_energy w (seq 0 n) e0 x v = (term w x n v - term w x n (fun _ => 0%nat))%R.
Proof. exact polyad_energy_R. Qed.
Theorem polyad_fundamentals : forall (w : nat -> R) x n e0 p,
  p < n -> (forall i j, x i j = x j i) ->
  nth_error (make_funds n w x) p = Some (polyad_energy w (seq 0 n) e0 x (delta p)).
Proof. exact polyad_fund. Qed.
Example polyad_energies_ex :
  (polyad_energy (fun i => nth i [30#1; 20#1] 0) (seq 0 2)%nat (7#1)
     (fun i j => if (i =? j)%nat then - (1#1) else 1#2) (delta 0%nat) == 113 # 4)%Q.
Proof. reflexivity. Qed.
Print Assumptions polyad_energies.
Print Assumptions polyad_fundamentals.

(** C76, exactly when the coupling of two states panics; the full property would be never *)
Theorem polyad_panics_partial : forall (F : Type) (N : Num F) freq zmat f3 f4 rotcon i1
    (dnm : nat -> nat -> nat -> F) n iirst s t,
  let q := fun i => iirst i s in
  let q' := fun i => iirst i t in
  genrsa freq zmat f3 f4 rotcon i1 dnm n iirst s t = None <->
  moved n q q' = 4%Z /\
  (length (differing n q q') = 4 \/
   net n q q' <> 0%Z /\ (length (differing n q q') = 2 \/ length (differing n q q') = 3)).
Proof. exact @genrsa_none. Qed.
Example polyad_panics_ex :
  let q := fun m s => nth m (nth s [[1; 1; 0; 0]; [0; 0; 1; 1]; [0; 2; 0; 0]] []) 0 in
  moved 4 (fun i => q i 0) (fun i => q i 1) = 4%Z /\
  length (differing 4 (fun i => q i 0) (fun i => q i 1)) = 4 /\
  moved 4 (fun i => q i 1) (fun i => q i 2) = 4%Z /\ net 4 (fun i => q i 1) (fun i => q i 2) = 0%Z /\
  differing 4 (fun i => q i 1) (fun i => q i 2) = [1; 2; 3].
Proof. repeat split. Qed.
Print Assumptions polyad_panics_partial.
(** C76 is false: the states of two reported type 2 resonances between different modes *)
Theorem polyad_panics_refuted :
  exists n fm1 fm2 ins sa sb,
    asym_lists fm1 fm2 /\ resin_inserts n fm1 fm2 = Some ins /\ In sa ins /\ In sb ins /\
    forall (F : Type) (N : Num F) (freq : nat -> F) zmat f3 f4 rotcon i1 dnm,
      genrsa freq zmat f3 f4 rotcon i1 dnm n (fun m s => nth m (nth s [sa; sb] []) 0) 0 1 = None.
Proof. exact panic_refuted_lemma. Qed.
Print Assumptions polyad_panics_refuted.

(** C77: the states collected for a polyad are the two states of every reported resonance
    and nothing else, each with one quantum number per mode *)
Theorem polyad_states : forall n fm1 fm2,
  (forall i j, In (i, j) fm1 -> i < n /\ j < n) ->
  (forall i j k, In (i, j, k) fm2 -> i < n /\ j < n /\ k < n) ->
  exists ins, resin_inserts n fm1 fm2 = Some ins /\
    (forall v, In v ins <-> resin_state n fm1 fm2 v) /\ (forall v, In v ins -> length v = n).
Proof. exact resin_lemma. Qed.
Example polyad_states_ex :
  resin_inserts 3 [(2, 1)] [(2, 1, 0)] = Some [[0; 0; 2]; [0; 1; 0]; [0; 1; 1]; [1; 0; 0]].
Proof. reflexivity. Qed.
Print Assumptions polyad_states.

(** C78, the shape of the matrix: with at most twelve modes it is always built, from the seven
    fixed states; with more it panics *)
Theorem polyad_matrix_partial : forall (F : Type) (N : Num F) zmat f3 f4 (e0 : F) modes freq rotcon x fm1 fm2,
  let i1 := i1mode modes in
  let run := resona zmat f3 f4 e0 modes freq rotcon x fm1 fm2 in
  (length i1 <= 12 -> exists rows, run = Some rows /\ length rows = 7 /\
     forall i row, nth_error rows i = Some row ->
       length row = i + 1 /\
       nth_error row i = Some (polyad_energy freq i1 e0 x (fun m => fixed_iirst m i)) /\
       forall j, j < i -> nth_error row j
         = genrsa freq zmat f3 f4 rotcon i1 (init_res_denom freq fm1 fm2) (length i1) fixed_iirst i j) /\
  (12 < length i1 -> run = None).
Proof. exact @resona_lemma. Qed.
Example polyad_matrix_ex :
  length (i1mode (singles 3)) = 3 /\
  resona (fun _ _ _ => 0%Q) (fun _ _ _ => 0%Q) (fun _ _ _ _ => 0%Q) 0%Q (singles 3)
    (fun i => nth i [30#1; 20#1; 10#1] 1)%Q (fun _ => 0%Q) (fun _ _ => 0%Q) [] [] <> None.
Proof. split; [reflexivity|]. vm_compute. discriminate. Qed.
Print Assumptions polyad_matrix_partial.
(** C78 is false: the state 2 w_i of a reported resonance is not among the fixed states *)
Theorem polyad_matrix_refuted :
  exists n fm1 fm2 i j, In (i, j) fm1 /\ asym_lists fm1 fm2 /\ i < n /\ j < n /\
    forall s, s < length fixed_states -> exists m, m < n /\ fixed_iirst m s <> (if m =? i then 2 else 0).
Proof. exact states_refuted_lemma. Qed.
Print Assumptions polyad_matrix_refuted.
