(** Properties C35-C37, C71 and C72: the anharmonic constants and E0 of symmetric tops. *)
From Coq Require Import Reals Lra Lia List Arith Bool Permutation Sorted ZArith QArith.
From Verif Require Import Num Loops Index Modes VibRot Anharm SymAnharm ListFacts ModesFacts StatesFacts
  ResFacts AnharmFacts VibRotFacts SymFacts SymExact SymE0 SymWitness.
Import ListNotations.
Open Scope R_scope.

(** C37: x and g are symmetric whatever the arithmetic *)
Theorem sym_constants_symmetric : forall (F : Type) (N : Num F) f4 freq f3 zmat rotcon r fm1 fm2 modes wila
    (x g : nat -> nat -> F) (e0 : F),
  xcals f4 freq f3 zmat rotcon r fm1 fm2 modes wila = Some (x, g, e0) ->
  (forall a b, x a b = x b a) /\ (forall a b, g a b = g b a).
Proof. exact @xcals_symm. Qed.
Example sym_constants_ex :
  let f3 := fun i j k : nat => if ((i =? 0) && (j =? 1) && (k =? 3))%nat then (3 # 2)%Q else 0%Q in
  let w := fun i : nat => nth i [30#1; 21#1; 21#1; 12#1; 12#1]%Q 0%Q in
  match xcals (fun i j k l => if ((i =? k) && (j =? l))%nat then 1%Q else 5%Q) w f3
      (fun i j k => Z.of_nat (i + 2 * j + 3 * k) # 7) (fun i => Z.of_nat (S i) # 1)
      OblateSymmTop [] [(1, 3, 0)%nat] [I1 0; I2 1 2; I2 3 4] (fun _ _ => 1%Q) with
  | Some (x, g, _) => x 0%nat 3%nat = x 3%nat 0%nat /\ x 0%nat 3%nat <> 0%Q /\
      g 1%nat 3%nat = g 3%nat 1%nat /\ g 1%nat 3%nat <> 0%Q
  | None => False
  end.
Proof. vm_compute. repeat split; discriminate. Qed.
Print Assumptions sym_constants_symmetric.

(** C71: without Fermi resonances every entry of x and g is the standard formula; the axis
    of the Coriolis term of two degenerate modes is the one chosen by [cor_axis] *)
Theorem sym_constants_exact :
  forall nvib modes f4 (w : nat -> R) f3 zeta B r wila x g e0,
  Permutation (flat_map members modes) (seq 0 nvib) ->
  (forall i, (i < nvib)%nat -> 0 < w i) ->
  (forall i j m, (i < nvib)%nat -> (j < nvib)%nat -> (m < nvib)%nat -> w i + w j - w m <> 0) ->
  xcals f4 w f3 zeta B r [] [] modes wila = Some (x, g, e0) ->
  let ns := nondeg modes in
  let ts := degs modes in
  (forall k, In k ns -> x k k = sx_nn1 f4 w f3 none ns k) /\
  (forall p q k l, (q < p)%nat -> nth_error ns p = Some k -> nth_error ns q = Some l ->
     x k l = sx_nn f4 w f3 zeta B none ns k l /\ x l k = x k l) /\
  (forall k l l2, In k ns -> In (l, l2) ts ->
     let v := sx_nd f4 w f3 zeta B none ns ts k l in
     x k l = v /\ x l k = v /\ x k l2 = v /\ x l2 k = v) /\
  (forall k k2, In (k, k2) ts ->
     x k k = sx_dd1 f4 w f3 none ns ts k /\ x k2 k2 = x k k /\
     g k k = sg_dd1 f4 w f3 zeta B none ns ts k k2 /\ g k2 k2 = g k k) /\
  (exists axis, cor_axis r ts wila axis /\
   forall p q k k2 l l2, (q < p)%nat -> nth_error ts p = Some (k, k2) -> nth_error ts q = Some (l, l2) ->
     let v := sx_dd f4 w f3 zeta B none ns ts axis k l l2 in
     let u := sg_dd w f3 zeta B none ns ts axis k k2 l l2 in
     x k l = v /\ x l k = v /\ x k2 l2 = v /\ x l2 k2 = v /\
     g k l = u /\ g l k = u /\ g k2 l2 = u /\ g l2 k2 = u) /\
  (forall k k2 l l2, In (k, k2) ts -> In (l, l2) ts -> x k l2 = 0 /\ x l2 k = 0) /\
  (forall a b, (forall k k2, In (k, k2) ts -> a <> k /\ a <> k2) -> g a b = 0 /\ g b a = 0).
Proof. exact sym_exact_lemma. Qed.
Example sym_constants_exact_ex :
  Permutation (flat_map members smodes) (seq 0 6) /\ nondeg smodes = [0; 3]%nat /\
  degs smodes = [(1, 2); (4, 5)]%nat /\
  (forall i, (i < 6)%nat -> 0 < sw i) /\
  (forall i j m, (i < 6)%nat -> (j < 6)%nat -> (m < 6)%nat -> sw i + sw j - sw m <> 0) /\
  (exists s, xcals zero4 sw zero3 zero3 zero1 OblateSymmTop [] [] smodes zero2 = Some s) /\
  cor_axis OblateSymmTop (degs smodes) zero2 1%nat /\
  sx_nn zero4 sw (fun _ _ _ => 1) zero3 zero1 none [0; 3]%nat 3 0 <> 0.
Proof. exact sym_example. Qed.
Print Assumptions sym_constants_exact.

(** C35, the part that holds: with reported resonances the diagonal of x is right, an
    off-diagonal element is right if its two modes are only ever sources of type 2
    resonances, and g is right if no reported resonance touches it *)
Theorem sym_x_partial :
  forall nvib modes f4 (w : nat -> R) f3 zeta B r fm1 fm2 res wila x g e0,
  Permutation (flat_map members modes) (seq 0 nvib) ->
  reported fm1 fm2 res -> keys_once fm1 fm2 ->
  (forall i, (i < nvib)%nat -> 0 < w i) ->
  (forall i j m, (i < nvib)%nat -> (j < nvib)%nat -> (m < nvib)%nat ->
     res i j m = false -> w i + w j - w m <> 0) ->
  xcals f4 w f3 zeta B r fm1 fm2 modes wila = Some (x, g, e0) ->
  let ns := nondeg modes in
  let ts := degs modes in
  (forall k, In k ns -> x k k = sx_nn1 f4 w f3 res ns k) /\
  (forall p q k l, (q < p)%nat -> nth_error ns p = Some k -> nth_error ns q = Some l ->
     sources_only fm2 k l ->
     let v := sx_nn f4 w f3 zeta B res ns k l in x k l = v /\ x l k = v) /\
  (forall k l l2, In k ns -> In (l, l2) ts -> sources_only fm2 k l ->
     let v := sx_nd f4 w f3 zeta B res ns ts k l in
     x k l = v /\ x l k = v /\ x k l2 = v /\ x l2 k = v) /\
  (forall k k2, In (k, k2) ts ->
     let v := sx_dd1 f4 w f3 res ns ts k in x k k = v /\ x k2 k2 = v) /\
  (exists axis, cor_axis r ts wila axis /\
   forall p q k k2 l l2, (q < p)%nat -> nth_error ts p = Some (k, k2) -> nth_error ts q = Some (l, l2) ->
     sources_only fm2 k l ->
     let v := sx_dd f4 w f3 zeta B res ns ts axis k l l2 in
     x k l = v /\ x l k = v /\ x k2 l2 = v /\ x l2 k2 = v) /\
  (forall k k2 l l2, In (k, k2) ts -> In (l, l2) ts -> x k l2 = 0 /\ x l2 k = 0).
Proof. exact x_lemma. Qed.
(** 2 w_1 ~ w_2 for a degenerate mode 1; modes 1 and 0 are sources only of (1, 0, 3) *)
Example sym_x_ex :
  reported [(0, 2)%nat] [] gres /\ keys_once [(0, 2)%nat] [] /\
  (forall i j m, (i < 4)%nat -> (j < 4)%nat -> (m < 4)%nat ->
     gres i j m = false -> gw i + gw j - gw m <> 0) /\
  gw 0 + gw 0 - gw 2 = 1 /\
  sources_only [(1, 0, 3)%nat] 1 0 /\ ~ sources_only [(1, 0, 3)%nat] 3 0 /\
  sx_dd1 zero4 gw gf3 gres [] [(0, 1); (2, 3)]%nat 0 <> sx_dd1 zero4 gw gf3 none [] [(0, 1); (2, 3)]%nat 0.
Proof. exact sym_x_example. Qed.
Print Assumptions sym_x_partial.

Theorem sym_g_partial :
  forall nvib modes f4 (w : nat -> R) f3 zeta B r fm1 fm2 res wila x g e0,
  Permutation (flat_map members modes) (seq 0 nvib) ->
  reported fm1 fm2 res -> keys_once fm1 fm2 ->
  (forall i, (i < nvib)%nat -> 0 < w i) ->
  (forall i j m, (i < nvib)%nat -> (j < nvib)%nat -> (m < nvib)%nat ->
     res i j m = false -> w i + w j - w m <> 0) ->
  xcals f4 w f3 zeta B r fm1 fm2 modes wila = Some (x, g, e0) ->
  let ns := nondeg modes in
  let ts := degs modes in
  (forall k k2, In (k, k2) ts -> (forall l l2, In (l, l2) ts -> res k k l = false) ->
     let v := sg_dd1 f4 w f3 zeta B res ns ts k k2 in g k k = v /\ g k2 k2 = v) /\
  (exists axis, cor_axis r ts wila axis /\
   forall p q k k2 l l2, (q < p)%nat -> nth_error ts p = Some (k, k2) -> nth_error ts q = Some (l, l2) ->
     (forall m, In m ns \/ In m (map fst ts) -> free res k l m) ->
     let v := sg_dd w f3 zeta B res ns ts axis k k2 l l2 in
     g k l = v /\ g l k = v /\ g k2 l2 = v /\ g l2 k2 = v) /\
  (forall a b, (forall k k2, In (k, k2) ts -> a <> k /\ a <> k2) -> g a b = 0 /\ g b a = 0).
Proof. exact g_lemma. Qed.
(** a resonance with a nondegenerate mode does not stop the diagonal of g from being right *)
Example sym_g_ex :
  In (0, 1)%nat (degs hmodes) /\ (forall l l2, In (l, l2) (degs hmodes) -> gres 0 0 l = false) /\
  In 2%nat (nondeg hmodes) /\ gres 0 0 2 = true /\
  sg_dd1 zero4 gw gf3 zero3 zero1 gres [2%nat] [(0, 1)%nat] 0 1
  <> sg_dd1 zero4 gw gf3 zero3 zero1 none [2%nat] [(0, 1)%nat] 0 1.
Proof. exact sym_g_example. Qed.
Print Assumptions sym_g_partial.

(** C35 is false: with w_2 + w_1 ~ w_0 reported as (2, 1, 0) the term of this resonance is
    neither kept nor reduced correctly in x_10, nor in x_20 *)
Theorem sym_x_refuted :
  exists nvib modes f4 w f3 zeta B r fm1 fm2 res wila x g e0,
    Permutation (flat_map members modes) (seq 0 nvib) /\ reported fm1 fm2 res /\ keys_once fm1 fm2 /\
    (forall i, (i < nvib)%nat -> 0 < w i) /\
    (forall i j m, (i < nvib)%nat -> (j < nvib)%nat -> (m < nvib)%nat ->
       res i j m = false -> w i + w j - w m <> 0) /\
    xcals f4 w f3 zeta B r fm1 fm2 modes wila = Some (x, g, e0) /\
    nth_error (nondeg modes) 0 = Some 0%nat /\ nth_error (nondeg modes) 1 = Some 1%nat /\
    nth_error (nondeg modes) 2 = Some 2%nat /\
    x 1%nat 0%nat <> sx_nn f4 w f3 zeta B res (nondeg modes) 1 0 /\
    x 2%nat 0%nat <> sx_nn f4 w f3 zeta B res (nondeg modes) 2 0.
Proof. exact x_resonance_refuted_lemma. Qed.
Print Assumptions sym_x_refuted.

(** the same for three degenerate modes: with (4, 2, 0) reported, x_40 gets a fraction with
    the wrong sign, and x_20 keeps the resonant fraction *)
Theorem sym_x_degenerate_refuted :
  exists nvib modes f4 w f3 zeta B r fm1 fm2 res wila x g e0,
    Permutation (flat_map members modes) (seq 0 nvib) /\ reported fm1 fm2 res /\ keys_once fm1 fm2 /\
    asym_lists fm1 fm2 /\
    (forall i, (i < nvib)%nat -> 0 < w i) /\
    (forall i j m, (i < nvib)%nat -> (j < nvib)%nat -> (m < nvib)%nat ->
       res i j m = false -> w i + w j - w m <> 0) /\
    xcals f4 w f3 zeta B r fm1 fm2 modes wila = Some (x, g, e0) /\
    degs modes = [(0, 1); (2, 3); (4, 5)]%nat /\
    forall axis,
    x 4%nat 0%nat <> sx_dd f4 w f3 zeta B res (nondeg modes) (degs modes) axis 4 0 1 /\
    x 2%nat 0%nat <> sx_dd f4 w f3 zeta B res (nondeg modes) (degs modes) axis 2 0 1.
Proof. exact x_degenerate_refuted_lemma. Qed.
Print Assumptions sym_x_degenerate_refuted.

(** and a resonance between two degenerate modes has the wrong sign in g *)
Theorem sym_g_refuted :
  exists nvib modes f4 w f3 zeta B r fm1 fm2 res wila x g e0 k k2,
    Permutation (flat_map members modes) (seq 0 nvib) /\ reported fm1 fm2 res /\ keys_once fm1 fm2 /\
    (forall i, (i < nvib)%nat -> 0 < w i) /\
    (forall i j m, (i < nvib)%nat -> (j < nvib)%nat -> (m < nvib)%nat ->
       res i j m = false -> w i + w j - w m <> 0) /\
    xcals f4 w f3 zeta B r fm1 fm2 modes wila = Some (x, g, e0) /\
    In (k, k2) (degs modes) /\
    g k k <> sg_dd1 f4 w f3 zeta B res (nondeg modes) (degs modes) k k2.
Proof. exact g_resonance_refuted_lemma. Qed.
Print Assumptions sym_g_refuted.

(** C36, exactly what is computed: a linear molecule gets only the terms with at most one
    degenerate mode, any other molecule loses the terms of all pairs not ending in the last
    degenerate mode and those of all triples *)
Theorem sym_e0_exact :
  forall nvib modes f4 (w : nat -> R) f3,
  Permutation (flat_map members modes) (seq 0 nvib) ->
  (forall i, (i < nvib)%nat -> 0 < w i) ->
  (forall i j m, (i < nvib)%nat -> (j < nvib)%nat -> (m < nvib)%nat -> w i + w j - w m <> 0) ->
  forall zeta B r wila x g e0,
  StronglySorted lt (firsts modes) ->
  xcals f4 w f3 zeta B r [] [] modes wila = Some (x, g, e0) ->
  e0 = if is_linear r then se_n f4 w f3 none (nondeg modes) + se_d f4 w f3 none (nondeg modes) (firsts modes)
       else spec_sym_e0 f4 w f3 none (nondeg modes) (firsts modes) + lost modes w f3.
Proof. exact sym_e0_lemma. Qed.
Example sym_e0_ex :
  StronglySorted lt (firsts smodes) /\ firsts smodes = [1; 4]%nat /\ is_linear OblateSymmTop = false /\
  spec_sym_e0 zero4 sw (fun _ _ _ => 1) none [0; 3]%nat [1; 4]%nat
  <> se_n zero4 sw (fun _ _ _ => 1) none [0; 3]%nat + se_d zero4 sw (fun _ _ _ => 1) none [0; 3]%nat [1; 4]%nat.
Proof. exact sym_e0_example. Qed.
Print Assumptions sym_e0_exact.

(** the full property would be e0 = spec_sym_e0 for any number of degenerate modes; it
    holds for at most two *)
Theorem sym_e0_partial :
  forall nvib modes f4 (w : nat -> R) f3,
  Permutation (flat_map members modes) (seq 0 nvib) ->
  (forall i, (i < nvib)%nat -> 0 < w i) ->
  (forall i j m, (i < nvib)%nat -> (j < nvib)%nat -> (m < nvib)%nat -> w i + w j - w m <> 0) ->
  forall zeta B r wila x g e0,
  StronglySorted lt (firsts modes) -> (length (firsts modes) <= 2)%nat -> is_linear r = false ->
  xcals f4 w f3 zeta B r [] [] modes wila = Some (x, g, e0) ->
  e0 = spec_sym_e0 f4 w f3 none (nondeg modes) (firsts modes).
Proof. exact sym_e0_small_lemma. Qed.
Example sym_e0_partial_ex :
  (length (firsts smodes) <= 2)%nat /\ is_linear OblateSymmTop = false /\
  exists s, xcals zero4 sw zero3 zero3 zero1 OblateSymmTop [] [] smodes zero2 = Some s.
Proof. refine (conj (le_n 2) (conj eq_refl _)). eexists. reflexivity. Qed.
Print Assumptions sym_e0_partial.

(** C36 is false with three degenerate modes *)
Theorem sym_e0_refuted :
  exists nvib modes f4 w f3 zeta B r wila x g e0,
    Permutation (flat_map members modes) (seq 0 nvib) /\
    (forall i, (i < nvib)%nat -> 0 < w i) /\
    (forall i j m, (i < nvib)%nat -> (j < nvib)%nat -> (m < nvib)%nat -> w i + w j - w m <> 0) /\
    StronglySorted lt (firsts modes) /\ is_linear r = false /\
    xcals f4 w f3 zeta B r [] [] modes wila = Some (x, g, e0) /\
    e0 <> spec_sym_e0 f4 w f3 none (nondeg modes) (firsts modes).
Proof. exact e0_pairs_refuted_lemma. Qed.
Print Assumptions sym_e0_refuted.

(** C72 is false: with 2 w_0 ~ w_2 reported, 0 degenerate and 2 not, E0 is not the standard
    formula without the resonant partial fraction, already for one degenerate mode *)
Theorem sym_e0_resonance_refuted :
  exists nvib modes f4 w f3 zeta B r fm1 fm2 res wila x g e0,
    Permutation (flat_map members modes) (seq 0 nvib) /\ reported fm1 fm2 res /\ keys_once fm1 fm2 /\
    (forall i, (i < nvib)%nat -> 0 < w i) /\
    (forall i j m, (i < nvib)%nat -> (j < nvib)%nat -> (m < nvib)%nat ->
       res i j m = false -> w i + w j - w m <> 0) /\
    StronglySorted lt (firsts modes) /\ (length (firsts modes) <= 2)%nat /\ is_linear r = false /\
    xcals f4 w f3 zeta B r fm1 fm2 modes wila = Some (x, g, e0) /\
    e0 <> spec_sym_e0 f4 w f3 res (nondeg modes) (firsts modes).
Proof. exact e0_resonance_refuted_lemma. Qed.
Print Assumptions sym_e0_resonance_refuted.
