(** A whole run of an asymmetric top with Fermi resonances. *)
From Coq Require Import Reals Lra List ZArith Arith Lia Bool Permutation Sorted FunctionalExtensionality.
From Verif Require Import Num Loops ListFacts Index LoadFacts Modes ModesFacts ResFacts ResWitness
  StatesFacts IndexFacts Anharm AnharmFacts EnergyFacts FermiFacts VibRot Distort Transform TransformFacts
  RotFacts NormalFacts HarmFacts ModeFacts SymAnharm
  Polyads Report OutputFacts VibRotFacts SymRotFacts Geom IrrepFacts Finish FinishFacts RunFacts
  PerturbFacts PerturbSum PerturbLevels SymE0 SymLevels RunSecond.
Import ListNotations.
Open Scope nat_scope.

(** every level belongs to at most one reported resonance *)
Definition isolated (fm1 : list (nat * nat)) (fm2 : list (nat * nat * nat)) : Prop :=
  (forall i j k k', resonant fm1 fm2 i j k -> resonant fm1 fm2 i j k' -> k = k') /\
  (forall i j i' j' k, resonant fm1 fm2 i j k -> resonant fm1 fm2 i' j' k ->
     (i = i' /\ j = j') \/ (i = j' /\ j = i')).

(** ** two-level problems on separate levels *)
Definition treated_levels (ops : list fermi_op) : list nat :=
  flat_map (fun o => [fst (op_levels o); snd (op_levels o)]) ops.

Lemma treated_in o ops : In o ops -> In (fst (op_levels o)) (treated_levels ops) /\ In (snd (op_levels o)) (treated_levels ops).
Proof. intros Ho. unfold treated_levels. split; apply in_flat_map; exists o; cbn; auto. Qed.

Section Disjoint.
  Local Open Scope R_scope.
  (** [x], [y] are the roots of the two-level problem with levels [a], [b] and coupling [c] *)
  Definition two_level (a b c x y : R) : Prop :=
    x + y = a + b /\ x * y = a * b - c ^ 2 /\ (a < b -> x < y) /\ (b < a -> y < x).

  Lemma fold_disjoint eig2 f3 ops : (forall a b c, eig_ok eig2 a b c) -> NoDup (treated_levels ops) ->
    forall (eng eng' : list R) E0,
    (forall o, In o ops -> fst (op_levels o) <> 0%nat /\ snd (op_levels o) <> 0%nat) ->
    nth_error eng 0 = Some E0 ->
    ofold (fun eng o => rsfrm eig2 f3 o eng) ops eng = Some eng' ->
    forall o p q Ep Eq, In o ops -> op_levels o = (p, q) -> nth_error eng p = Some Ep -> nth_error eng q = Some Eq ->
    exists Ep' Eq', nth_error eng' p = Some Ep' /\ nth_error eng' q = Some Eq' /\
      two_level (Ep - E0) (Eq - E0) (spec_coupling f3 o) (Ep' - E0) (Eq' - E0).
  Proof.
    intros Hc. induction ops as [|o ops IH]; intros Nd eng eng' E0 Hz H0 E o' p q Ep Eq Ho Hl Np Nq; [easy|].
    cbn [ofold] in E. destruct (rsfrm eig2 f3 o eng) as [e1|] eqn:E1; [|discriminate].
    destruct (Hz o (or_introl eq_refl)) as [Z1 Z2].
    unfold treated_levels in Nd. cbn [flat_map app] in Nd. inversion Nd as [|? ? N1 Nd1]; subst. inversion Nd1 as [|? ? N2 Nd2]; subst.
    fold (treated_levels ops) in *.
    destruct Ho as [<-|Ho].
    - rewrite Hl in *. cbn [fst snd] in *.
      assert (Hpq : p <> q) by (intros ->; apply N1; now left).
      destruct (two_level_lemma eig2 f3 o eng p q Ep Eq E0 Hl Hpq Z1 Z2 Np Nq H0 (Hc _ _ _))
        as (e2 & Ep' & Eq' & E2 & _ & Np' & Nq' & _ & S & P & _ & O1 & O2).
      rewrite E1 in E2. injection E2 as <-.
      exists Ep', Eq'.
      assert (K : forall r, (r = p \/ r = q) -> nth_error eng' r = nth_error e1 r).
      { intros r Hr. apply (ofold_rsfrm_keeps eig2 f3 ops e1 eng' r E). intros o' Ho'.
        destruct (treated_in o' ops Ho') as [T1 T2].
        split; intros ->; destruct Hr as [Q|Q]; rewrite Q in *; first [now apply N2|apply N1; now right]. }
      rewrite !K by auto. split; [exact Np'|]. split; [exact Nq'|].
      split; [lra|]. split; [exact P|]. split; intros; [apply Rplus_lt_reg_r with E0|apply Rplus_lt_reg_r with E0]; lra.
    - assert (Zr : forall r, r <> fst (op_levels o) -> r <> snd (op_levels o) -> nth_error e1 r = nth_error eng r).
      { intros r R1 R2. now apply (rsfrm_keeps eig2 f3 o). }
      destruct (treated_in o' ops Ho) as [T1 T2]. rewrite Hl in T1, T2. cbn [fst snd] in T1, T2.
      apply (IH Nd2 e1 eng' E0) with (o := o'); auto.
      + intros x Hx. apply Hz. now right.
      + rewrite Zr; auto.
      + rewrite Zr; [exact Np| |]; intros ->; [apply N1; now right|now apply N2].
      + rewrite Zr; [exact Nq| |]; intros ->; [apply N1; now right|now apply N2].
  Qed.
End Disjoint.

(** ** every resonance of an asymmetric top is treated once *)
Definition source (o : fermi_op) : nat * nat :=
  match o with Rs1 _ _ i _ _ => (i, i) | Rs2 _ _ i j _ => (i, j) end.

Lemma NoDup_app_intro {A} (l l' : list A) : NoDup l -> NoDup l' -> (forall x, In x l -> ~ In x l') -> NoDup (l ++ l').
Proof.
  intros N N' D. induction N as [|x l Hx N IH]; [exact N'|]. cbn. constructor.
  - rewrite in_app_iff. intros [Q|Q]; [now apply Hx|]. now apply (D x (or_introl eq_refl)).
  - apply IH. intros y Hy. apply D. now right.
Qed.

Lemma ocollect_nodup {A B C} (g : B -> C) (l : list A) (f : A -> option (list B)) : forall ret,
  ocollect l f = Some ret -> NoDup l ->
  (forall x r, In x l -> f x = Some r -> NoDup (map g r)) ->
  (forall x y r s b c, In x l -> In y l -> x <> y -> f x = Some r -> f y = Some s -> In b r -> In c s -> g b <> g c) ->
  NoDup (map g ret).
Proof.
  induction l as [|a l IH]; intros ret E N Hin Hd; cbn in E.
  - injection E as <-. constructor.
  - destruct (f a) as [r|] eqn:Ea; [|discriminate]. cbn in E.
    destruct (ocollect l f) as [r'|] eqn:E'; [|discriminate]. cbn in E. injection E as <-.
    inversion N as [|? ? Na N']; subst. rewrite map_app. apply NoDup_app_intro.
    + now apply (Hin a r (or_introl eq_refl)).
    + apply IH; auto. * intros x r0 Hx. apply Hin. now right.
      * intros x y r0 s b c Hx Hy. apply Hd; now right.
    + intros x Hx Hx'. apply in_map_iff in Hx as (b & <- & Hb). apply in_map_iff in Hx' as (c & Ec & Hc).
      apply (ocollect_in _ _ _ c E') in Hc as (y & s & Hy & Es & Hc).
      apply (Hd a y r s b c); auto; [now left|now right|intros ->; now apply Na].
Qed.

Lemma ops_sources c n t ops : enrgy_ops c (singles n) t = Some ops -> NoDup (map source ops).
Proof.
  intros E. unfold enrgy_ops in E. rewrite n1dm_singles, n2dm_singles in E. cbn [range seq Nat.sub ocollect] in E.
  assert (Z : forall l : list nat, ocollect l (fun _ => Some []) = Some ([] : list fermi_op)).
  { intros l. induction l as [|x l IH]; [reflexivity|]. cbn. now rewrite IH. }
  change (range 0 0) with (@nil nat) in E. cbn [ocollect] in E. rewrite Z in E. cbn [oapp] in E.
  set (rs1 := fun ivib deg => match ifrm1 c ivib with
    | Some jvib => let* ist := nth_error (t_ovrtn t) ivib in let* jst := nth_error (t_funda t) jvib in
                   Some [Rs1 ist jst ivib jvib deg]
    | None => Some [] end) in E.
  set (rs2 := fun ivib jvib (k : option nat) => match k with
    | Some kvib => let* ijst := nth_error (t_combn t) (pair_index ivib jvib) in let* kst := nth_error (t_funda t) kvib in
                   Some [Rs2 ijst kst ivib jvib kvib]
    | None => Some [] end) in E.
  assert (R1 : forall i d r, rs1 i d = Some r -> map source r = [] \/ map source r = [(i, i)]).
  { intros i d r Q. unfold rs1 in Q. destruct (ifrm1 c i) as [j|]; [|injection Q as <-; now left].
    destruct (nth_error (t_ovrtn t) i); [|discriminate]. cbn in Q.
    destruct (nth_error (t_funda t) j); [|discriminate]. cbn in Q. injection Q as <-. now right. }
  assert (R2 : forall i j k r, rs2 i j k = Some r -> map source r = [] \/ map source r = [(i, j)]).
  { intros i j k r Q. unfold rs2 in Q. destruct k as [k|]; [|injection Q as <-; now left].
    destruct (nth_error (t_combn t) _); [|discriminate]. cbn in Q.
    destruct (nth_error (t_funda t) k); [|discriminate]. cbn in Q. injection Q as <-. now right. }
  assert (I1 : forall i d r o, rs1 i d = Some r -> In o r -> source o = (i, i)).
  { intros i d r o Q Ho. apply (in_map source) in Ho. destruct (R1 _ _ _ Q) as [W|W]; rewrite W in Ho; [easy|].
    destruct Ho as [<-|[]]. reflexivity. }
  assert (I2 : forall i j k r o, rs2 i j k = Some r -> In o r -> source o = (i, j)).
  { intros i j k r o Q Ho. apply (in_map source) in Ho. destruct (R2 _ _ _ _ Q) as [W|W]; rewrite W in Ho; [easy|].
    destruct Ho as [<-|[]]. reflexivity. }
  match type of E with oapp ?a ?b = _ => destruct a as [r|] eqn:Er; [|discriminate] end. cbn in E. injection E as <-.
  rewrite app_nil_r.
  assert (Inner : forall i, (i < n)%nat -> forall r0, oapp (rs1 (m1 (singles n) i) false)
    (ocollect (range (i + 1) n) (fun jjj => rs2 (m1 (singles n) i) (m1 (singles n) jjj) (ifrm2 c (m1 (singles n) jjj) (m1 (singles n) i)))) = Some r0 ->
    NoDup (map source r0) /\ forall o, In o r0 -> fst (source o) = i).
  { intros i Hi r0 Q.
    destruct (rs1 (m1 (singles n) i) false) as [a|] eqn:Ea; [|discriminate].
    match type of Q with oapp _ ?b = _ => destruct b as [b'|] eqn:Eb; [|discriminate] end. cbn in Q. injection Q as <-.
    assert (Sa : forall o, In o a -> source o = (i, i)).
    { intros o Ho. rewrite (I1 _ _ _ _ Ea Ho), m1_singles by exact Hi. reflexivity. }
    assert (Sb : forall o, In o b' -> exists j, (i < j < n)%nat /\ source o = (i, j)).
    { intros o Ho. apply (ocollect_in _ _ _ o Eb) in Ho as (j & s & Hj%in_range & Es & Ho).
      exists j. split; [lia|]. rewrite (I2 _ _ _ _ _ Es Ho), !m1_singles by lia. reflexivity. }
    split.
    - rewrite map_app. apply NoDup_app_intro.
      + destruct (R1 _ _ _ Ea) as [-> | ->]; repeat constructor. easy.
      + apply (ocollect_nodup source _ _ _ Eb).
        * unfold range. apply seq_NoDup.
        * intros x r1 _ Q. destruct (R2 _ _ _ _ Q) as [-> | ->]; repeat constructor. easy.
        * intros x y r1 s o o' Hx%in_range Hy%in_range D Q1 Q2 Ho Ho'.
          rewrite (I2 _ _ _ _ _ Q1 Ho), (I2 _ _ _ _ _ Q2 Ho'), !m1_singles by lia. congruence.
      + intros x Hx Hx'. apply in_map_iff in Hx as (o & <- & Ho). apply in_map_iff in Hx' as (o' & Q & Ho').
        rewrite (Sa o Ho) in Q. destruct (Sb o' Ho') as (j & Hj & S). rewrite S in Q. injection Q as Q. lia.
    - intros o Ho. apply in_app_iff in Ho as [Ho|Ho]; [now rewrite (Sa o Ho)|].
      destruct (Sb o Ho) as (j & _ & ->). reflexivity. }
  apply (ocollect_nodup source _ _ _ Er).
  - unfold range. apply seq_NoDup.
  - intros x r0 Hx%in_range Q. apply (Inner x); [lia|exact Q].
  - intros x y r0 s o o' Hx%in_range Hy%in_range D Q1 Q2 Ho Ho' S.
    destruct (Inner x ltac:(lia) r0 Q1) as [_ F1]. destruct (Inner y ltac:(lia) s Q2) as [_ F2].
    apply D. rewrite <- (F1 o Ho), <- (F2 o' Ho'). now rewrite S.
Qed.

Lemma NoDup_map_other {A B C} (g : A -> B) (h : A -> C) l :
  NoDup (map g l) -> (forall x y, In x l -> In y l -> h x = h y -> g x = g y) -> NoDup (map h l).
Proof.
  induction l as [|a l IH]; cbn [map]; intros N Hh; [constructor|].
  inversion N as [|? ? Na N']; subst. constructor.
  - intros Q. apply in_map_iff in Q as (b & Eb & Hb). apply Na. apply in_map_iff. exists b. split; [|exact Hb].
    apply Hh; [now right|now left|exact Eb].
  - apply IH; [exact N'|]. intros x y Hx Hy. apply Hh; now right.
Qed.

Lemma treated_nodup ops : NoDup (map (fun o => fst (op_levels o)) ops) -> NoDup (map (fun o => snd (op_levels o)) ops) ->
  (forall o o', In o ops -> In o' ops -> fst (op_levels o) <> snd (op_levels o')) -> NoDup (treated_levels ops).
Proof.
  induction ops as [|o ops IH]; cbn [map]; intros N1 N2 D; [constructor|].
  inversion N1 as [|? ? Na N1']; subst. inversion N2 as [|? ? Nb N2']; subst.
  assert (W : forall x, In x (treated_levels ops) -> exists o', In o' ops /\ (x = fst (op_levels o') \/ x = snd (op_levels o'))).
  { intros x Hx. apply in_flat_map in Hx as (o' & Ho' & [<-|[<-|[]]]); exists o'; auto. }
  change (treated_levels (o :: ops)) with (fst (op_levels o) :: snd (op_levels o) :: treated_levels ops).
  constructor; [|constructor].
  - intros [Q|Q]; [apply (D o o); [now left|now left|auto]|].
    apply W in Q as (o' & Ho' & [Q|Q]).
    + apply Na. apply in_map_iff. exists o'. auto.
    + apply (D o o'); [now left|now right|exact Q].
  - intros Q. apply W in Q as (o' & Ho' & [Q|Q]).
    + apply (D o' o); [now right|now left|auto].
    + apply Nb. apply in_map_iff. exists o'. auto.
  - apply IH; auto. intros x y Hx Hy. apply D; now right.
Qed.

(** one quantum in mode [i] and one in mode [j], or two in the same mode *)
Definition two (i j : nat) : occ := fun a => (if a =? i then 1 else 0) + (if a =? j then 1 else 0).

Lemma two_swap i j : two i j = two j i.
Proof. extensionality a. unfold two. lia. Qed.
Lemma unit1_two n i : i < n -> counts (unit1 n i 2) = two i i.
Proof.
  intros Hi. extensionality a. unfold counts, unit1, two. destruct (Nat.lt_ge_cases a n) as [Ha|Ha].
  - rewrite (nth_map_seq (fun a => if (a =? i)%nat then 2%nat else 0%nat)) by exact Ha. now destruct (a =? i).
  - rewrite nth_overflow by (rewrite map_length, seq_length; lia). destruct (Nat.eqb_spec a i); lia.
Qed.
Lemma unit11_two n i j : i < n -> j < n -> i <> j -> counts (unit11 n i j) = two i j.
Proof.
  intros Hi Hj D. extensionality a. unfold counts, unit11, two. destruct (Nat.lt_ge_cases a n) as [Ha|Ha].
  - rewrite (nth_map_seq (fun a => if (a =? i) || (a =? j) then 1%nat else 0%nat)) by exact Ha.
    destruct (Nat.eqb_spec a i), (Nat.eqb_spec a j); cbn; lia.
  - rewrite nth_overflow by (rewrite map_length, seq_length; lia).
    destruct (Nat.eqb_spec a i), (Nat.eqb_spec a j); lia.
Qed.
Lemma two_inj i j i' j' : two i j = two i' j' -> (i = i' /\ j = j') \/ (i = j' /\ j = i').
Proof.
  intros E. pose proof (f_equal (fun f => f i) E) as E1. pose proof (f_equal (fun f => f j) E) as E2.
  unfold two in E1, E2. rewrite !Nat.eqb_refl in *.
  destruct (Nat.eqb_spec i j), (Nat.eqb_spec i i'), (Nat.eqb_spec i j'), (Nat.eqb_spec j i), (Nat.eqb_spec j i'), (Nat.eqb_spec j j'); lia.
Qed.
Lemma one_inj k k' : one k = one k' -> k = k'.
Proof.
  intros E. apply (f_equal (fun f => f k)) in E. unfold one in E. rewrite Nat.eqb_refl in E.
  destruct (Nat.eqb_spec k k'); [assumption|discriminate].
Qed.

Lemma asym_ops_isolated fm1 fm2 n :
  asym_lists fm1 fm2 ->
  (forall i j, In (i, j) fm1 -> i < n /\ j < n) ->
  (forall i j k, In (i, j, k) fm2 -> i < n /\ j < n /\ k < n) ->
  isolated fm1 fm2 ->
  exists t ops,
    restst_tables n (ioff (n + 1)) (singles n) = Some t /\
    enrgy_ops (make_fermi_checks fm1 fm2) (singles n) t = Some ops /\
    NoDup (treated_levels ops) /\
    (forall o, In o ops -> exists i j k vp, resonant fm1 fm2 i j k /\ k < n /\
       nth_error (t_states t) (fst (op_levels o)) = Some (I1st vp) /\ counts vp = two i j /\ length vp = n /\ total vp = 2 /\
       nth_error (t_states t) (snd (op_levels o)) = Some (I1st (unit1 n k 1))) /\
    (forall i j k, resonant fm1 fm2 i j k -> exists o vp, In o ops /\ k < n /\
       nth_error (t_states t) (fst (op_levels o)) = Some (I1st vp) /\ counts vp = two i j /\
       nth_error (t_states t) (snd (op_levels o)) = Some (I1st (unit1 n k 1)) /\
       forall f3 : nat -> nat -> nat -> R, (forall i j k, f3 i j k = f3 j i k) -> (forall i j k, f3 i j k = f3 i k j) ->
         spec_coupling f3 o = cubic n f3 (ket n (two i j)) (one k)).
Proof.
  intros A B1 B2 [U1 U2].
  destruct (treated_asym_lemma fm1 fm2 n A B1 B2) as (t & ops & Et & Eo & Ho & C1 & C2).
  exists t, ops. split; [exact Et|]. split; [exact Eo|].
  assert (Ho' : forall o, In o ops -> exists i j k vp, source o = (i, j) /\ resonant fm1 fm2 i j k /\ k < n /\
       nth_error (t_states t) (fst (op_levels o)) = Some (I1st vp) /\ counts vp = two i j /\ length vp = n /\ total vp = 2 /\
       nth_error (t_states t) (snd (op_levels o)) = Some (I1st (unit1 n k 1))).
  { intros o Hin. destruct (Ho o Hin) as (p & q & Hl & Hpq & [(i & k & Hi & -> & S1 & S2)|(i & j & k & Hi & -> & S1 & S2)]).
    - destruct (B1 _ _ Hi) as [Li Lk]. exists i, i, k, (unit1 n i 2). cbn [source op_levels fst snd].
      split; [reflexivity|]. split; [left; auto|]. split; [exact Lk|]. split; [exact S1|]. split; [now apply unit1_two|].
      split; [unfold unit1; now rewrite map_length, seq_length|]. split; [now apply total_unit1|exact S2].
    - destruct (B2 _ _ _ Hi) as (Li & Lj & Lk). destruct A as [_ A2]. apply A2 in Hi as Hlt.
      exists j, i, k, (unit11 n j i). cbn [source op_levels fst snd].
      split; [reflexivity|]. split; [right; now right|]. split; [exact Lk|]. split; [exact S1|].
      split; [apply unit11_two; lia|].
      split; [unfold unit11; now rewrite map_length, seq_length|]. split; [apply total_unit11; lia|exact S2]. }
  destruct (states_asym_lemma n) as (t' & vs & Et' & Hs & Nvs & _).
  assert (t' = t) as -> by congruence.
  pose proof (ops_sources _ _ _ _ Eo) as Ns.
  split.
  { apply treated_nodup.
    - apply (NoDup_map_other source _ _ Ns). intros x y Hx Hy E.
      destruct (Ho x Hx) as (p & q & Hl & _ & Hx'). destruct (Ho y Hy) as (p' & q' & Hl' & _ & Hy').
      rewrite Hl, Hl' in E. cbn in E. subst p'.
      destruct Hx' as [(i & k & Hi & -> & S1 & _)|(i & j & k & Hi & -> & S1 & _)];
      destruct Hy' as [(i' & k' & Hi' & -> & S1' & _)|(i' & j' & k' & Hi' & -> & S1' & _)];
        rewrite S1 in S1'; injection S1' as S1'; cbn [source].
      + apply (f_equal counts) in S1'. apply B1 in Hi as [Li _]. apply B1 in Hi' as [Li' _].
        rewrite !unit1_two in S1' by assumption. apply two_inj in S1'. destruct S1' as [[-> _]|[-> _]]; reflexivity.
      + apply (f_equal counts) in S1'. apply B1 in Hi as [Li _]. pose proof (B2 _ _ _ Hi') as (Li' & Lj' & _).
        apply (proj2 A) in Hi'. rewrite unit1_two, unit11_two in S1' by lia. apply two_inj in S1'. lia.
      + apply (f_equal counts) in S1'. apply B1 in Hi' as [Li _]. pose proof (B2 _ _ _ Hi) as (Li' & Lj' & _).
        apply (proj2 A) in Hi. rewrite unit1_two, unit11_two in S1' by lia. apply two_inj in S1'. lia.
      + apply (f_equal counts) in S1'. pose proof (B2 _ _ _ Hi) as (Li & Lj & _). pose proof (B2 _ _ _ Hi') as (Li' & Lj' & _).
        apply (proj2 A) in Hi. apply (proj2 A) in Hi'. rewrite !unit11_two in S1' by lia. apply two_inj in S1'.
        destruct S1' as [[-> ->]|[-> ->]]; [reflexivity|lia].
    - apply (NoDup_map_other source _ _ Ns). intros x y Hx Hy E.
      destruct (Ho x Hx) as (p & q & Hl & _ & Hx'). destruct (Ho y Hy) as (p' & q' & Hl' & _ & Hy').
      rewrite Hl, Hl' in E. cbn in E. subst q'.
      assert (K : forall k k', k < n -> k' < n -> nth_error (t_states t) q = Some (I1st (unit1 n k 1)) ->
         nth_error (t_states t) q = Some (I1st (unit1 n k' 1)) -> k = k').
      { intros k k' Lk Lk' Q Q'. rewrite Q in Q'. injection Q' as Q'.
        apply (f_equal counts) in Q'. unfold counts in Q'. rewrite !unit1_one in Q' by assumption. now apply one_inj. }
      destruct Hx' as [(i & k & Hi & -> & _ & S1)|(i & j & k & Hi & -> & _ & S1)];
      destruct Hy' as [(i' & k' & Hi' & -> & _ & S1')|(i' & j' & k' & Hi' & -> & _ & S1')]; cbn [source].
      + assert (k = k') as <- by (apply K; auto; [now apply B1 in Hi|now apply B1 in Hi']).
        destruct (U2 i i i' i' k) as [[-> _]|[-> _]]; [left; auto|left; auto|reflexivity|reflexivity].
      + assert (k = k') as <- by (apply K; auto; [now apply B1 in Hi|now apply B2 in Hi']).
        destruct (U2 i i i' j' k) as [[-> Q]|[-> Q]]; [left; auto|right; left; auto| |];
          apply (proj2 A) in Hi'; lia.
      + assert (k = k') as <- by (apply K; auto; [now apply B2 in Hi|now apply B1 in Hi']).
        destruct (U2 i j i' i' k) as [[-> Q]|[-> Q]]; [right; left; auto|left; auto| |];
          apply (proj2 A) in Hi; lia.
      + assert (k = k') as <- by (apply K; auto; [now apply B2 in Hi|now apply B2 in Hi']).
        destruct (U2 i j i' j' k) as [[-> ->]|[-> ->]]; [right; left; auto|right; left; auto|reflexivity|].
        apply (proj2 A) in Hi. apply (proj2 A) in Hi'. lia.
    - intros x y Hx Hy E.
      destruct (Ho' x Hx) as (i & j & k & vp & _ & _ & _ & S1 & _ & _ & T & _).
      destruct (Ho' y Hy) as (i' & j' & k' & vp' & _ & _ & Lk & _ & _ & _ & _ & S2).
      rewrite E, S2 in S1. injection S1 as <-. rewrite total_unit1 in T by exact Lk. discriminate. }
  split.
  { intros o Hin. destruct (Ho' o Hin) as (i & j & k & vp & _ & Q). exists i, j, k, vp. exact Q. }
  assert (Base1 : forall i k, In (i, k) fm1 -> exists p q, In (Rs1 p q i k false) ops /\
     nth_error (t_states t) p = Some (I1st (unit1 n i 2)) /\ nth_error (t_states t) q = Some (I1st (unit1 n k 1))).
  { intros i k Hi. destruct (C1 i k Hi) as (p & q & Hin).
    { intros k' Hi'. apply (U1 i i k' k); left; auto. }
    exists p, q. split; [exact Hin|]. destruct (Ho _ Hin) as (p' & q' & Hl & _ & [(i' & k' & _ & Q & S1 & S2)|(i' & j' & k' & _ & Q & _)]); [|discriminate].
    injection Q as <- <- <- <-. auto. }
  assert (Base2 : forall i j k, In (i, j, k) fm2 -> exists p q, In (Rs2 p q j i k) ops /\
     nth_error (t_states t) p = Some (I1st (unit11 n j i)) /\ nth_error (t_states t) q = Some (I1st (unit1 n k 1))).
  { intros i j k Hi. destruct (C2 i j k Hi) as (p & q & Hin).
    { intros k' Hi'. apply (U1 i j k' k); right; left; auto. }
    exists p, q. split; [exact Hin|]. destruct (Ho _ Hin) as (p' & q' & Hl & _ & [(i' & k' & _ & Q & S1 & S2)|(i' & j' & k' & _ & Q & S1 & S2)]); [discriminate|].
    injection Q as <- <- <- <- <-. auto. }
  intros i j k Hr.
  assert (Two : forall a b, In (a, b, k) fm2 -> exists o vp, In o ops /\ k < n /\
       nth_error (t_states t) (fst (op_levels o)) = Some (I1st vp) /\ counts vp = two a b /\
       nth_error (t_states t) (snd (op_levels o)) = Some (I1st (unit1 n k 1)) /\
       forall f3 : nat -> nat -> nat -> R, (forall i j k, f3 i j k = f3 j i k) -> (forall i j k, f3 i j k = f3 i k j) ->
         spec_coupling f3 o = cubic n f3 (ket n (two a b)) (one k)).
  { intros a b Hi. destruct (Base2 a b k Hi) as (p & q & Hin & S1 & S2). destruct (B2 _ _ _ Hi) as (La & Lb & Lk).
    apply (proj2 A) in Hi. exists (Rs2 p q b a k), (unit11 n b a). cbn [op_levels fst snd].
    split; [exact Hin|]. split; [exact Lk|]. split; [exact S1|]. split; [rewrite two_swap; apply unit11_two; lia|]. split; [exact S2|].
    intros f3 A1 A2. rewrite two_swap, <- (unit11_two n b a), <- (unit1_one n k) by lia.
    change (fun ii => nth ii (unit1 n k 1) 0) with (counts (unit1 n k 1)). rewrite element2 by (auto; lia). reflexivity. }
  destruct Hr as [[<- Hi]|[Hi|Hi]].
  - destruct (Base1 i k Hi) as (p & q & Hin & S1 & S2). destruct (B1 _ _ Hi) as [Li Lk]. apply (proj1 A) in Hi.
    exists (Rs1 p q i k false), (unit1 n i 2). cbn [op_levels fst snd].
    split; [exact Hin|]. split; [exact Lk|]. split; [exact S1|]. split; [now apply unit1_two|]. split; [exact S2|].
    intros f3 A1 A2. rewrite <- (unit1_two n i), <- (unit1_one n k) by lia.
    change (fun ii => nth ii (unit1 n k 1) 0) with (counts (unit1 n k 1)). rewrite element1 by (auto; lia). reflexivity.
  - apply Two, Hi.
  - rewrite two_swap. apply Two, Hi.
Qed.

Lemma e0_excess_ext n w f3 f3' res : 
  (forall i j k, i < n -> j < n -> k < n -> f3 i j k = f3' i j k) -> e0_excess n w f3 res = e0_excess n w f3' res.
Proof.
  intros E. unfold e0_excess. f_equal.
  - apply Rsum_ext. intros k Hk%in_seq. apply Rsum_ext. intros l Hl%in_seq. now rewrite !E by lia.
  - apply Rsum_ext. intros k Hk%in_seq. apply Rsum_ext. intros l Hl%in_seq. apply Rsum_ext. intros q Hq%in_seq.
    now rewrite !E by lia.
Qed.

Local Open Scope R_scope.

Section Fermi.
  Context {I : Type}.
  Variables (eig2 : R -> R -> R -> R * R * (R * R))
    (eig : (nat -> nat -> R) -> list R * (nat -> nat -> R))
    (label : (nat -> R * R * R) -> (nat -> nat -> R) -> nat -> R -> option I) (A : I)
    (buddy : option nat).
  Context `{Trig R}.
  Hypothesis Hc : forall a b c, eig_ok eig2 a b c.

  Lemma finish_fermi m freql f3l f4l (irreps : list I) lxm lx o F3 F4 :
    let n := m_nvib m in
    let w := fun i => nth i freql 0 in
    let zeta := zeta_of (m_natom m) lxm in
    let B := m_rotcon m in
    let fm1 := rs_fermi1 (out_resonances o) in
    let fm2 := rs_fermi2 (out_resonances o) in
    m_rotor m = AsymmTop ->
    finish eig2 false m freql f3l f4l irreps lxm lx = Some o ->
    (forall i j k, (i < n)%nat -> (j < n)%nat -> (k < n)%nat -> f3qcm_get f3l i j k = Some (F3 i j k)) ->
    (forall i j k l, (i < n)%nat -> (j < n)%nat -> (k < n)%nat -> (l < n)%nat ->
       f4qcm_get f4l i j k l = Some (F4 i j k l)) ->
    (forall i, (i < n)%nat -> 0 < w i) ->
    (forall a b, (a <= b)%nat -> (b < n)%nat -> w b <= w a) ->
    (forall i, ~ In (i, i) fm1) -> isolated fm1 fm2 ->
    forall res, reported fm1 fm2 res ->
    (forall i j k, (i < n)%nat -> (j < n)%nat -> (k < n)%nat -> res i j k = false -> w i + w j <> w k) ->
    o_harms (out_lists o) = map w (seq 0 n) /\ length (o_funds (out_lists o)) = n /\
    length (o_corrs (out_lists o)) = n /\
    forall U, (forall v, intermediate n F3 v (U v)) ->
      let E v := perturbed n w F3 F4 zeta B res v (U v) in
      let T v := E v - E ground in
      out_zpt o = E ground + angular_shift n zeta B + e0_excess n w F3 res /\
      (forall k, (k < n)%nat -> nth_error (o_funds (out_lists o)) k = Some (T (one k))) /\
      (forall k, (k < n)%nat -> (forall i j, ~ resonant fm1 fm2 i j k) ->
         nth_error (o_corrs (out_lists o)) k = Some (T (one k))) /\
      (forall i j k, resonant fm1 fm2 i j k -> exists c c', nth_error (o_corrs (out_lists o)) k = Some c /\
         two_level (T (two i j)) (T (one k)) (cubic n F3 (ket n (two i j)) (one k)) c' c).
  Proof.
    intros n w zeta B fm1 fm2 Hr E HF3 HF4 Hw Hmono Hii Iso res Hres Hd.
    destruct (finish_inv _ _ _ _ _ _ _ _ _ E) as (sym & x & g & e0 & lev & eng & rows & _ & Er & Es & Ex & Ep & _ & Ee & El & _ & _ & _ & Ez & _).
    rewrite Hr in *. cbn in Es. injection Es as <-.
    set (rs := out_resonances o) in *.
    set (f3 := fun i j k => nth (find3 i j k) f3l (nz 0)) in *.
    set (f4 := fun i j k l => nth (find4 i j k l) f4l (nz 0)) in *.
    assert (Wf : (fun i => nth i freql (nz 0)) = w) by (unfold w; rewrite nz_R; reflexivity).
    rewrite Wf in *.
    assert (Dm : deg_modes AsymmTop n w = Some (singles n)) by (apply deg_modes_asym_lemma; auto).
    assert (Em : rs_modes rs = singles n /\ restst_tables n (ioff (n + 1)) (singles n) = Some (rs_tables rs) /\
      fermi1 AsymmTop (singles n) w f3 = Some fm1 /\ fermi2 AsymmTop (singles n) w f3 = Some fm2).
    { unfold restst_new in Er. fold n in Er. rewrite Dm in Er. cbn [obind] in Er.
      match type of Er with obind ?a _ = _ => destruct a as [y|]; [|discriminate] end. cbn [obind] in Er.
      match type of Er with obind ?a _ = _ => destruct a as [y1|] eqn:E1; [|discriminate] end. cbn [obind] in Er.
      match type of Er with obind ?a _ = _ => destruct a as [y2|] eqn:E2; [|discriminate] end. cbn [obind] in Er.
      match type of Er with obind ?a _ = _ => destruct a as [y3|]; [|discriminate] end. cbn [obind] in Er.
      match type of Er with obind ?a _ = _ => destruct a as [t|] eqn:Et; [|discriminate] end. cbn [obind] in Er.
      injection Er as Er. unfold fm1, fm2. rewrite <- Er. cbn [rs_modes rs_tables rs_fermi1 rs_fermi2]. auto. }
    destruct Em as (Em & Et & Ef1 & Ef2). rewrite Em in *.
    fold fm1 fm2 in Ex, Ee.
    destruct (fermi1_exact_lemma n w f3 (singles n) Dm) as (l1 & Q1 & _ & S1). rewrite Ef1 in Q1. injection Q1 as <-.
    destruct (fermi2_exact_lemma n w f3 (singles n) Hmono Dm) as (l2 & Q2 & _ & S2). rewrite Ef2 in Q2. injection Q2 as <-.
    assert (AL : asym_lists fm1 fm2).
    { split; [intros i j Hi ->; now apply (Hii j)|]. intros i j k Hi. apply S2 in Hi. lia. }
    assert (B1 : forall i j, In (i, j) fm1 -> (i < n)%nat /\ (j < n)%nat) by (intros i j Hi; apply S1 in Hi; tauto).
    assert (B2 : forall i j k, In (i, j, k) fm2 -> (i < n)%nat /\ (j < n)%nat /\ (k < n)%nat) by (intros i j k Hi; apply S2 in Hi; lia).
    set (zm := zmat (m_natom m) lxm) in *.
    apply some_triple in Ex as (<- & <- & <-).
    assert (Z : zm = zeta). { unfold zm, zeta. extensionality i. extensionality j. extensionality a. apply zeta_of_zmat. }
    rewrite Z in *. clear Z zm.
    fold n in Ep, El. fold B in Ep, El.
    set (x := xcalc n f4 w f3 zeta B fm1 fm2) in *.
    set (e0 := make_e0 f4 w f3 (make_fermi_checks fm1 fm2) (singles n)) in *.
    assert (T3 : forall i j k, (i < n)%nat -> (j < n)%nat -> (k < n)%nat -> f3 i j k = F3 i j k).
    { intros i j k Hi Hj Hk. specialize (HF3 i j k Hi Hj Hk). unfold f3qcm_get in HF3.
      unfold f3. now apply nth_error_nth. }
    assert (T4 : forall i j k l, (i < n)%nat -> (j < n)%nat -> (k < n)%nat -> (l < n)%nat -> f4 i j k l = F4 i j k l).
    { intros i j k l Hi Hj Hk Hl. specialize (HF4 i j k l Hi Hj Hk Hl). unfold f4qcm_get in HF4.
      unfold f4. now apply nth_error_nth. }
    assert (f3a : forall i j k, f3 i j k = f3 j i k) by (intros; unfold f3; f_equal; apply find3_perm, perm_swap).
    assert (f3b : forall i j k, f3 i j k = f3 i k j) by (intros; unfold f3; f_equal; apply find3_perm, perm_skip, perm_swap).
    set (shift := angular_shift n zeta B + e0_excess n w F3 res).
    assert (Lv : forall v v2 us, intermediate n F3 v us ->
      level w (singles n) x None e0 v v2 = Some (perturbed n w F3 F4 zeta B res v us + shift)).
    { intros v v2 us Hu. unfold x, e0.
      rewrite (levels_second_order_lemma n w f3 f4 zeta B None fm1 fm2 res v v2 us).
      - f_equal. rewrite (perturbed_ext n w f3 F3 f4 F4) by assumption.
        rewrite (e0_excess_ext n w f3 F3) by assumption. unfold shift. lra.
      - exact f3a.
      - exact f3b.
      - intros. unfold f4. f_equal. apply find4_perm. apply perm_swap.
      - intros. unfold f4. f_equal. apply find4_perm. apply perm_skip, perm_swap.
      - intros. unfold f4. f_equal. apply find4_perm. do 2 apply perm_skip. apply perm_swap.
      - intros i j a. unfold zeta, zeta_of. rewrite <- Rsum_opp. apply Rsum_ext. intros q _. destruct a as [|[|a]]; lra.
      - exact Hres.
      - exact AL.
      - intros i j j' Hi Hj. apply (proj1 Iso i i); left; auto.
      - exact Hw.
      - intros i j k Hi Hj Hk Hf. specialize (Hd i j k Hi Hj Hk Hf). lra.
      - apply (intermediate_ext n F3); [intros; symmetry; now apply T3|exact Hu]. }
    destruct (states_asym_lemma n) as (t' & vs & Et' & Hs & Nvs & _ & _ & Hvs).
    assert (t' = rs_tables rs) as -> by congruence.
    assert (Hg : (None : option (nat -> nat -> R)) <> None \/ n2dm (singles n) = 0%nat) by (right; apply n2dm_singles).
    assert (Ee' : lev = map (state_energy (singles n) w x None e0) (t_states (rs_tables rs))).
    { rewrite part1_R in Ep by exact Hg. congruence. }
    assert (Lev : forall q v, nth_error (t_states (rs_tables rs)) q = Some (I1st v) ->
      forall us, intermediate n F3 (counts v) us ->
      nth_error lev q = Some (perturbed n w F3 F4 zeta B res (counts v) us + shift)).
    { intros q v Hq us Hu. rewrite Ee', nth_error_map, Hq. cbn [option_map]. f_equal.
      specialize (Lv (counts v) (fun _ => (0%nat, 0%nat)) us Hu).
      rewrite level_R in Lv by exact Hg. injection Lv as Lv. rewrite <- Lv. unfold state_energy. cbn [state_i1].
      unfold spec_level. rewrite n2dm_singles. cbn [seq Rsum fold_right]. reflexivity. }
    assert (P0 : nth_error (t_states (rs_tables rs)) 0 = Some (I1st (repeat 0%nat n))) by (rewrite Hs, Hvs; reflexivity).
    assert (Pk : forall k, (k < n)%nat -> nth_error (t_states (rs_tables rs)) (k + 1) = Some (I1st (unit1 n k 1))).
    { intros k Hk. rewrite Hs, Hvs, Nat.add_1_r. cbn [app map nth_error].
      rewrite map_app, nth_error_app1 by (rewrite !map_length, seq_length; lia).
      rewrite map_map, nth_error_map_seq by lia. reflexivity. }
    assert (R0 : counts (repeat 0%nat n) = ground) by (extensionality ii; apply nth_repeat_0).
    assert (R1 : forall k, (k < n)%nat -> counts (unit1 n k 1) = one k) by (intros; now apply unit1_one).
    assert (NS : forall p q s, nth_error (t_states (rs_tables rs)) p = Some s -> nth_error (t_states (rs_tables rs)) q = Some s -> p = q).
    { intros p q s Hp Hq. rewrite Hs in Hp, Hq. rewrite nth_error_map in Hp, Hq.
      destruct (nth_error vs p) as [v|] eqn:Ev; [|discriminate]. destruct (nth_error vs q) as [v'|] eqn:Ev'; [|discriminate].
      cbn in Hp, Hq. injection Hp as <-. injection Hq as <-.
      apply (proj1 (NoDup_nth_error vs) Nvs); [apply nth_error_Some; congruence|congruence]. }
    assert (Ll : length lev = length (t_states (rs_tables rs))) by (rewrite Ee'; apply map_length).
    (* the two-level problems *)
    destruct (asym_ops_isolated fm1 fm2 n AL B1 B2 Iso) as (t'' & ops & Et'' & Eops & Nd & O1 & O2).
    assert (t'' = rs_tables rs) as -> by congruence.
    unfold enrgy in Ee. rewrite Eops in Ee. cbn [obind] in Ee.
    assert (Keep : forall r, ~ In r (treated_levels ops) -> nth_error eng r = nth_error lev r).
    { intros r Hr'. apply (ofold_rsfrm_keeps eig2 f3 ops lev eng r Ee). intros o' Ho'.
      destruct (treated_in o' ops Ho'). split; intros ->; auto. }
    assert (Zero : forall o', In o' ops -> fst (op_levels o') <> 0%nat /\ snd (op_levels o') <> 0%nat).
    { intros o' Ho'. destruct (O1 o' Ho') as (i & j & k & vp & _ & Lk & Q1 & _ & _ & Tv & Q2). split; intros Q0.
      - rewrite Q0, P0 in Q1. injection Q1 as <-. rewrite total_repeat in Tv. discriminate.
      - rewrite Q0, P0 in Q2. injection Q2 as Q2. apply (f_equal total) in Q2.
        rewrite total_repeat, total_unit1 in Q2 by exact Lk. discriminate. }
    assert (E0 : nth_error eng 0 = nth_error lev 0).
    { apply Keep. intros Q. apply in_flat_map in Q as (o' & Ho' & [Q|[Q|[]]]); now apply Zero in Ho'. }
    assert (Le : length eng = length lev).
    { clear - Ee O1. revert Ee. generalize lev. clear O1. induction ops as [|o' ops IH]; intros l Q; cbn [ofold] in Q; [now injection Q as <-|].
      destruct (rsfrm eig2 f3 o' l) as [l'|] eqn:E; [|discriminate]. rewrite (IH l' Q).
      destruct (Nat.lt_ge_cases (fst (op_levels o')) (length l)) as [L1|L1].
      - destruct (Nat.lt_ge_cases (snd (op_levels o')) (length l)) as [L2|L2].
        + destruct (rsfrm_total eig2 f3 o' l L1 L2) as (l2 & E2 & L). congruence.
        + unfold rsfrm in E. destruct (op_levels o') as [p q]. cbn [fst snd] in *.
          destruct (nth_error l p); [|discriminate]. cbn [obind] in E.
          apply nth_error_None in L2. rewrite L2 in E. discriminate.
      - unfold rsfrm in E. destruct (op_levels o') as [p q]. cbn [fst snd] in *.
        apply nth_error_None in L1. rewrite L1 in E. discriminate. }
    (* the lists *)
    unfold finish_lists in El. unfold reported_harms in El. fold n in El.
    destruct (Nat.ltb_spec (length freql) n) as [|Lf]; [discriminate|]. cbn [obind] in El.
    rewrite Wf in El.
    destruct (corrs (singles n) eng) as [cs|] eqn:Ec2; [|discriminate]. cbn [obind] in El.
    injection El as El. rewrite <- El. cbn [o_harms o_funds o_corrs].
    assert (Lt : (n + 1 <= length lev)%nat).
    { rewrite Ll, Hs, Hvs, map_length, !app_length, !map_length, !seq_length. cbn [length]. lia. }
    destruct (nth_error lev 0) as [z|] eqn:Ez0; [|apply nth_error_None in Ez0; lia].
    assert (Cs : cs = map (fun k => nth (k + 1) eng 0 - z) (seq 0 n)).
    { unfold corrs in Ec2. rewrite n1dm_singles, n2dm_singles, n3dm_singles in Ec2.
      set (step := fun (acc : list R) i => let* x := nth_error eng i in let* e0 := nth_error eng 0 in Some (acc ++ [nsub x e0])) in Ec2.
      assert (St : forall acc i, (i < length eng)%nat -> step acc i = Some (acc ++ [nth i eng 0 - z])).
      { intros acc i Hi. unfold step. rewrite (nth_error_nth' eng 0 Hi), E0. reflexivity. }
      assert (Q : forall l acc, (forall i, In i l -> (i < length eng)%nat) ->
        ofold step l acc = Some (acc ++ map (fun i => nth i eng 0 - z) l)).
      { clear - St. induction l as [|i l IH]; intros acc Hl; cbn [ofold map]; [now rewrite app_nil_r|].
        rewrite St by (apply Hl; now left).
        rewrite IH by (intros; apply Hl; now right). now rewrite <- app_assoc. }
      rewrite Q in Ec2 by (intros i Hi%in_range; lia).
      cbn [app] in Ec2. apply (f_equal (fun o => match o with Some l => l | None => [] end)) in Ec2. rewrite <- Ec2.
      unfold range. replace (n + 0 + 0 + 1 - 1)%nat with n by lia.
      rewrite <- seq_shift, map_map. apply map_ext. intros k. now rewrite Nat.add_1_r. }
    rewrite Cs.
    destruct (funds_asym_lemma n w x None e0) as (t2 & eng2 & Et2 & Ep2 & Lfu & Fu).
    { intros i j. apply xcalc_sym_lemma. }
    assert (t2 = rs_tables rs) as -> by congruence.
    assert (eng2 = lev) as -> by congruence.
    split.
    { clear - Lf. subst w. apply list_ext; [rewrite firstn_length, map_length, seq_length; lia|].
      intros i Hi. rewrite firstn_length in Hi. rewrite nth_error_map_seq by lia.
      assert (F : forall (l : list R) m j, (j < m)%nat -> nth_error (firstn m l) j = nth_error l j).
      { clear. intros l. induction l as [|a l IH]; intros [|m] [|j] Hj; cbn; try lia; try reflexivity. apply IH; lia. }
      rewrite F by lia. apply nth_error_nth'. lia. }
    split; [exact Lfu|].
    split; [now rewrite map_length, seq_length|].
    intros U HU.
    set (E1 := fun v => perturbed n w F3 F4 zeta B res v (U v)). set (T := fun v => E1 v - E1 ground).
    change (out_zpt o = E1 ground + angular_shift n zeta B + e0_excess n w F3 res /\
      (forall k, (k < n)%nat -> nth_error (make_funds n w x) k = Some (T (one k))) /\
      (forall k, (k < n)%nat -> (forall i j, ~ resonant fm1 fm2 i j k) ->
         nth_error (map (fun k => nth (k + 1) eng 0 - z) (seq 0 n)) k = Some (T (one k))) /\
      (forall i j k, resonant fm1 fm2 i j k -> exists c c', nth_error (map (fun k => nth (k + 1) eng 0 - z) (seq 0 n)) k = Some c /\
         two_level (T (two i j)) (T (one k)) (cubic n F3 (ket n (two i j)) (one k)) c' c)).
    assert (G0 : z = E1 ground + shift).
    { pose proof (Lev 0%nat _ P0 (U ground)) as Q. rewrite R0 in Q. specialize (Q (HU ground)). unfold E1. congruence. }
    assert (Gk : forall k, (k < n)%nat -> nth_error lev (k + 1) = Some (E1 (one k) + shift)).
    { intros k Hk. pose proof (Lev (k + 1)%nat _ (Pk k Hk) (U (one k))) as Q. rewrite R1 in Q by exact Hk. exact (Q (HU _)). }
    split.
    { assert (Q : Some (out_zpt o) = Some z) by congruence. injection Q as ->. rewrite G0. unfold shift. lra. }
    split.
    { intros k Hk. destruct (Fu k Hk) as (p & Ei & E0' & _ & Hp & Hi & Hz & Hf). rewrite Hf. f_equal.
      assert (p = (k + 1)%nat) as -> by (apply (NS _ _ _ Hp (Pk k Hk))). rewrite (Gk k Hk) in Hi. injection Hi as <-.
      rewrite Ez0 in Hz. injection Hz as <-. unfold T. lra. }
    assert (Corr : forall k, (k < n)%nat -> nth_error (map (fun k => nth (k + 1) eng 0 - z) (seq 0 n)) k = Some (nth (k + 1) eng 0 - z)).
    { intros k Hk. now rewrite nth_error_map_seq. }
    split.
    { intros k Hk Hno. rewrite Corr by exact Hk. f_equal.
      assert (Q : nth_error eng (k + 1) = Some (E1 (one k) + shift)).
      { rewrite Keep; [now apply Gk|]. intros Q. apply in_flat_map in Q as (o' & Ho' & Q).
        destruct (O1 o' Ho') as (i & j & k' & vp & Hres' & Lk & Q1 & _ & _ & Tv & Q2).
        destruct Q as [Q|[Q|[]]]; rewrite Q in *.
        - rewrite (Pk k Hk) in Q1. injection Q1 as <-. rewrite total_unit1 in Tv by exact Hk. discriminate.
        - rewrite (Pk k Hk) in Q2. injection Q2 as Q2. apply (f_equal counts) in Q2. rewrite !R1 in Q2 by assumption.
          apply one_inj in Q2 as <-. now apply (Hno i j). }
      rewrite (nth_error_nth eng _ 0 Q). unfold T. lra. }
    intros i j k Hres'.
    destruct (O2 i j k Hres') as (o' & vp & Ho' & Lk & Q1 & Cv & Q2 & Cp).
    destruct (op_levels o') as [p q] eqn:Hl. cbn [fst snd] in Q1, Q2.
    assert (q = (k + 1)%nat) as -> by (apply (NS _ _ _ Q2 (Pk k Lk))).
    assert (Gp : nth_error lev p = Some (E1 (two i j) + shift)).
    { pose proof (Lev p _ Q1 (U (two i j))) as Q. rewrite Cv in Q. exact (Q (HU _)). }
    destruct (fold_disjoint eig2 f3 ops Hc Nd lev eng z Zero Ez0 Ee o' p (k + 1)%nat _ _ Ho' Hl Gp (Gk k Lk))
      as (Ep' & Eq' & Np' & Nq' & Tl).
    exists (Eq' - z), (Ep' - z). split.
    - rewrite Corr by exact Lk. now rewrite (nth_error_nth eng _ 0 Nq').
    - rewrite (Cp f3 f3a f3b) in Tl.
      rewrite (cubic_ext n f3 F3) in Tl by exact T3.
      replace (E1 (two i j) + shift - z) with (T (two i j)) in Tl by (unfold T; lra).
      replace (E1 (one k) + shift - z) with (T (one k)) in Tl by (unfold T; lra).
      exact Tl.
  Qed.

  Lemma run_fermi_lemma m axes iatom order fc2 f3x f4x :
    let N := m_natom m in
    let n := m_nvib m in
    let B := m_rotcon m in
    m_rotor m = AsymmTop -> (2 < nth 7 (m_header m) 4)%Z ->
    (0 < N)%nat -> (0 < n <= 3 * N)%nat ->
    (forall q, (q < N)%nat -> 0 < m_w m q) ->
    sym2 (3 * N) fc2 -> tsym3 (3 * N) f3x -> tsym4 (3 * N) f4x ->
    solves (3 * N) eig (secular N axes fc2 (m_w m)) ->
    exists fuel0 freq lx,
      let w := fun i => nth i freq 0 in
      let hess := fun a b => FACT2 * con2 (3 * N) (every_atom axes) fc2 a b in
      let F3 := cubic_spec (3 * N) (con3 (3 * N) (every_atom axes) f3x) lx w in
      let F4 := quartic_spec (3 * N) (con4 (3 * N) (every_atom axes) f4x) lx w in
      let zeta := zeta_of N (fun a i => sqrt (m_w m (a / 3)%nat) * lx a i) in
      (forall i j, (i < 3 * N)%nat -> (j < 3 * N)%nat ->
         Sum (3 * N) (fun a => m_w m (a / 3)%nat * lx a i * lx a j) = (if Nat.eqb i j then 1 else 0)) /\
      (forall i j, (i < 3 * N)%nat -> (j < 3 * N)%nat -> i <> j -> con2 (3 * N) lx hess i j = 0) /\
      (forall i, (i < 3 * N)%nat -> nth_error freq i = Some (to_wavenumber (con2 (3 * N) lx hess i i))) /\
      StronglySorted Rge freq /\
      ((forall i, (i < n)%nat -> 0 < w i) ->
       forall fuel, (fuel0 <= fuel)%nat ->
       exists o, run eig2 eig label A fuel buddy false m axes iatom order (Quartic fc2 f3x f4x) = Some (FullResult o) /\
       let fm1 := rs_fermi1 (out_resonances o) in
       let fm2 := rs_fermi2 (out_resonances o) in
       ((forall i, ~ In (i, i) fm1) -> isolated fm1 fm2 ->
        forall res, reported fm1 fm2 res ->
        (forall i j k, (i < n)%nat -> (j < n)%nat -> (k < n)%nat -> res i j k = false -> w i + w j <> w k) ->
        o_harms (out_lists o) = map w (seq 0 n) /\ length (o_funds (out_lists o)) = n /\
        length (o_corrs (out_lists o)) = n /\
        forall U, (forall v, intermediate n F3 v (U v)) ->
          let E v := perturbed n w F3 F4 zeta B res v (U v) in
          let T v := E v - E ground in
          out_zpt o = E ground + angular_shift n zeta B + e0_excess n w F3 res /\
          (forall k, (k < n)%nat -> nth_error (o_funds (out_lists o)) k = Some (T (one k))) /\
          (forall k, (k < n)%nat -> (forall i j, ~ resonant fm1 fm2 i j k) ->
             nth_error (o_corrs (out_lists o)) k = Some (T (one k))) /\
          (forall i j k, resonant fm1 fm2 i j k -> exists c c', nth_error (o_corrs (out_lists o)) k = Some c /\
             two_level (T (two i j)) (T (one k)) (cubic n F3 (ket n (two i j)) (one k)) c' c))).
  Proof.
    intros N n B Hr Hd HN Hn Hw S2 S3 S4 Sv.
    destruct labels_end_R as (f0 & Hf0).
    destruct (normal_modes_lemma N axes fc2 (m_w m) eig S2 Hw Sv) as (freq & lxm & Eh & Lf & M1 & M2 & M3 & M4).
    set (lx := make_lx (3 * N) (make_sqm (m_w m)) lxm) in *.
    exists f0, freq, lx. cbv zeta.
    split; [exact M1|]. split; [exact M2|]. split; [exact M3|]. split; [exact M4|].
    set (w := fun i => nth i freq 0). intros Pw fuel Hfu.
    assert (Wf : (fun i => nth i freq (nz 0)) = w) by (unfold w; rewrite nz_R; reflexivity).
    destruct (run_prefix eig2 eig label A fuel buddy false m axes iatom order (Quartic fc2 f3x f4x)
      freq lxm lxm lx) as (irreps & Li & _ & Er).
    { rewrite Hr; discriminate. } { rewrite Hr; discriminate. } { now apply Hf0. } { exact Eh. }
    { unfold aligned. rewrite Hr. split; reflexivity. }
    rewrite Wf in Er.
    destruct (force3_lemma (3 * N) (rot3rd N (3 * N) axes f3x) lx n w (proj1 Hn) (proj1 (proj2 (rot_sym_lemma N axes)) f3x S3))
      as (f3l & E3 & _ & G3).
    destruct (force4_lemma (3 * N) (rot4th N (3 * N) axes f4x) lx n w (proj1 Hn) (proj2 (proj2 (rot_sym_lemma N axes)) f4x S4))
      as (f4l & E4 & _ & G4).
    fold N n in Er. rewrite E3 in Er. cbn [obind] in Er. rewrite E4 in Er. cbn [obind] in Er.
    destruct (finish_total_lemma eig2 m freq f3l f4l irreps lxm lx (singles n)) as (o & Eo & _).
    { rewrite Hr; discriminate. } { rewrite Hr; discriminate. }
    { rewrite Hr. apply deg_modes_asym_lemma; auto. } { apply singles_part. } { apply comparable_R. }
    { fold n. lia. } { exact HN. } { intros _. exact Hd. }
    rewrite Eo in Er. cbn [obind] in Er. exists o. split; [exact Er|].
    intros Hii Iso res Hres Hdn.
    assert (Z : forall i j a, (i < n)%nat -> (j < n)%nat ->
       zeta_of N lxm i j a = zeta_of N (fun a i => sqrt (m_w m (a / 3)%nat) * lx a i) i j a).
    { intros i j a Hi Hj.
      assert (L : forall a i, (a < 3 * N)%nat -> (i < n)%nat -> lxm a i = sqrt (m_w m (a / 3)%nat) * lx a i).
      { intros a' i' Ha' Hi'. unfold lx. rewrite make_lx_eq by lia. unfold make_sqm. rewrite nz_R.
        cbn [nmul ndiv nsqrt Rnum].
        assert (0 < sqrt (m_w m (a' / 3)%nat)).
        { apply sqrt_lt_R0, Hw. apply Nat.div_lt_upper_bound; lia. }
        field. lra. }
      unfold zeta_of. apply Rsum_ext. intros q Hq%in_seq.
      rewrite (L (3 * q)%nat i), (L (3 * q + 1)%nat i), (L (3 * q + 2)%nat i),
        (L (3 * q)%nat j), (L (3 * q + 1)%nat j), (L (3 * q + 2)%nat j) by lia. reflexivity. }
    set (F3 := cubic_spec (3 * N) (con3 (3 * N) (every_atom axes) f3x) lx w).
    set (F4 := quartic_spec (3 * N) (con4 (3 * N) (every_atom axes) f4x) lx w).
    set (zeta := zeta_of N (fun a i => sqrt (m_w m (a / 3)%nat) * lx a i)) in *.
    assert (Mono : forall a b, (a <= b)%nat -> (b < n)%nat -> w b <= w a).
    { intros a b Hab Hb. destruct (Nat.eq_dec a b) as [->|D]; [lra|].
      assert (Q : forall (l : list R), StronglySorted Rge l -> forall a b, (a < b)%nat -> (b < length l)%nat -> nth b l 0 <= nth a l 0).
      { clear. intros l Hl. induction Hl as [|x l Hl IH Hx]; intros a b Hab Hb; [cbn in Hb; lia|].
        destruct b as [|b]; [lia|]. destruct a as [|a]; cbn [nth length] in *.
        - rewrite Forall_forall in Hx. apply Rge_le, Hx, nth_In. lia.
        - apply IH; lia. }
      apply Q; [exact M4|lia|lia]. }
    destruct (finish_fermi m freq f3l f4l irreps lxm lx o F3 F4 Hr Eo) with (res := res) as (Q1 & Q2 & Q3 & Q4); try assumption.
    { intros i j k Hi Hj Hk. unfold F3. rewrite G3 by assumption. f_equal. unfold cubic_spec. f_equal.
      apply con3_g. intros. now apply rot3rd_lemma. }
    { intros i j k l Hi Hj Hk Hl. unfold F4. rewrite G4 by assumption. f_equal. unfold quartic_spec. f_equal.
      apply con4_g. intros. now apply rot4th_lemma. }
    split; [exact Q1|]. split; [exact Q2|]. split; [exact Q3|].
    intros U HU. specialize (Q4 U HU). cbv zeta in Q4. fold N n w B in Q4.
    assert (PZ : forall v us, perturbed n w F3 F4 (zeta_of N lxm) B res v us = perturbed n w F3 F4 zeta B res v us)
      by (intros; now apply perturbed_zeta).
    destruct Q4 as (Q5 & Q6 & Q7 & Q8).
    split. { rewrite Q5, PZ. now rewrite (angular_shift_ext n _ zeta) by exact Z. }
    split. { intros k Hk. rewrite (Q6 k Hk). now rewrite !PZ. }
    split. { intros k Hk Hno. rewrite (Q7 k Hk Hno). now rewrite !PZ. }
    intros i j k Hk. destruct (Q8 i j k Hk) as (c & c' & Q9 & Q10). exists c, c'. split; [exact Q9|].
    now rewrite !PZ in Q10.
  Qed.
End Fermi.
