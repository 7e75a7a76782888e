(** Model of the text form of a result. *)
From Coq Require Import List ZArith NArith Arith Bool Ascii String.
From Verif Require Import Num Loops Index Text Modes Anharm VibRot Distort Transform SymAnharm Polyads
  Report Geom Finish.
Import ListNotations.
Open Scope list_scope.
Open Scope nat_scope.

(** [{:^w}]: centred, the odd space on the right *)
Definition centre (w : nat) (t : text) : text :=
  let d := w - List.length t in
  repeat space (d / 2) ++ t ++ repeat space (d - d / 2).

(** [{:5}] of a [usize] *)
Definition int5 (n : nat) : text := pad 5 (show_N (N.of_nat n)).

(** state.rs:111-133 [Display for State]; [None] is the [todo!] *)
Definition state_text (s : state) : option text :=
  let num n := show_N (N.of_nat n) in
  match s with
  | I1st v => Some (List.concat (map int5 v))
  | I2st v => Some (List.concat (map (fun '(a, b) => lit "(" ++ num a ++ lit "," ++ num b ++ lit ")") v))
  | I3st _ => None
  | I12st v u =>
      Some (List.concat (map (fun '(a, (b, c)) =>
        lit "(" ++ num a ++ lit "," ++ num b ++ lit "," ++ num c ++ lit ")") (combine v u)))
  end.

(** state.rs:37-47 [State::len]; [None] is the failed assertion *)
Definition state_len (s : state) : option nat :=
  match s with
  | I1st v => Some (List.length v)
  | I2st v => Some (List.length v)
  | I3st v => Some (List.length v)
  | I12st v u => if List.length v =? List.length u then Some (List.length v) else None
  end.

(** resonance.rs:28-36 [Display for Axis]; resonance.rs:46-55 is the panic *)
Definition axis_text (x : nat) : option text :=
  match x with
  | 0 => Some (lit "A")
  | 1 => Some (lit "B")
  | 2 => Some (lit "C")
  | _ => None
  end.

Section OutText.
  Context {F I : Type} `{Num F} `{FText F}.

  (** [eprint p x] is [{:.pe}] of the standard library, without padding *)
  Variable eprint : nat -> F -> text.
  (** [ishow w i] is [{:>w}] of a label of the crate symm *)
  Variable ishow : nat -> I -> text.

  (** rot.rs:39-47 [Display for Rot] *)
  Definition rot_text (r : rot F) : option text :=
    let* s := state_text (rot_state r) in
    Some (s ++ pad 12 (fprint 7 (rot_a r)) ++ pad 12 (fprint 7 (rot_b r)) ++ pad 12 (fprint 7 (rot_c r))).

  (** quartic.rs:163-187 [Display for Quartic] outside of tests, line by line *)
  Definition quartic_lines (q : quartic F) : list text :=
    let v x := pad 20 (fprint 12 x) in
    [lit "Watson A Reduction";
     lit "Delta  J: " ++ v (delj q);
     lit "Delta  K: " ++ v (delk q);
     lit "Delta JK: " ++ v (deljk q);
     lit "delta  J: " ++ v (sdelj q);
     lit "delta  k: " ++ v (sdelk q);
     [];
     lit "Watson S Reduction";
     lit "D J : " ++ v (dj q);
     lit "D JK: " ++ v (djk q);
     lit "D K : " ++ v (dk q);
     lit "d 1 : " ++ v (sd1 q);
     lit "d 2 : " ++ v (sd2 q);
     [];
     lit "Linear Molecules";
     lit "De  : " ++ v (de q)].

  (** sextic.rs:575-606 [Display for Sextic] outside of tests, line by line *)
  Definition sextic_lines (s : sextic F) : list text :=
    let v x := pad 20 (eprint 12 x) in
    [lit "Watson A Reduction";
     lit "Phi  J: " ++ v (phij s);
     lit "Phi  K: " ++ v (phik s);
     lit "Phi JK: " ++ v (phijk s);
     lit "Phi KJ: " ++ v (phikj s);
     lit "phi  J: " ++ v (sphij s);
     lit "phi JK: " ++ v (sphijk s);
     lit "phi  k: " ++ v (sphik s);
     [];
     lit "Watson S Reduction";
     lit "H  J: " ++ v (hj s);
     lit "H  K: " ++ v (hk s);
     lit "H JK: " ++ v (hjk s);
     lit "H KJ: " ++ v (hkj s);
     lit "h  1: " ++ v (h1 s);
     lit "h  2: " ++ v (h2 s);
     lit "h  3: " ++ v (h3 s);
     [];
     lit "Linear Molecule";
     lit "He  : " ++ v (he s)].

  (** output.rs:87-101 the table of frequencies; [None] is an index out of range *)
  Definition mode_lines (o : output F I) : option (list text) :=
    let* rows := table (out_lists o) in
    Some (map (fun r => int5 (row_mode r) ++ ishow 8 (row_irrep r) ++ pad 8 (fprint 1 (row_harm r))
                 ++ pad 8 (fprint 1 (row_fund r)) ++ pad 8 (fprint 1 (row_corr r))) rows).

  (** output.rs:106-124 the table of rotational constants *)
  Definition rot_lines (o : output F I) : option (list text) :=
    match out_rots o with
    | [] => Some []
    | r0 :: _ =>
        let* n := state_len (rot_state r0) in
        let width := 5 * n in
        if negb (out_linear o)
        then
          let* rows := omap rot_text (out_rots o) in
          Some ((centre width (lit "State") ++ centre 12 (lit "A") ++ centre 12 (lit "B") ++ centre 12 (lit "C"))
                :: rows)
        else
          let* rows := omap (fun '(s, b) => let* t := state_text s in Some (t ++ pad 12 (fprint 7 b)))
                         (linear_rows (out_rots o) (out_rot_equil o)) in
          Some ((centre width (lit "State") ++ centre 12 (lit "B")) :: rows)
    end.

  (** output.rs:130-141 the lists of resonances *)
  Definition coriolis_lines (r : restst) : option (list text) :=
    omap (fun '(i, j, x) => let* t := axis_text x in Some (int5 i ++ int5 j ++ pad 5 t)) (rs_coriolis r).
  Definition fermi1_lines (r : restst) : list text :=
    map (fun '(i, j) => int5 i ++ int5 j) (rs_fermi1 r).
  Definition fermi2_lines (r : restst) : list text :=
    map (fun '(i, j, k) => int5 i ++ int5 j ++ int5 k) (rs_fermi2 r).

  (** output.rs:54-144 [Display for Output], line by line.  [geo] are the lines that
      [Display for Molecule] of the crate symm prints with eight decimals (the text cut at its line feeds); the first one
      continues the word Geometry. *)
  Definition display (geo : list text) (o : output F I) : option (list text) :=
    let* modes := mode_lines o in
    let* rots := rot_lines o in
    let* cor := coriolis_lines (out_resonances o) in
    Some
      ((lit "Geometry: " ++ hd [] geo) :: tl geo
       ++ [lit "Vibrational Frequencies (cm-1):";
           pad 5 (lit "Mode") ++ pad 8 (lit "Symm") ++ pad 8 (lit "Harm") ++ pad 8 (lit "Fund") ++ pad 8 (lit "Corr")]
       ++ modes
       ++ [[]; lit "ZPT = " ++ pad 8 (fprint 1 (out_zpt o)); []; lit "Rotational Constants (cm-1):"]
       ++ rots
       ++ [[]; lit "Quartic Distortion Constants (cm-1):"] ++ quartic_lines (out_quartic o) ++ [[]]
       ++ [lit "Sextic Distortion Constants (cm-1):"] ++ sextic_lines (out_sextic o) ++ [[]]
       ++ [[]; lit "Coriolis Resonances:"] ++ cor
       ++ [[]; lit "Type 1 Fermi Resonances:"] ++ fermi1_lines (out_resonances o)
       ++ [[]; lit "Type 2 Fermi Resonances:"] ++ fermi2_lines (out_resonances o)).

  (** lib.rs:148-172 [Spectro::write_output]; [geo] are the lines of the geometry of the
      description, [rotcon] its rotational constants, [ogeo] the lines of the geometry of the
      result *)
  Definition write_output (geo : list text) (rotcon : nat -> F) (ogeo : list text)
    (o : output F I) : option text :=
    let* d := display ogeo o in
    Some (unlines
      ([[]; lit "Transformed Geometry (Å):"] ++ geo
       ++ [[]; lit "Equilibrium Rotational Constants (cm-1):"]
       ++ (if negb (out_linear o)
           then [centre 20 (lit "A") ++ centre 20 (lit "B") ++ centre 20 (lit "C");
                 pad 20 (fprint 12 (rotcon 0)) ++ pad 20 (fprint 12 (rotcon 1)) ++ pad 20 (fprint 12 (rotcon 2)); []]
           else [centre 20 (lit "B"); pad 20 (fprint 12 (rotcon 1)); []])
       ++ d ++ [[]])).
End OutText.
