(** Model of [Spectro::finish] and [Spectro::run]: how the parts are put together. *)
From Coq Require Import List ZArith Arith Bool.
From Verif Require Import Num Loops Index Modes Anharm VibRot Distort Transform SymAnharm
  Polyads Report Geom.
Import ListNotations.

(** resonance.rs:110-121 [Restst].  The look-up tables and the states are [tables]. *)
Record restst := mk_restst {
  rs_coriolis : list coriolis_t;
  rs_fermi1 : list (nat * nat);
  rs_fermi2 : list (nat * nat * nat);
  rs_darling : list (nat * nat);
  rs_tables : tables;
  rs_modes : list mode }.

Section Finish.
  Context {F I : Type} `{Num F}.
  Local Open Scope num_scope.

  (** the eigensolver for two by two matrices, as in [rsfrm] *)
  Variable eig2 : F -> F -> F -> F * F * (F * F).

  (** lib.rs:111-145, the fields of [Spectro] that [finish] reads; the coordinates and masses
      are those of [geom].  [rotcon] and [primat] have three entries. *)
  Record molecule := mk_mol {
    m_rotor : rotor;
    m_header : list Z;
    m_natom : nat;
    m_nvib : nat;
    m_geom : nat -> F * F * F;
    m_w : nat -> F;
    m_rotcon : nat -> F;
    m_primat : nat -> F }.

  (** resonance.rs:123-283 [Restst::new]; [i2vib] is [ioff(nvib + 1)], load.rs:242 *)
  Definition restst_new (r : rotor) (nvib : nat) (zm f3 : nat -> nat -> nat -> F)
    (freq : nat -> F) : option restst :=
    let* modes := deg_modes r nvib freq in
    let* cor := coriolis r modes freq zm in
    let* fm1 := fermi1 r modes freq f3 in
    let* fm2 := fermi2 r modes freq f3 in
    let* dar := darling r modes freq in
    let* t := restst_tables nvib (ioff (nvib + 1)) modes in
    Some (mk_restst cor fm1 fm2 dar t modes).

  (** output.rs:15-51 [Output], without the geometry *)
  Record output := mk_output {
    out_lists : lists F I;
    out_rots : list (rot F);
    out_rot_equil : nat -> F;
    out_quartic : quartic F;
    out_sextic : sextic F;
    out_zpt : F;
    out_linear : bool;
    out_lxm : list (list F);
    out_lx : list (list F);
    out_resonances : restst }.

  (** the storage of an n x n matrix, column by column *)
  Definition storage (n : nat) (a : nat -> nat -> F) : list F :=
    collect (range 0 n) (fun j => map (fun i => a i j) (range 0 n)).

  (** run.rs:234-341 [finish].  [polyad] tells whether the crate is compiled with the feature
      of that name; [freq] has all 3N entries.  The reads of [f3qcm] and [f4qcm] are in range
      for the lengths made by [force3] and [force4] (C01 to C04), so they are total here.  The
      lines written to the terminal are left out. *)
  Definition finish (polyad : bool) (m : molecule) (freql f3l f4l : list F) (irreps : list I)
    (lxm lx : nat -> nat -> F) : option output :=
    let r := m_rotor m in
    let nvib := m_nvib m in
    let n3n := (3 * m_natom m)%nat in
    let rotcon := m_rotcon m in
    let primat := m_primat m in
    let freq i := nth i freql (nz 0) in
    let f3 i j k := nth (find3 i j k) f3l (nz 0) in
    let f4 i j k l := nth (find4 i j k l) f4l (nz 0) in
    let zm := zmat (m_natom m) lxm in
    let wl := wila (m_natom m) (m_geom m) (m_w m) lxm in
    let* quart := quartic_new r nvib rotcon primat freq wl in
    let* rs := restst_new r nvib zm f3 freq in
    let fm1 := rs_fermi1 rs in
    let fm2 := rs_fermi2 rs in
    let modes := rs_modes rs in
    let states := t_states (rs_tables rs) in
    let c := make_fermi_checks fm1 fm2 in
    let* sym := is_sym_top r in
    let* (x, g, e0) :=
      (if sym : bool then
         let* (x, g, e0) := xcals f4 freq f3 zm rotcon r fm1 fm2 modes wl in Some (x, Some g, e0)
       else Some (xcalc nvib f4 freq f3 zm rotcon fm1 fm2, None, make_e0 f4 freq f3 c modes)) in
    let eng := repeat (nz 0) (length states) in
    (* the entries of [eng] written by [resona], lines 68-81 there *)
    let* eng :=
      (if polyad && negb sym then
         let* _ := resona zm f3 f4 e0 modes freq rotcon x fm1 fm2 in
         ofold (fun eng ist => set_nth eng ist
                  (polyad_energy freq (i1mode modes) e0 x (fun ii => fixed_iirst ii ist)))
           (range 0 (length fixed_states)) eng
       else Some eng) in
    (* [part1] assigns every entry of [eng] *)
    let* lev := part1 freq modes x g e0 states in
    let* eng := ofold (fun eng ist => let* v := nth_error lev ist in set_nth eng ist v)
      (range 0 (length states)) eng in
    let* eng := enrgy eig2 f3 c modes (rs_tables rs) eng in
    let* lists := finish_lists sym nvib modes freql x g eng irreps in
    let* rotnst :=
      (if sym || is_diatomic r
       then alphas rotcon primat freq wl zm f3 r modes states (rs_coriolis rs)
       else alphaa nvib rotcon primat freq wl zm f3 modes states (rs_coriolis rs)) in
    let* rots :=
      (if sym || is_diatomic r then
         if is_spherical_top r then None
         else rots rotcon r rotnst states (bxs quart) (bys quart) (bzs quart)
       else rota rotcon (nth 7 (m_header m) 4%Z) rotnst states (bxa quart) (bya quart) (bza quart)) in
    let* sext := sextic_new r nvib (length freql) rotcon primat freq wl zm f3 in
    let* zpt := nth_error eng 0 in
    let* vlxm := to_vec n3n n3n (storage n3n lxm) in
    let* vlx := to_vec n3n n3n (storage n3n lx) in
    Some (mk_output lists rots rotcon quart sext zpt (is_linear r) vlxm vlx rs).
End Finish.
Arguments molecule : clear implicits.
Arguments output : clear implicits.

(** ** a whole run *)

(** lib.rs:77-81 [Derivative] *)
Inductive derivative (F : Type) :=
| Harmonic (fc2 : nat -> nat -> F)
| Cubic (fc2 : nat -> nat -> F) (f3 : nat -> nat -> nat -> F)
| Quartic (fc2 : nat -> nat -> F) (f3 : nat -> nat -> nat -> F) (f4 : nat -> nat -> nat -> nat -> F).
Arguments Harmonic {F}. Arguments Cubic {F}. Arguments Quartic {F}.

(** the fields that a harmonic run fills in (run.rs:200-209; the others come from [Default]),
    or the full result of [finish] *)
Inductive result (F I : Type) :=
| HarmonicResult (o : lists F I) (rot_equil : nat -> F) (lxm lx : list (list F)) (linear : bool)
| FullResult (o : output F I).
Arguments HarmonicResult {F I}. Arguments FullResult {F I}.

Section Run.
  Context {F I : Type} `{Num F} `{Trig F}.
  Local Open Scope num_scope.

  (** lib.rs:85-91 [fc2] *)
  Definition derivative_fc2 (d : derivative F) : nat -> nat -> F :=
    match d with Harmonic fc2 => fc2 | Cubic fc2 _ => fc2 | Quartic fc2 _ _ => fc2 end.

  (** the eigensolvers; [label geom lxm] finds the symmetry of a displaced molecule (crate symm)
      and [A] is its label of last resort, [fuel] bounds the retries (see [retry]); [buddy] is
      the atom found by the rotation in [bdegnl] *)
  Variables (eig2 : F -> F -> F -> F * F * (F * F))
    (eig : (nat -> nat -> F) -> list F * (nat -> nat -> F))
    (label : (nat -> F * F * F) -> (nat -> nat -> F) -> nat -> F -> option I) (A : I) (fuel : nat)
    (buddy : option nat).

  (** run.rs:177-231 [run]; [axes], [iatom] and [axis_order] are fields of [Spectro].  The
      dump of the force constants (run.rs:226-228) is left out: it changes no value. *)
  Definition run (polyad : bool) (m : molecule F) (axes : nat -> nat -> F) (iatom axis_order : nat)
    (deriv : derivative F) : option (result F I) :=
    let natom := m_natom m in
    let nvib := m_nvib m in
    let n3n := (3 * natom)%nat in
    let* (freql, lxm) := harmonic natom axes (derivative_fc2 deriv) (m_w m) eig in
    let freq i := nth i freql (nz 0) in
    let lx := make_lx n3n (make_sqm (m_w m)) lxm in
    let* sym := is_sym_top (m_rotor m) in
    let* (lxm, lx) :=
      (if sym : bool
       then bdegnl (is_linear (m_rotor m)) natom nvib iatom axis_order buddy freq (m_w m) lxm lx
       else Some (lxm, lx)) in
    let* irreps := compute_irreps_in (label (m_geom m) lxm) A fuel n3n nvib (nlit 1 10000) in
    match deriv with
    | Harmonic _ =>
        let* o := harmonic_lists nvib freql irreps in
        let* vlxm := to_vec n3n n3n (storage n3n lxm) in
        let* vlx := to_vec n3n n3n (storage n3n lx) in
        Some (HarmonicResult o (m_rotcon m) vlxm vlx (is_linear (m_rotor m)))
    | Cubic _ _ => None
    | Quartic _ f3x f4x =>
        let f3x := rot3rd natom n3n axes f3x in
        let* f3l := force3 n3n f3x lx nvib freq in
        let f4x := rot4th natom n3n axes f4x in
        let* f4l := force4 n3n f4x lx nvib freq in
        let* o := finish eig2 polyad m freql f3l f4l irreps lxm lx in
        Some (FullResult o)
    end.
End Run.
