(** Model of the polarizing beamsplitter (phasor/optics/polarization.py 456-510) and of the wiring of the
    Faraday isolator (faraday_isolator.py).  Mirrors, rotators and plates are those of OptModel.v. *)
From stdpp Require Import base tactics list numbers.
From Coq Require Import QArith Qreals Reals String.
From Verif Require Import Fld Herm ElecModel ElecSpec OptModel OptSpec.

(** polarization.py 489, 496: pass_polarization.upper().  Any other string leaves an element without
    mirrors (488-501), which is not modelled *)
Definition pass_of (s : string) : option pol :=
  if String.eqb s "P" || String.eqb s "p" then Some PolP else if String.eqb s "S" || String.eqb s "s" then Some PolS else None.
(** 503-508 *)
Definition polarization_opposite (s : string) : option string :=
  if String.eqb s "S" || String.eqb s "s" then Some "P"%string else if String.eqb s "P" || String.eqb s "p" then Some "S"%string else None.

Section pbs.
  Context {K : fld} (h : herm K).
  Local Open Scope fld_scope.
  Record pbs_args := PbsArgs { selection_defect : K; rejection_defect : K; select_loss : K; reject_loss : K }.
  (** 476-480 and 482-486; the angle of incidence is 45 degrees (464), so the mirrors have four ports *)
  Definition select_mirror (a : pbs_args) : mirror_args (K := K) :=
    MirrorArgs (1 - selection_defect a) (reject_loss a) (select_loss a) 0 false None false true.
  Definition reject_mirror (a : pbs_args) : mirror_args (K := K) :=
    MirrorArgs (rejection_defect a) (reject_loss a) (select_loss a) 0 false None false true.
  (** 488-501 *)
  Definition pbs_mirror (pass : pol) (a : pbs_args) (l : pol) : mirror_args :=
    match pass, l with
    | PolP, PolP | PolS, PolS => select_mirror a
    | PolP, PolS | PolS, PolP => reject_mirror a
    end.
  Definition on_pol (l : pol) (n : nd mport) : nd (mport * pol) :=
    match n with I p => I (p, l) | O p => O (p, l) | Sg n => Sg n end.
  Definition tag_pol (l : pol) (e : edge (K := K) mport) : edge (K := K) (mport * pol) := (on_pol l e.1.1, on_pol l e.1.2, e.2).
  (** selective_mirrors.py 62-90: a selection stack acts on each polarization with its mirror (C90) *)
  Definition pbs (pass : pol) (a : pbs_args) (lower : bool) : list (edge (K := K) (mport * pol)) :=
    l ← [PolS; PolP]; tag_pol l <$> mirror h (pbs_mirror pass a l) lower.
  (** the default values 459-463 *)
  Definition pbs_default : pbs_args := PbsArgs 0 0 0 0.
End pbs.

(** faraday_isolator.py.  The class names a base class that ports does not have (13), so as it is the
    module cannot be imported; this is what it builds.  18-26: both properties are kept under the name
    pol_from, so the second is always the first *)
Definition iso_pols (pol_from pol_to : pol) : pol * pol := (pol_from, pol_from).
(** 35-42 *)
Definition iso_plate_deg (pols : pol * pol) : Q := ((if decide (pols.1 = pols.2) then -1 else 1) * 45 / 2)%Q.
(** 33: FaradayRotator(), whose rotate_deg is 0 unless given (polarization.py 29) *)
Definition iso_faraday_deg : Q := 0.
Definition iso_ports : list (mport * pol) := p ← [FrA; BkA; FrB; BkB]; [(Pt p, PolS); (Pt p, PolP)].
(** a port of a beamsplitter bonded to a port of a polarisation element *)
Definition joined (w : nd (mport * pol) -> C_fld) (p : p4) (v : nd (p2 * pol) -> C_fld) (q : p2) : Prop :=
  forall l, w (O (Pt p, l)) = v (I (q, l)) /\ v (O (q, l)) = w (I (Pt p, l)).
(** 28-50: the waves in pol_BS_in, faraday, the three parts of lambda2 and pol_BS_out; the isolator for a
    Faraday rotation of [deg] *)
Definition isolator (deg : Q) (pol_from pol_to : pol) (lower : bool) (wi : nd (mport * pol) -> C_fld)
  (wf w1 w2 w3 : nd (p2 * pol) -> C_fld) (wo : nd (mport * pol) -> C_fld) : Prop :=
  let pols := iso_pols pol_from pol_to in
  obeys iso_ports (pbs C_herm pols.1 pbs_default lower) [] wi /\
  obeys all_ports (rotator deg true) [] wf /\
  mounted (half_wave_plate lower) (iso_plate_deg pols) w1 w2 w3 /\
  obeys iso_ports (pbs C_herm pols.2 pbs_default lower) [] wo /\
  joined wi BkA wf Fr /\ bonded wf w1 /\ joined wo FrA w3 Bk.
