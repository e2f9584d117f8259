(** Model of /repo/phasor/transducers/PZT.py: the couplings PZTMountedGrounded inserts, one
    classical frequency at a time (104-120: every key couples to itself), as in ElecModel.v.
    AA is the electrical port pe_A, BB the mechanical port pm_Z. *)
From stdpp Require Import base tactics list numbers.
From Verif Require Import Py Fld Herm ElecModel.

Section pzt.
  Context {K : fld}.
  Local Open Scope fld_scope.
  Notation two := (1 + 1 : K).
  (** 71-72 Ze_termination, Zm_termination; s = i2pi * F; 68-70 *)
  Context (Ze Zm s C k d : K).
  (** 74, 82, 86: the denominator as written *)
  Definition pzt_den : K := - C * Ze * Zm * s - C * Ze * k * s + Ze * Zm * (d * d) * k * s - Zm - k.
  (** 73-75 *)
  Definition See : K := (C * Ze * Zm * s + C * Ze * k * s - Ze * Zm * (d * d) * k * s - Zm - k) / pzt_den.
  (** 77-79 *)
  Definition Smm : K :=
    (Ze * Zm * (d * d) * k * s - (Zm - k) * (C * Ze * s + 1)) /
    (- Ze * Zm * (d * d) * k * s + Zm * (C * Ze * s + 1) + k * (C * Ze * s + 1)).
  (** 81-83 *)
  Definition Sem : K := two * Zm * d * k / pzt_den.
  (** 85-87 *)
  Definition Sme : K := two * Ze * d * k * s / pzt_den.
  (** 104-120 *)
  Definition pzt : list (edge pAB) := smatrix2 See Sem Sme Smm.
End pzt.

(** 37-49: the displacement per volt when d_eff_m_V is not given; [micro] is 1e-6; None times
    or divided by anything raises *)
Definition pzt_d {K : fld} (micro : K) (d_eff full_swing max_voltage : option K) : res K :=
  match d_eff with
  | Some d => Ok d
  | None => match full_swing, max_voltage with
    | Some u, Some v => if decide (v = 0%F) then Err ZeroDivisionError else Ok (u * micro / v)%F
    | _, _ => Err TypeError
    end
  end.
