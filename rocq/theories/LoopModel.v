(** Model of the sensitivities and loop gains in /repo/phasor/readouts/AC.py.  The coupling
    solution is given as [R from to]: coupling_matrix_inv.get((from, to), 0), where nodes are
    pairs of a port and a key; P and N stand for the keys at +F_AC and -F_AC. *)
From stdpp Require Import base tactics list numbers.
From Verif Require Import Fld Herm.

Section loops.
  Context {K : fld} {N : Type}.
  Local Open Scope fld_scope.
  Context (R : N -> N -> K).
  (** AC.py 106-130, 199-220: AC_sensitivity *)
  Definition ac_sensitivity (drP drN nP : N) : K := R drP nP + R drN nP.
  (** 67-103: AC_sensitivityOL *)
  Definition ac_sensitivityOL (drP drN dP nP : N) : K :=
    (R drP nP + R drN nP) / (R drP dP + R drN dP).
  (** 308-333: CLG of the port whose keys are pP and pN *)
  Definition clg (pP pN : N) : K := R pP pP + R pN pP.
  (** 335-337 *)
  Definition olg (pP pN : N) : K := (1 - clg pP pN) / clg pP pN.
  (** 340-368: GPlant *)
  Definition gplant (drP actP senseP : N) : K := R drP senseP / R drP actP.
  (** 134-143: AC_noise_limited_sensitivity, with the PSD of the port *)
  Definition ac_noise_limited (h : herm K) (psd : K) (drP drN nP : N) : K :=
    h_sqrt h psd / h_abs h (ac_sensitivity drP drN nP).
End loops.
