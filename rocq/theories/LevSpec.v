(** What levers and strings should do: displacements (voltages) and forces (currents). *)
From stdpp Require Import base tactics list numbers.
From Verif Require Import Fld Herm ElecModel ElecSpec LevModel.

Section spec.
  Context {K : fld}.
  Local Open Scope fld_scope.
  (** u x v *)
  Definition cross (u v : axis -> K) (i : axis) : K :=
    match i with
    | AxX => u AxY * v AxZ - u AxZ * v AxY
    | AxY => u AxZ * v AxX - u AxX * v AxZ
    | AxZ => u AxX * v AxY - u AxY * v AxX
    end.
  Definition dot (u v : axis -> K) : K := u AxX * v AxX + u AxY * v AxY + u AxZ * v AxZ.
  (** displacement (or angle) and force (or torque) into the lever at one of its three ends *)
  Definition disp (w : nd port3 -> K) (t : pABL) (i : axis) : K := volt w (t, i).
  Definition force (Z0 : K) (w : nd port3 -> K) (t : pABL) (i : axis) : K := curr Z0 w (t, i).
  (** a rigid, massless rod from A to B = A + d which the torque at L turns: the ends move
      together up to a rotation, the forces cancel and so do the torques about A *)
  Definition rigid_rod (d : axis -> K) (Z0 : K) (w : nd port3 -> K) : Prop :=
    forall i, disp w LB i = disp w LA i + cross (disp w LL) d i /\
              force Z0 w LA i + force Z0 w LB i = 0 /\
              force Z0 w LL i + cross d (force Z0 w LB) i = 0.
  (** all nine ports *)
  Definition all3 : list port3 := ports3 LA ++ ports3 LB ++ ports3 LL.
  (** what comes out of port q of one element goes into port p of the other, and back *)
  Definition bonded {P Q} (w : nd P -> K) (p : P) (w' : nd Q -> K) (q : Q) : Prop :=
    w (I p) = w' (O q) /\ w' (I q) = w (O p).
  (** two converters back to back with a cable in between: string.py 85-91 *)
  Definition string_obeys Z0 s tiny mob ph (wA wC wB : nd pAB -> K) : Prop :=
    obeys [AA; BB] (zconverter Z0 s tiny mob) [] wA /\ obeys [AA; BB] (cable ph) [] wC /\
    obeys [AA; BB] (zconverter Z0 s tiny mob) [] wB /\
    bonded wA BB wC AA /\ bonded wC BB wB BB.
  (** the law of a line of characteristic admittance Y (force per displacement) whose waves
      gain [ph] on the way; with ph = exp(-g), cosh g = (1+ph^2)/(2 ph), sinh g = (1-ph^2)/(2 ph) *)
  Definition line_law (Y ph xA fA xB fB : K) : Prop :=
    (1 + 1) * ph * (Y * xA) = (1 + ph * ph) * (Y * xB) - (1 - ph * ph) * fB /\
    (1 + 1) * ph * fA = (1 - ph * ph) * (Y * xB) - (1 + ph * ph) * fB.
End spec.
