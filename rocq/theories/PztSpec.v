(** What a piezo should do. Electrical port AA: voltage and current; mechanical port BB:
    displacement (volt) and force (curr), as for the other mechanical elements. *)
From stdpp Require Import base tactics list numbers.
From Verif Require Import Fld Herm ElecModel ElecSpec.

Section spec.
  Context {K : fld}.
  Local Open Scope fld_scope.
  (** the piezo equations: strain x = F/k + d V, charge = C V + d F; the current is s times
      the charge. Written without division *)
  Definition piezo (s C k d V i F x : K) : Prop :=
    F = k * (x - d * V) /\ i = s * (C * V + d * F).
End spec.

(** what the element takes up: the electrical power, and force times velocity s x *)
Definition piezo_power {K : fld} (h : herm K) (s V i F x : K) : K :=
  (let c := h_conj h in (c V * i + c (c V * i)) + (c (s * x) * F + c (c (s * x) * F)))%F.
