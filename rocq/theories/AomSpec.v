(** What an acousto-optic modulator should do. *)
From Coq Require Import Reals.
From stdpp Require Import base tactics list numbers gmap.
From Verif Require Import Fld Herm SigModel OdeModel OdeSpec AomModel.

Section spec.
  Context {B C : Type} `{Countable B} `{Countable C}.
  Local Open Scope fld_scope.
  Context (cadd : C -> C -> C) (cneg : C -> C) (center : C -> R) (rejected : C -> bool) (split : R) (dir : bool -> R) (kappa : R).
  (** the modes: port, and the rest with the classical frequency *)
  Notation mode := (bool * (B * C))%type.
  (** both quantum keys of each mode are there *)
  Definition at_ports (S : list mode) (ks : bool -> list (bool * (B * C))) : Prop :=
    NoDup S /\ forall p, NoDup (ks p) /\ forall l m, (l, m) ∈ ks p <-> (p, m) ∈ S.
  (** the sound carries the light of port p over when its frequency is above the split *)
  Definition carries (p : bool) (F : C) : Prop := (split < center F * dir p)%R.
  Global Instance carries_dec p F : Decision (carries p F) := Rlt_dec _ _.
  Definition moved_by (m : mode) (F : C) : mode := (negb m.1, (m.2.1, cadd m.2.2 F)).
  (** the sets of keys are closed: what is reached from a mode with a sound frequency is there,
      the sound frequencies come with their negatives, and no mode is of too high an order *)
  Definition closed (S : list mode) (Ds : list C) : Prop :=
    NoDup Ds /\ (forall F, F ∈ Ds -> cneg F ∈ Ds) /\
    (forall m, m ∈ S -> rejected m.2.2 = false) /\
    (forall m F, m ∈ S -> F ∈ Ds -> rejected (cadd m.2.2 F) = false -> carries m.1 F -> moved_by m F ∈ S).
  (** conjugate fields and a real drive *)
  Definition physical (S : list mode) (Ds : list C) (x : akey -> C_fld) : Prop :=
    (forall m, m ∈ S -> x (inl (m.1, (false, m.2))) = cconj (x (inl (m.1, (true, m.2))))) /\
    (forall F, F ∈ Ds -> x (inr (cneg F)) = cconj (x (inr F))).
  (** the right-hand side for one field: every mode of the other port that a sound frequency
      moves here *)
  Definition aom_rate (S : list mode) (Ds : list C) (l : bool) (m : mode) (x : akey -> C_fld) : C_fld :=
    (if l then - ci else ci) * cre kappa *
    fsum (fun m1 => fsum (fun F => let F' := if l then F else cneg F in
      if decide (moved_by m1 F' = m /\ carries m1.1 F') then x (inl (m1.1, (l, m1.2))) * x (inr F) else 0) Ds) S.
  Definition aom_power (S : list mode) (f : akey -> list (mono C_fld akey)) (x : akey -> C_fld) : C_fld :=
    fsum (fun m => let p := cconj (x (inl (m.1, (true, m.2)))) * poly_at x (f (inl (m.1, (true, m.2)))) in p + cconj p) S.
End spec.
