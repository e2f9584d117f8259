(** Vocabulary of SrcProps.v. *)
From Coq Require Import Reals.
From stdpp Require Import base tactics numbers gmap list.
From Verif Require Import Fld Py Herm InjModel OptModel SigModel SigSpec PdModel PdSpec NoiModel NoiSpec SrcModel.
Local Open Scope fld_scope.

(** multiples of frequencies *)
Definition multiples {Q} (qneg : Q -> Q) (Hz : Q -> R) (qmul : Z -> Q -> Q) : Prop :=
  (forall n f, Hz (qmul n f) = (IZR n * Hz f)%R) /\ (forall n f, qmul (Z.opp n) f = qneg (qmul n f)).
(** the phase as a number *)
Definition the_phase (p : option R) : R := default 0%R p.
(** the amplitudes that the generator puts at the keys of a port *)
Definition gen_at {Q} `{EqDecision Q} (qneg : Q -> Q) (qmul : Z -> Q -> Q) (g : generator Q) (p : gport) (k : Q) : C_fld :=
  source_at (gen_sources qneg qmul g) (p, k).
(** the harmonics are the items of a dict *)
Definition dict_ok {Q} (g : generator Q) : Prop := NoDup (g_harmonics g).*1.
(** the real part, as a complex number *)
Definition real_part (z : C_fld) : C_fld := cre (fst z).

Section light.
  Context {P A Q Obj : Type} `{Countable P} `{Countable A} `{Countable Q}.
  (** one unit at one node *)
  Definition unit_at (n n' : P * key A Q) : C_fld := if decide (n' = n) then 1 else 0.
  (** the fields at the port of a laser: the sources at its mode [m0], nothing else *)
  Definition lases (x : P * key A Q -> C_fld) (p : P) (power_W : R) (phase : option R) (m0 : A * Q) : Prop :=
    forall l m, x (p, opt l m.1 m.2) = if decide (m = m0) then source_at (laser_sources power_W phase) l else 0.
  (** both quantum keys of the modes [ms] *)
  Definition keys_of (ms : list (A * Q)) : list (key A Q) := ((fun m => opt true m.1 m.2) <$> ms) ++ ((fun m => opt false m.1 m.2) <$> ms).
  (** vacuum enters at the ports [vs] *)
  Definition vacua (vs : list P) (o : P -> Obj) (keys : P -> list (key A Q)) : list (P * key A Q * (P * key A Q) * Obj) :=
    v ← vs; vacuum_pairs (o v) v (keys v).
  (** the vacuum of port v reaches port fr with the gain t v m in the mode m, and from there the
      output w at the frequency G like any light *)
  Definition reaches (coupling : list ((P * key A Q) * (P * key A Q) * C_fld)) (r : list (inj C_fld P (key A Q))) (x : gmap (P * key A Q) C_fld)
      (vs : list P) (fr w : P) (t : P -> A * Q -> C_fld) (ms : list (A * Q)) (G : Q) : Prop :=
    forall v m, v ∈ vs -> m ∈ ms ->
      gain coupling (v, opt true m.1 m.2) (w, cls G) = t v m * response r x (unit_at (fr, opt true m.1 m.2)) (w, cls G) /\
      gain coupling (v, opt false m.1 m.2) (w, cls G) = cconj (t v m) * response r x (unit_at (fr, opt false m.1 m.2)) (w, cls G).
  (** nothing is lost or gained on the way: the vacua of all ports make up the vacuum at fr *)
  Definition unitary (vs : list P) (t : P -> A * Q -> C_fld) (ms : list (A * Q)) : Prop :=
    forall m, m ∈ ms -> fsum (fun v => t v m * cconj (t v m)) vs = 1.
  (** h nu times the power *)
  Definition quanta (h_Js c_m_s : R) (iwavelen : A -> R) (ms : list (A * Q)) (a : A * Q -> C_fld) : C_fld :=
    fsum (fun m => cre (h_Js * c_m_s * iwavelen m.1) * (a m * cconj (a m))) ms.
  (** the modes have their sidebands at F *)
  Definition has_sidebands (qadd : Q -> Q -> Q) (none : A * Q -> Prop) (ms : list (A * Q)) (F : Q) : Prop :=
    forall m, m ∈ ms -> none m \/ (m.1, qadd m.2 F) ∈ ms.
End light.
