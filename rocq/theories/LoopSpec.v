(** What loop gains are: cut the network and see what comes back. *)
From stdpp Require Import base tactics list numbers.
From Verif Require Import Fld LinSpec.
Local Open Scope fld_scope.

Section spec.
  Context {K : fld} {N : Type} `{EqDecision N}.
  (** what arrives at node [s] *)
  Definition arriving (V : list N) (S : N -> N -> K) (x : N -> K) (s : N) : K := fsum (fun r => S r s * x r) V.
  (** the network with node [p] held at 1, whatever arrives there: the loops through [p] are cut *)
  Definition held_at (V : list N) (S : N -> N -> K) (p : N) (u : N -> K) : Prop :=
    u p = 1 /\ forall s, s ∈ V -> s <> p -> u s = arriving V S u s.
  (** the same amplitude [c] injected at two nodes *)
  Definition both (a b : N) (c : K) (n : N) : K := if decide (n = a \/ n = b) then c else 0.
  (** positive and negative frequencies are not coupled *)
  Definition unmixed (S : N -> N -> K) (pos : N -> bool) : Prop :=
    forall r s, S r s <> 0 -> pos r = pos s.
  (** [U], the plant, is reached from elsewhere only through [a] *)
  Definition enters_through (S : N -> N -> K) (U : N -> bool) (a : N) : Prop :=
    U a = false /\ forall r s, U s = true -> S r s <> 0 -> U r = true \/ r = a.
  (** a state of the plant alone when [a] is at [c] *)
  Definition plant_state (V : list N) (S : N -> N -> K) (U : N -> bool) (a : N) (c : K) (u : N -> K) : Prop :=
    forall s, s ∈ V -> U s = true -> u s = S a s * c + fsum (fun r => S r s * u r) (filter (fun r => U r = true) V).
End spec.
