(** Specification vocabulary for dependency orders. *)
From stdpp Require Import base tactics list numbers relations.

Section spec.
  Context {N : Type} (succ : N -> list N).
  (** [a] depends on [b] *)
  Definition dep (a b : N) : Prop := b ∈ succ a.
  (** what the starting nodes depend on, directly or not, themselves included *)
  Definition needed (nodes : list N) (x : N) : Prop := exists n, n ∈ nodes /\ rtc dep n x.
  Definition acyclic : Prop := forall n, ~ tc dep n n.
  (** every node comes after everything else it depends on *)
  Definition dependencies_first (l : list N) : Prop :=
    forall pre x post, l = pre ++ x :: post -> forall s, dep x s -> s <> x -> s ∈ pre.
  (** distinct nodes depending on each other *)
  Definition knotted (l : list N) : Prop :=
    NoDup l /\ 2 <= length l /\ forall x y, x ∈ l -> y ∈ l -> rtc dep x y.
End spec.
