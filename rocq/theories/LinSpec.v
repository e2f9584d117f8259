(** Independent specification of what a linear network solver must compute.
    Nothing here refers to the model of the code. *)
From stdpp Require Import base tactics list numbers.
From Verif Require Import Fld.
Local Open Scope fld_scope.

Section spec.
  Context {K : fld} {N : Type}.

  (** [x] is a steady state of the scattering network [S] on the nodes [V]
      driven by the external sources [u]:  x_s = u_s + sum_r S(r,s) x_r. *)
  Definition steady_state (V : list N) (S : N -> N -> K) (u x : N -> K) : Prop :=
    forall s, s ∈ V -> x s = u s + fsum (fun r => S r s * x r) V.

  (** [x] solves the plain system  sum_m A(m,n) x_m = u_n  on the nodes [V]. *)
  Definition solves (V : list N) (A : N -> N -> K) (u x : N -> K) : Prop :=
    forall n, n ∈ V -> fsum (fun m => A m n * x m) V = u n.

  (** a source vector that vanishes outside the designated inputs *)
  Definition sourced_at (I : list N) (u : N -> K) : Prop := forall n, n ∉ I -> u n = 0.

  (** [R i o] is the response of the network at the outputs [O] to unit
      sources at the inputs [I]: it predicts every steady state, and every
      source vector has a steady state. *)
  Definition is_response (V I O : list N)
      (sys : (N -> K) -> (N -> K) -> Prop) (R : N -> N -> K) : Prop :=
    (forall u x, sourced_at I u -> sys u x ->
       forall o, o ∈ O -> x o = fsum (fun i => R i o * u i) I) /\
    (forall u, sourced_at I u -> exists x, sys u x).

  (** the network has at most one steady state for each source vector *)
  Definition nonsingular (V : list N) (S : N -> N -> K) : Prop :=
    forall x, steady_state V S (fun _ => 0) x -> forall n, n ∈ V -> x n = 0.

  (** the plain system has at most one solution for each right-hand side *)
  Definition injective_sys (V : list N) (A : N -> N -> K) : Prop :=
    forall x, (forall n, n ∈ V -> fsum (fun m => A m n * x m) V = 0) -> forall n, n ∈ V -> x n = 0.

  (** some part of the network sustains itself: with all other nodes held at
      zero there is a non-zero steady state without sources *)
  Definition self_sustained (V : list N) (S : N -> N -> K) : Prop :=
    exists (T : list N) (z : N -> K), NoDup T /\ (forall n, n ∈ T -> n ∈ V) /\
      (exists n, n ∈ T /\ z n <> 0) /\
      forall s, s ∈ T -> z s = fsum (fun r => S r s * z r) T.

  (** Input/output relation of a reduced network: unknowns on [V], inputs on
      [A], outputs on [B], one equation per unknown. *)
  Definition io_rel (V A B : list N) (e : N -> N -> K) (u y : N -> K) : Prop :=
    exists x, (forall a, a ∈ A -> x a = u a) /\
      (forall n, n ∈ V -> fsum (fun r => e r n * x r) (V ++ A) = 0) /\
      (forall b, b ∈ B -> y b = fsum (fun r => e r b * x r) (V ++ A)).

  (** exchange two nodes *)
  Definition swap `{EqDecision N} (a b n : N) : N :=
    if decide (n = a) then b else if decide (n = b) then a else n.
End spec.
