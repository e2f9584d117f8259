(** What the electrical elements should do: voltages and currents. *)
From stdpp Require Import base tactics list numbers.
From Verif Require Import Fld Herm ElecModel.

Section spec.
  Context {K : fld} {P : Type} `{EqDecision P}.
  Local Open Scope fld_scope.
  (** what the couplings and sources of an element send to a node, when the waves are [w] *)
  Definition emits (es : list (edge P)) (ss : list (source P)) (w : nd P -> K) (t : nd P) : K :=
    fsum (fun e => if decide (e.1.2 = t) then e.2 * w e.1.1 else 0) es +
    fsum (fun e => if decide (e.1 = t) then e.2 else 0) ss.
  (** the outgoing waves are those the element emits *)
  Definition obeys (ports : list P) es ss (w : nd P -> K) : Prop :=
    forall p, p ∈ ports -> w (O p) = emits es ss w (O p).
  (** voltage, and current into the element, at a port *)
  Definition volt (w : nd P -> K) (p : P) : K := w (I p) + w (O p).
  Definition curr (Z0 : K) (w : nd P -> K) (p : P) : K := (w (I p) - w (O p)) / Z0.
  (** wave power *)
  Definition power (h : herm K) (x : K) : K := x * h_conj h x.
  (** what a port takes up *)
  Definition taken (h : herm K) (w : nd P -> K) (p : P) : K := power h (w (I p)) - power h (w (O p)).
End spec.
(** what a connection of N ports sends out of port p when the waves x come in *)
Definition conn_out {K : fld} N (x : nat -> K) (p : nat) : K :=
  emits (connection N) [] (fun n => match n with I q => x q | _ => 0%F end) (O p).
