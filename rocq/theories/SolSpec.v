(** What the solution bookkeeping should do. *)
From stdpp Require Import base tactics list numbers gmap fin_sets.
From Verif Require Import Py SolModel.
Local Open Scope Z_scope.

Section spec.
  Context {S T C R D : Type} `{Countable R} `{Countable D}.
  (** the solution of order i: i iterations from the initial one *)
  Fixpoint solution (step : S -> S) (init : S) (i : nat) : S :=
    match i with O => init | Datatypes.S i => step (solution step init i) end.
  (** how many solutions there are *)
  Definition count (s : st (S := S) (T := T) (C := C) (R := R) (D := D)) : Z := Z.of_nat (length (bun s)).
  (** [s'] has everything [s] has *)
  Definition keeps (s s' : st (S := S) (T := T) (C := C) (R := R) (D := D)) : Prop :=
    (forall i e, bun s !! i = Some e -> exists e', bun s' !! i = Some e' /\
       (forall v, e_pert e = Some v -> e_pert e' = Some v) /\
       (forall r t, e_read e !! r = Some t -> e_read e' !! r = Some t)) /\
    (forall k m d r c, coup s !! k = Some m -> m !! (d, r) = Some c ->
       exists m', coup s' !! k = Some m' /\ m' !! (d, r) = Some c) /\
    (exists l, log s' = log s ++ l).
  (** lookups that name an order that exists or can be solved for *)
  Definition lookup_ok (N : option Z) : Prop := match N with None => True | Some n => -1 <= n end.
  Definition op_ok (o : op (R := R) (D := D)) : Prop :=
    match o with Solve _ => True | Pert N | Driven _ N | Coupling _ _ N => lookup_ok N end.
End spec.
