(** The first value that is a number. *)
From Coq Require Import List Arith.
Import ListNotations.

(** [i] is the first place that is no NaN, or the length if there is none *)
Definition first_at (arr : list bool) (i : nat) : Prop :=
  i <= length arr /\ (forall j, j < i -> nth_error arr j = Some true) /\ (i < length arr -> nth_error arr i = Some false).
