(** Phases that turn, and their angles. *)
From Coq Require Import Reals List Lra.
Import ListNotations.
Local Open Scope R_scope.

(** the same direction *)
Definition same_direction (a b : R) : Prop := exists k : Z, a = b + 2 * PI * IZR k.
(** the angle np.angle gives for a phase *)
Definition principal (a theta : R) : Prop := - PI <= a <= PI /\ same_direction a theta.
(** no step of the list is larger *)
Definition steps_within (s : R) (l : list R) : Prop :=
  forall k a b, nth_error l k = Some a -> nth_error l (S k) = Some b -> Rabs (b - a) <= s.
Definition mean (l : list R) : R := fold_right Rplus 0 l / INR (length l).
