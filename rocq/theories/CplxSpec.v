(** Vocabulary of the Complex theorems. *)
From Coq Require Import Reals.
From stdpp Require Import base.
From Verif Require Import CplxModel.
Local Open Scope R_scope.

(** the number an operand stands for *)
Definition o_val (o : operand) : pc := PC (o_real o) (o_imag o).
Definition pc_0 := PC 0 0.
Definition pc_1 := PC 1 0.
(** n-fold product *)
Fixpoint pc_npow (z : pc) (n : nat) : pc :=
  match n with O => pc_1 | S n => pc_mul z (OCplx (pc_npow z n)) end.
