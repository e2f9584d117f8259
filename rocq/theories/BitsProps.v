(** Theorems about the bit enumeration.  C17. *)
From Coq Require Import ZArith Sorting.
From stdpp Require Import base tactics list numbers.
From Verif Require Import Py BitsModel BitsProofs.
Local Open Scope Z_scope.

(** C17.  For every n >= 0 the enumeration terminates, yields exactly the positions
    of the set bits of n, in strictly increasing order. *)
Theorem C17_bits n : 0 <= n ->
  exists c l, (forall f, (c <= f)%nat -> yield_bits_on f n = Ok l) /\
    (forall p, p ∈ l <-> 0 <= p /\ Z.testbit n p = true) /\ StronglySorted Z.lt l.
Proof. exact (bits_ok n). Qed.
Print Assumptions C17_bits.

(** C17 (negative arguments).  On a negative integer the enumeration never ends. *)
Theorem C17_negative_refuted n : n < 0 -> forall f, yield_bits_on f n = Err OutOfFuel.
Proof. exact (fun Hn f => bits_negative f 0 n [] Hn). Qed.
Print Assumptions C17_negative_refuted.

Example bits_example : yield_bits_on 10 (2 ^ 100 + 2 ^ 37 + 5) = Ok [0; 2; 37; 100] /\ 0 <= 2 ^ 100 + 2 ^ 37 + 5 /\ -3 < 0.
Proof. vm_compute. repeat split; discriminate. Qed.
