(** Theorems about the search for the first number.  C101. *)
From Coq Require Import List Arith.
From Verif Require Import Py NanModel NanSpec NanProofs.
Import ListNotations.

Theorem C101_found arr i : first_non_NaN arr = Ok i -> i < length arr -> i <= 1 /\ first_at arr i.
Proof. eapply C101_found_lem. Qed.
Theorem C101_short arr i : i <= 1 -> i < length arr -> first_at arr i -> first_non_NaN arr = Ok i.
Proof. eapply C101_short_lem. Qed.
Theorem C101_none arr : arr <> [] -> (forall j, j < length arr -> nth_error arr j = Some true) -> first_non_NaN arr = Ok (length arr).
Proof. eapply C101_none_lem. Qed.
Theorem C101_late arr i : 1 < i -> i < length arr -> first_at arr i ->
  first_non_NaN arr = Err IndexError /\ (exists m, 2 ^ m < length arr /\ nth_error arr (2 ^ m) = Some false) \/
  first_non_NaN arr = Ok (length arr) /\ forall m, 2 ^ m < length arr -> nth_error arr (2 ^ m) = Some true.
Proof. eapply C101_late_lem. Qed.
Theorem C101_late_refuted : exists arr arr' i i', first_at arr i /\ i < length arr /\ first_non_NaN arr = Ok (length arr) /\
  first_at arr' i' /\ i' < length arr' /\ first_non_NaN arr' = Err IndexError.
Proof. eapply C101_late_refuted_lem. Qed.
Example C101_example : exists arr arr' i, first_non_NaN arr = Ok i /\ 0 < i < length arr /\ arr' <> [] /\ forall j, j < length arr' -> nth_error arr' j = Some true.
Proof. eapply C101_example_lem. Qed.
Print Assumptions C101_found.
Print Assumptions C101_short.
Print Assumptions C101_none.
Print Assumptions C101_late.
Print Assumptions C101_late_refuted.
