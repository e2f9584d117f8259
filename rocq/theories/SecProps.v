(** Theorems about sections of boolean arrays and sorted domains.  C59, C70. *)
From stdpp Require Import base tactics numbers sorting sets list.
From Verif Require Import Py SecModel SecSpec SecProofs SecFinal.

Theorem C59_sections b : b <> [] -> exists l, generate_sections b None = Ok l /\ apart l /\
  (forall i, covered l i <-> b !! i = Some true /\ S i < length b).
Proof. eapply C59_sections_lem. Qed.
(** exactly the true samples, when the last sample is not true *)
Theorem C59_exact b : last b = Some false -> exists l, generate_sections b None = Ok l /\ apart l /\
  (forall i, covered l i <-> b !! i = Some true).
Proof. eapply C59_exact_lem. Qed.
Theorem C59_exact_refuted : exists b l i, generate_sections b None = Ok l /\ b !! i = Some true /\ ~ covered l i.
Proof. eapply C59_exact_refuted_lem. Qed.
Theorem C59_join b l r : generate_sections b None = Ok l -> exists l', generate_sections b (Some r) = Ok l' /\ apart l' /\
  (forall i, covered l' i <-> covered l i \/ small_gap r l i).
Proof. eapply C59_join_lem. Qed.
Theorem C59_anti a b l i : within a b l -> (covered (generate_antisections a b l) i <-> a <= i < b /\ ~ covered l i).
Proof. eapply C59_anti_lem. Qed.
Theorem C59_anti_sections b l i : generate_sections b None = Ok l ->
  (covered (generate_antisections 0 (length b - 1) l) i <-> b !! i = Some false /\ S i < length b).
Proof. eapply C59_anti_sections_lem. Qed.
(** closing the complement at the length of the array declares a true last sample false *)
Theorem C59_anti_refuted : exists b l i, generate_sections b None = Ok l /\
  covered (generate_antisections 0 (length b) l) i /\ b !! i = Some true.
Proof. eapply C59_anti_refuted_lem. Qed.
Example C59_example : exists b l, generate_sections b None = Ok l /\ last b = Some false /\ length l = 2 /\ within 0 9 l /\ exists i, small_gap 2 l i.
Proof. eapply C59_example_lem. Qed.

Theorem C70_sort {A} argsort (X : list Z) (Y : list A) : sorts argsort -> length X = length Y ->
  let XY := domain_sort argsort X Y in
  Sorted Z.le (fst XY) /\ fst XY ≡ₚ X /\ zip (fst XY) (snd XY) ≡ₚ zip X Y /\ length (snd XY) = length (fst XY).
Proof. eapply C70_sort_lem. Qed.
Theorem C70_limit {A} a b (X : list Z) (Y : list A) : length X = length Y ->
  let XY := interval_limit a b X Y in
  fst XY = List.filter (fun x => bool_decide (a <= x <= b)%Z) X /\
  zip (fst XY) (snd XY) = List.filter (fun p => bool_decide (a <= fst p <= b)%Z) (zip X Y).
Proof. eapply C70_limit_lem. Qed.
(** an order which argsort may return exists *)
Example C70_example : exists argsort (X : list Z) (Y : list bool), sorts argsort /\ length X = length Y /\ nondecreasing X = false.
Proof. eapply C70_example_lem. Qed.

Print Assumptions C59_sections.
Print Assumptions C59_exact.
Print Assumptions C59_exact_refuted.
Print Assumptions C59_join.
Print Assumptions C59_anti.
Print Assumptions C59_anti_sections.
Print Assumptions C59_anti_refuted.
Print Assumptions C70_sort.
Print Assumptions C70_limit.
