(** Theorems about the graph written for METIS.  C98. *)
From stdpp Require Import base tactics list numbers.
From Verif Require Import MetModel MetSpec MetFinal.

Theorem C98_valid nlist es : NoDup nlist -> valid_metis (srabe2metis nlist es).
Proof. eapply C98_valid_lem. Qed.
Theorem C98_edges nlist es i j a b r : NoDup nlist -> nlist !! i = Some a -> nlist !! j = Some b -> i <> j -> rows (srabe2metis nlist es) !! i = Some r ->
  ((exists w, (S j, w) ∈ r) <-> exists w, coupled es a b w).
Proof. eapply C98_edges_lem. Qed.
Theorem C98_weight nlist es i j a b r w : NoDup nlist -> nlist !! i = Some a -> nlist !! j = Some b -> rows (srabe2metis nlist es) !! i = Some r ->
  (S j, w) ∈ r -> coupled es a b w.
Proof. eapply C98_weight_lem. Qed.
Theorem C98_last nlist es1 es2 i j a b x y w r : NoDup nlist -> nlist !! i = Some a -> nlist !! j = Some b -> i <> j ->
  (x, y) = (a, b) \/ (x, y) = (b, a) -> (forall w', ~ coupled es2 a b w') ->
  rows (srabe2metis nlist (es1 ++ (x, y, w) :: es2)) !! i = Some r -> (S j, w) ∈ r.
Proof. eapply C98_last_lem. Qed.
Theorem C98_max_refuted : exists nlist es i j a b r w w', NoDup nlist /\ nlist !! i = Some a /\ nlist !! j = Some b /\
  rows (srabe2metis nlist es) !! i = Some r /\ (S j, w) ∈ r /\ coupled es a b w' /\ (w < w')%nat.
Proof. eapply C98_max_refuted_lem. Qed.
Theorem C98_order_refuted : exists nlist iperm order, is_argsort iperm order /\ length iperm = length nlist /\
  metis_reorder (fun _ => order) nlist iperm <> omap (fun idx => nlist !! idx) order.
Proof. eapply C98_order_refuted_lem. Qed.
Example C98_example : exists nlist es es2 i j a b x y w r, NoDup nlist /\ nlist !! i = Some a /\ nlist !! j = Some b /\ i <> j /\ ((x, y) = (a, b) \/ (x, y) = (b, a)) /\
  (forall w', ~ coupled es2 a b w') /\ rows (srabe2metis nlist (es ++ (x, y, w) :: es2)) !! i = Some r /\ r <> [].
Proof. eapply C98_example_lem. Qed.
Print Assumptions C98_valid.
Print Assumptions C98_edges.
Print Assumptions C98_weight.
Print Assumptions C98_last.
Print Assumptions C98_max_refuted.
Print Assumptions C98_order_refuted.
