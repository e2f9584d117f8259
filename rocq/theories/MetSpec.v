(** What METIS demands of its input, and what the system asks. *)
From stdpp Require Import base tactics list numbers.
From Verif Require Import MetModel.

Definition sum_list (l : list nat) : nat := foldr Nat.add 0%nat l.
(** an undirected graph with weights: one row for each vertex, vertices counted from 1, no loop, no
    neighbour twice, both rows of an edge the same weight, each edge counted once *)
Definition valid_metis (g : metis) : Prop :=
  length (rows g) = vertices g /\
  (forall i r, rows g !! i = Some r -> NoDup (map fst r) /\ forall j w, (j, w) ∈ r -> (1 <= j <= vertices g)%nat /\ j <> S i) /\
  (forall i j r r' w, rows g !! i = Some r -> rows g !! j = Some r' -> (S j, w) ∈ r -> (S i, w) ∈ r') /\
  sum_list (map length (rows g)) = (2 * edges g)%nat.
(** the system couples the two nodes, in one direction or the other *)
Definition coupled (edge_map : list ((nat * nat) * nat)) (a b w : nat) : Prop := (a, b, w) ∈ edge_map \/ (b, a, w) ∈ edge_map.
(** the indices of a list in the order of its values *)
Definition is_argsort (l order : list nat) : Prop :=
  order ≡ₚ seq 0 (length l) /\
  forall i j a b x y, (i < j)%nat -> order !! i = Some a -> order !! j = Some b -> l !! a = Some x -> l !! b = Some y -> (x <= y)%nat.
