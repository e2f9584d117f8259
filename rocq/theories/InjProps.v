(** Theorems about the coupling injections.  C34, C35.  Division is the field's; the
    statements are about values at which the denominators do not vanish. *)
From stdpp Require Import base tactics list numbers gmap fin_sets.
From Coq Require Import QArith Qcanon.
From Verif Require Import Fld Py InjModel InjSpec InjProofs.
Local Open Scope fld_scope.

(** C34, C35: the edges and sources generated around a field solution sum, at that
    solution, to what the injections (constant, multiplicative and triplet couplings) and
    the bonds add to each node. *)
Theorem C34_value {K : fld} {P Q} `{Countable P} `{Countable Q} (big eps : K)
    (js : list (inj K P Q)) (bonds : gset ((P * Q) * (P * Q))) (links : list ((P * Q) * (P * Q))) (inputs nodes : list (P * Q))
    (x : gmap (P * Q) K) M v seq seq' req req' :
  covers big eps js bonds links inputs nodes x -> (forall j, j ∈ js -> same_norm big eps x j) ->
  edge_matrix big js bonds links seq req x = Ok (M, seq', req') ->
  source_vector big eps js inputs x = Ok v ->
  forall t, default 0 (v !! t) + apply M nodes (fun n => sget x n 0) t
            = total big js bonds nodes (fun n => sget x n 0) x t.
Proof. exact (C34_value_lem big eps js bonds links inputs nodes x M v seq seq' req req'). Qed.
Print Assumptions C34_value.

(** C34, C35: hence a field solution is reproduced by one more iteration (it solves the
    linear system generated around it) exactly when it solves the nonlinear equations. *)
Theorem C34_fixed_point {K : fld} {P Q} `{Countable P} `{Countable Q} (big eps : K)
    (js : list (inj K P Q)) (bonds : gset ((P * Q) * (P * Q))) (links : list ((P * Q) * (P * Q))) (inputs nodes : list (P * Q))
    (x : gmap (P * Q) K) M v seq seq' req req' :
  covers big eps js bonds links inputs nodes x -> (forall j, j ∈ js -> same_norm big eps x j) ->
  edge_matrix big js bonds links seq req x = Ok (M, seq', req') ->
  source_vector big eps js inputs x = Ok v ->
  (forall t, sget x t 0 = default 0 (v !! t) + apply M nodes (fun n => sget x n 0) t) <->
  (forall t, sget x t 0 = total big js bonds nodes (fun n => sget x n 0) x t).
Proof. exact (C34_fixed_point_lem big eps js bonds links inputs nodes x M v seq seq' req req'). Qed.
Print Assumptions C34_fixed_point.

(** C34, C35: the generated matrix is the exact derivative: for any change of the fields
    (the norms held fixed), what arrives at a node changes by the matrix applied to the
    change plus the product of the two changes, provided each triplet has two different
    factors. *)
Theorem C34_derivative {K : fld} {P Q} `{Countable P} `{Countable Q} (big eps : K)
    (js : list (inj K P Q)) (bonds : gset ((P * Q) * (P * Q))) (links : list ((P * Q) * (P * Q))) (inputs nodes : list (P * Q))
    (x : gmap (P * Q) K) M seq seq' req req' d :
  covers big eps js bonds links inputs nodes x -> (forall j, j ∈ js -> bilinear j) ->
  edge_matrix big js bonds links seq req x = Ok (M, seq', req') ->
  forall t, total big js bonds nodes (fun n => sget x n 0 + d n) x t =
    total big js bonds nodes (fun n => sget x n 0) x t + apply M nodes d t + total_second big js d x t.
Proof. exact (C34_derivative_lem big eps js bonds links inputs nodes x M seq seq' req req' d). Qed.
Print Assumptions C34_derivative.

(** C34: generating the matrix succeeds when every link is either a bond between equal
    keys or given by injections, not both; afterwards the sparsity structure, in both
    directions, is exactly that of the non-zero entries. *)
Theorem C34_pruned {K : fld} {P Q} `{Countable P} `{Countable Q} (big eps : K)
    (js : list (inj K P Q)) (bonds : gset ((P * Q) * (P * Q))) (links : list ((P * Q) * (P * Q))) (inputs nodes : list (P * Q))
    (x : gmap (P * Q) K) seq req :
  covers big eps js bonds links inputs nodes x ->
  (forall a b, (a, b) ∈ links <-> b ∈ ds_get seq a) -> (forall a b, b ∈ ds_get seq a <-> a ∈ ds_get req b) ->
  (forall l, l ∈ links -> l ∈ bonds -> l.2.2 = l.1.2 /\ forall j e, j ∈ js -> e ∈ inj_edges big j -> e.1 <> l) ->
  (forall l, l ∈ links -> l ∈ bonds \/ exists j e, j ∈ js /\ e ∈ inj_edges big j /\ e.1 = l) ->
  exists M seq' req', edge_matrix big js bonds links seq req x = Ok (M, seq', req') /\
    (forall a b, b ∈ ds_get seq' a <-> entry M a b <> 0) /\
    (forall a b, a ∈ ds_get req' b <-> entry M a b <> 0) /\
    (forall a b, is_Some (M !! (a, b)) <-> entry M a b <> 0).
Proof. exact (fun Hc => pruned_lem big eps js bonds links inputs nodes x Hc seq req). Qed.
Print Assumptions C34_pruned.

(** C34: a triplet that squares one field gets half its derivative. *)
Theorem C34_square_refuted : exists (js : list (inj Qc_fld nat nat)) links inputs nodes x M seq seq' req req' d t,
  covers f0 f0 js ∅ links inputs nodes x /\
  edge_matrix f0 js ∅ links seq req x = Ok (M, seq', req') /\
  total f0 js ∅ nodes (fun n => sget x n 0 + d n) x t <>
    total f0 js ∅ nodes (fun n => sget x n 0) x t + apply M nodes d t + total_second f0 js d x t.
Proof. exact (C34_square_refuted_lem). Qed.
Print Assumptions C34_square_refuted.

(** C35: with the 1e-30 added in the source only, a normalised triplet of two different
    fields misses its value by exactly this amount. *)
Theorem C35_norm_defect {K : fld} {P Q} `{Countable P} `{Countable Q} (big eps : K)
    (p1 p2 t pn : P * Q) (c : K) (f : K -> K) (x : gmap (P * Q) K) :
  p1 <> p2 -> p1 <> t -> p2 <> t -> sget x p1 0 <> 0 -> sget x p2 0 <> 0 -> c <> 0 ->
  f (sget x pn big) <> 0 -> f (sget x pn big + eps) <> 0 ->
  let js := [TripletNorm p1 p2 t pn c f] in
  exists M v, edge_matrix big js ∅ [(p1, t); (p2, t)]
      {[ p1 := {[ t ]}; p2 := {[ t ]} ]} {[ t := {[ p1; p2 ]} ]} x = Ok M /\
    source_vector big eps js [t] x = Ok v /\
    default 0 (v !! t) + apply M.1.1 [p1; p2] (fun n => sget x n 0) t =
      amount big (fun n => sget x n 0) x (TripletNorm p1 p2 t pn c f) +
      c * sget x p1 0 * sget x p2 0 * (1 / f (sget x pn big) - 1 / f (sget x pn big + eps)).
Proof. exact (norm_defect_lem big eps p1 p2 t pn c f x). Qed.
Print Assumptions C35_norm_defect.

(** C35: so the value is wrong for the code's own literals, already with the identity as
    norm function and all fields equal to 1. *)
Theorem C35_norm_refuted : exists (js : list (inj Qc_fld nat nat)) links inputs nodes x M v seq seq' req req' t,
  let big := Q2Qc (1000000000000 # 1) : Qc_fld in let eps := Q2Qc (1 # 1000000000000000000000000000000) : Qc_fld in
  covers big eps js ∅ links inputs nodes x /\
  edge_matrix big js ∅ links seq req x = Ok (M, seq', req') /\ source_vector big eps js inputs x = Ok v /\
  default 0 (v !! t) + apply M nodes (fun n => sget x n 0) t <> total big js ∅ nodes (fun n => sget x n 0) x t.
Proof. exact norm_refuted_lem. Qed.
Print Assumptions C35_norm_refuted.

(** C35: the dependence on the norm is left out of the derivative: changing only the norm
    changes what arrives, although the matrix sees no change. *)
Theorem C35_norm_derivative_refuted : exists (js : list (inj Qc_fld nat nat)) links inputs nodes x x' M seq seq' req req' t,
  let big := Q2Qc (1000000000000 # 1) : Qc_fld in
  covers big 0 js ∅ links inputs nodes x /\ (forall j, j ∈ js -> bilinear j) /\
  edge_matrix big js ∅ links seq req x = Ok (M, seq', req') /\
  (forall j, j ∈ js -> second_order big (fun n => sget x' n 0 - sget x n 0) x j = 0) /\
  total big js ∅ nodes (fun n => sget x' n 0) x' t <>
    total big js ∅ nodes (fun n => sget x n 0) x t + apply M nodes (fun n => sget x' n 0 - sget x n 0) t.
Proof. exact norm_derivative_refuted_lem. Qed.
Print Assumptions C35_norm_derivative_refuted.

(** the hypotheses hold for a constant source, a constant edge, a bond, a triplet and a
    triplet with two norms *)
Example C34_hypotheses : exists M v seq' req',
  covers 0 0 ex_js ex_bonds ex_links ex_inputs ex_nodes ex_x /\
  (forall j, j ∈ ex_js -> bilinear j /\ same_norm 0 0 ex_x j) /\
  edge_matrix 0 ex_js ex_bonds ex_links ex_seq ex_req ex_x = Ok (M, seq', req') /\
  source_vector 0 0 ex_js ex_inputs ex_x = Ok v /\
  M !! ((0, 0), (2, 0))%nat = Some (Q2Qc (15 # 1)) /\ v !! (2, 0)%nat = Some (Q2Qc (-30 # 1)).
Proof. exact C34_hypotheses_lem. Qed.
