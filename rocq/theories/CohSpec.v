(** What the coherent sparsity analysis should compute. *)
From stdpp Require Import base tactics list numbers gmap fin_sets relations.
From Verif Require Import Fld Py GraphModel CohModel.

Section spec.
  Context {N : Type}.
  Context (js : list (injection N)) (bonds : list (N * N)).

  (** an injection puts a source at [x], scaled by the product of the fields [NZ], its
      value computed from the fields [rq] *)
  Definition source_term (x : N) (NZ rq : list N) : Prop :=
    exists j, j ∈ js /\ (x, (NZ, rq)) ∈ i_sources j.
  Definition edge_term (a b : N) (NZ rq : list N) : Prop :=
    exists j, j ∈ js /\ ((a, b), (NZ, rq)) ∈ i_edges j.
  (** an injection couples each of [ins] to each of [outs] in some way *)
  Definition float_term (ins outs : list N) : Prop :=
    exists j fs, j ∈ js /\ i_floats j = Some fs /\ (ins, outs) ∈ fs.

  (** the coherently driven nodes: the least set closed under these rules *)
  Inductive driven : N -> Prop :=
  | driven_source x NZ rq : source_term x NZ rq -> (forall n, n ∈ NZ -> driven n) -> driven x
  | driven_bond a b : (a, b) ∈ bonds -> driven a -> driven b
  | driven_edge a b NZ rq : edge_term a b NZ rq -> (forall n, n ∈ NZ -> driven n) ->
      driven a -> driven b
  | driven_float ins outs a b : float_term ins outs -> a ∈ ins -> b ∈ outs ->
      driven a -> driven b.

  (** the edges that take part: bonds, and couplings all of whose factors are driven *)
  Definition link (a b : N) : Prop :=
    (a, b) ∈ bonds \/ exists NZ rq, edge_term a b NZ rq /\ forall n, n ∈ NZ -> driven n.
  Definition live_source (x : N) : Prop :=
    exists NZ rq, source_term x NZ rq /\ forall n, n ∈ NZ -> driven n.
  (** the nodes whose solution the next iteration reads *)
  Definition needed (n : N) : Prop :=
    (exists j l, j ∈ js /\ i_req j = Some l /\ n ∈ l) \/
    (exists x NZ rq, source_term x NZ rq /\ n ∈ rq /\ forall n, n ∈ NZ -> driven n) \/
    (exists a b NZ rq, edge_term a b NZ rq /\ n ∈ rq /\ forall n, n ∈ NZ -> driven n).
  (** one step of influence *)
  Definition influences (a b : N) : Prop :=
    link a b \/ exists ins outs, float_term ins outs /\ a ∈ ins /\ b ∈ outs.
  Definition drive_ac (n : N) : Prop := exists j, j ∈ js /\ n ∈ i_ac_in j.
  Definition read_ac (n : N) : Prop := exists j, j ∈ js /\ n ∈ i_ac_out j.

  (** frozen sets have no duplicates *)
  Definition frozen : Prop :=
    (forall x NZ rq, source_term x NZ rq -> NoDup NZ /\ NoDup rq) /\
    (forall a b NZ rq, edge_term a b NZ rq -> NoDup NZ /\ NoDup rq).
End spec.

(** set iteration order and set.pop *)
Record coh_runtime (N : Type) `{Countable N} := CohRt {
  cr_enum : gset (vnode N) -> list (vnode N);
  cr_pick : gset (vnode N) -> option (vnode N);
}.
Arguments cr_enum {_ _ _}. Arguments cr_pick {_ _ _}. Arguments CohRt {_ _ _}.
Record coh_runtime_ok {N} `{Countable N} (rt : coh_runtime N) : Prop := {
  cr_enum_ok : forall X, cr_enum rt X ≡ₚ elements X;
  cr_pick_ok : forall X n, cr_pick rt X = Some n -> n ∈ X;
  cr_pick_none : forall X, cr_pick rt X = None -> X = ∅;
}.

(** building the matrix structure: insert every injection, then analyse; the two
    injection dicts are read in any order *)
Definition coherent_run {N} `{Countable N} (rt : coh_runtime N) (known : N -> bool) (fuel : nat)
    (js : list (injection N)) (bonds : list (N * N))
    (isrc : list (N * entries N)) (iedge : list ((N * N) * entries N)) (r : res (bunch (N := N))) : Prop :=
  exists srcs edges, mfor (injection_insert known) js (∅, ∅) = Ok (srcs, edges) /\
    isrc ≡ₚ map_to_list srcs /\ iedge ≡ₚ map_to_list edges /\
    r = sparsity_graph (cr_enum rt) (cr_pick rt) fuel js bonds isrc iedge.
