(** Theorems about topological_sort.  C18. *)
From stdpp Require Import base tactics list numbers gmap relations.
From Verif Require Import Fld Py TopoModel TopoSpec TopoProofs.

(** C18 (acyclic graphs).  Whenever the nodes needed by the starting nodes are
    finitely many and nothing depends on itself, the sort terminates and yields
    exactly the needed nodes, once each, every node after all it depends on; in
    both output modes, for every successor order. *)
Theorem C18_acyclic {N : Type} `{Countable N} (succ : N -> list N) (single : bool) (V nodes : list N) :
  acyclic succ -> NoDup V -> (forall a b, a ∈ V -> dep succ a b -> b ∈ V) -> (forall n, n ∈ nodes -> n ∈ V) ->
  exists c out, (forall f, c <= f -> topological_sort succ single f nodes = Ok (ynode single <$> out, None)) /\
    NoDup out /\ dependencies_first succ out /\ (forall x, x ∈ out <-> needed succ nodes x).
Proof. exact (topo_acyclic succ single V nodes). Qed.
Print Assumptions C18_acyclic.

(** C18 (any graph, single mode).  The sort terminates; either it yields all needed
    nodes with dependencies first and no two distinct needed nodes depend on each
    other, or it raises SCCError naming at least two needed nodes that all depend
    on each other, everything yielded before being in order.  Missing from the
    full claim: the reported nodes need not be the whole strongly connected
    component, and a node depending on itself directly is not reported. *)
Theorem C18_cyclic_partial {N : Type} `{Countable N} (succ : N -> list N) (V nodes : list N) :
  NoDup V -> (forall a b, a ∈ V -> dep succ a b -> b ∈ V) -> (forall n, n ∈ nodes -> n ∈ V) ->
  exists c out scc, (forall f, c <= f -> topological_sort succ true f nodes = Ok (YNode <$> out, scc)) /\
    NoDup out /\ dependencies_first succ out /\ (forall x, x ∈ out -> needed succ nodes x) /\
    match scc with
    | None => (forall x, needed succ nodes x -> x ∈ out) /\
              (forall l, (forall x, x ∈ l -> needed succ nodes x) -> ~ knotted succ l)
    | Some comp => knotted succ comp /\ (forall x, x ∈ comp -> needed succ nodes x)
    end.
Proof. exact (topo_single succ V nodes). Qed.
Print Assumptions C18_cyclic_partial.

(** C18 (refutation).  A three-cycle is split into two components (default mode) or
    reported incompletely (single mode), a two-cycle makes the default mode raise
    IndexError, a self-dependency is not reported. *)
Theorem C18_cycles_refuted :
  topological_sort cycle3 false 100 [0] = Ok ([YTuple [2; 1]; YTuple [0]], None) /\
  topological_sort cycle3 true 100 [0] = Ok ([], Some [2; 1]) /\
  topological_sort cycle2 false 100 [0] = Err IndexError /\
  topological_sort loop1 true 100 [0] = Ok ([YNode 0], None).
Proof. exact cycles_wrong. Qed.
Print Assumptions C18_cycles_refuted.

(** a diamond with a chain satisfies the hypotheses of C18_acyclic *)
Definition diamond (n : nat) : list nat := match n with 0 => [1; 2] | 1 => [2; 3] | 2 => [3] | _ => [] end.
Example diamond_acyclic :
  acyclic diamond /\ NoDup [0; 1; 2; 3] /\
  (forall a b, a ∈ [0; 1; 2; 3] -> dep diamond a b -> b ∈ [0; 1; 2; 3]) /\
  topological_sort diamond true 100 [1; 0] = Ok ([YNode 3; YNode 2; YNode 1; YNode 0], None).
Proof.
  split_and!.
  - assert (forall a b, tc (dep diamond) a b -> a < b) as G.
    { intros a b Hp. induction Hp as [a b Hab|a b c Hab Hbc IH].
      - unfold dep in Hab. destruct a as [|[|[|a]]]; cbn in Hab; set_unfold; naive_solver lia.
      - unfold dep in Hab. assert (a < b); [|lia]. destruct a as [|[|[|a]]]; cbn in Hab; set_unfold; naive_solver lia. }
    intros n Hn. apply G in Hn. lia.
  - vm_decide.
  - intros a b Ha Hd. unfold dep in Hd. set_unfold. destruct Ha as [->|[->|[->|[->|[]]]]]; cbn in Hd; set_unfold; naive_solver.
  - reflexivity.
Qed.
Example cycle3_closed :
  NoDup [0; 1; 2] /\ (forall a b, a ∈ [0; 1; 2] -> dep cycle3 a b -> b ∈ [0; 1; 2]).
Proof.
  split; [vm_decide|]. intros a b Ha Hd. unfold dep in Hd. set_unfold.
  destruct Ha as [->|[->|[->|[]]]]; cbn in Hd; set_unfold; naive_solver.
Qed.
