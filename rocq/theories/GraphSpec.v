(** Specification vocabulary for the graph solvers: what a well-formed problem
    is, and the sources of nondeterminism of the Python run. *)
From Verif Require Import Fld Py LinSpec GraphModel.
Local Open Scope fld_scope.

Section spec.
  Context {K : fld} {N : Type} `{Countable N}.
  Notation W := (wnode N).
  Notation wgraph := (graph K W).

  (** A scattering problem as system/solver_algorithm.py builds it: links only
      between the caller's nodes [V], recorded in both directions, and every
      edge value belongs to a link (a link without a value is allowed). *)
  Record scattering_input (V : list N) (g : wgraph) : Prop := {
    si_nodup : NoDup V;
    si_mirror : forall r s, s ∈ ds_get (g_seq g) r <-> r ∈ ds_get (g_req g) s;
    si_nodes : forall r s, s ∈ ds_get (g_seq g) r ->
                 exists a b, r = Nd a /\ s = Nd b /\ a ∈ V /\ b ∈ V;
    si_em : forall r s, is_Some (g_em g !! (r, s)) -> s ∈ ds_get (g_seq g) r;
  }.
  (** the matrix it stands for *)
  Definition S_of (g : wgraph) (r s : N) : K := default 0 (g_em g !! (Nd r, Nd s)).
  (** the source vector given as a dict *)
  Definition m_of (om : option (list (N * K))) (s : N) : K :=
    default 0 ((list_to_map (default [] om) : gmap N K) !! s).
  (** duplicate-free requests about nodes of the network *)
  Record request_ok (V I O : list N) (om : option (list (N * K))) : Prop := {
    rq_I : NoDup I; rq_O : NoDup O; rq_om : NoDup ((default [] om).*1);
    rq_IV : forall i, i ∈ I -> i ∈ V; rq_OV : forall o, o ∈ O -> o ∈ V;
    rq_mV : forall i, i ∈ (default [] om).*1 -> i ∈ V;
  }.

  (** entries of the returned dicts; a missing key means no coupling *)
  Definition R_of (sol : solution (K := K) (N := N)) (i o : N) : K := default 0 (sol_edge_map sol !! (i, o)).
  Definition m_out (sol : solution (K := K) (N := N)) (o : N) : K :=
    default 0 (default ∅ (sol_outputs_map sol) !! o).
  Definition sgn (negative : bool) : K := if negative then - (1) else 1.

  (** What Python leaves open: set iteration order, set.pop, the outcome of
      [x is 1], the cost heuristic and the order of the priority queue. *)
  Record runtime := Runtime {
    rt_enum : gset W -> list W;
    rt_pick : gset W -> option W;
    rt_one : K -> bool;
    rt_cost : wgraph -> W -> Z;
    rt_pop : list (Z * W) -> option ((Z * W) * list (Z * W));
  }.
  Record runtime_ok (rt : runtime) : Prop := {
    rt_enum_ok : forall X, rt_enum rt X ≡ₚ elements X;
    rt_pick_ok : forall X n, rt_pick rt X = Some n -> n ∈ X;
    rt_pick_none : forall X, rt_pick rt X = None -> X = ∅;
    rt_one_ok : forall x, rt_one rt x = true -> x = 1;
    rt_pop_ok : forall l x l', rt_pop rt l = Some (x, l') -> l ≡ₚ x :: l';
    rt_pop_none : forall l, rt_pop rt l = None -> l = [];
  }.
  Definition loop_fast_unstable (rt : runtime) (g : wgraph) (O I : list N)
      (om : option (list (N * K))) (purge_in purge_out negative : bool) : res solution :=
    fast_inverse_solve (rt_enum rt) (rt_pick rt) (rt_one rt) (rt_cost rt) (rt_pop rt)
      g O I om purge_in purge_out negative true.

  (** [b] can be reached from [start] along links of the adjacency map [m] *)
  Definition reachable {M} `{Countable M} (m : gmap M (gset M)) (start : gset M) (b : M) : Prop :=
    exists a, a ∈ start /\ rtc (fun a b => b ∈ ds_get m a) a b.
End spec.
