(** Specification vocabulary for the sparse solver. *)
From Verif Require Import Fld Py LinSpec GraphModel GraphSpec DagModel SparseModel.
Local Open Scope fld_scope.

Section spec.
  Context {K : fld} {N : Type} `{Countable N}.
  Notation W := (wnode N).
  Notation wgraph := (graph K W).
  (** Set order, set.pop, scipy's solver and the order of its result dict. *)
  Record sparse_runtime := SparseRuntime {
    sr_enum : gset W -> list W;
    sr_pick : gset W -> option W;
    sr_spsolve : gset W -> gset W -> (W -> W -> K) -> (W -> W -> K) -> res (gmap (W * W) K);
    sr_xenum : gmap (W * W) K -> list ((W * W) * K);
  }.
  (** Assumed of scipy: on a uniquely solvable system, if it returns it returns
      the exact solution (as the list of its stored entries). *)
  Definition spsolve_exact (sp : gset W -> gset W -> (W -> W -> K) -> (W -> W -> K) -> res (gmap (W * W) K)) : Prop :=
    forall keys cols A b X, injective_sys (elements keys) A -> sp keys cols A b = Ok X ->
      (forall c k, is_Some (X !! (c, k)) -> c ∈ cols /\ k ∈ keys) /\
      (forall c, c ∈ cols -> solves (elements keys) A (b c) (fun k => default 0 (X !! (c, k)))).
  Record sparse_runtime_ok (rt : sparse_runtime) : Prop := {
    sr_enum_ok : forall X, sr_enum rt X ≡ₚ elements X;
    sr_pick_ok : forall X n, sr_pick rt X = Some n -> n ∈ X;
    sr_pick_none : forall X, sr_pick rt X = None -> X = ∅;
    sr_spsolve_ok : spsolve_exact (sr_spsolve rt);
    sr_xenum_ok : forall X, sr_xenum rt X ≡ₚ map_to_list X;
  }.
  (** scipy accepts every uniquely solvable system *)
  Definition spsolve_total (sp : gset W -> gset W -> (W -> W -> K) -> (W -> W -> K) -> res (gmap (W * W) K)) : Prop :=
    forall keys cols A b, injective_sys (elements keys) A -> exists X, sp keys cols A b = Ok X.
  Definition scisparse (rt : sparse_runtime) (g : wgraph) (O I : list N)
      (om : option (list (N * K))) (purge_in purge_out negative scattering : bool) : res solution :=
    sp_inverse_solve (sr_enum rt) (sr_pick rt) (sr_spsolve rt) (sr_xenum rt)
      g O I om purge_in purge_out negative scattering.
  (** [V] lists exactly the nodes that occur in the network or in the request *)
  Definition all_mentioned (V I O : list N) (om : option (list (N * K))) (g : wgraph) : Prop :=
    forall w, w ∈ dom (g_seq g) \/ w ∈ dom (g_req g) \/
              (exists n, w = Nd n /\ (n ∈ I \/ n ∈ O \/ n ∈ (default [] om).*1)) <->
              exists n, w = Nd n /\ n ∈ V.
End spec.
Arguments sparse_runtime K N {_ _}.
