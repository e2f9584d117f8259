(** Model of the sparse-matrix solver.  /repo/phasor/matrix/scisparse_algorithm.py

    Scalars stand for one element of the broadcast value arrays; the code runs
    the same solve for every element.  scipy's [spsolve] is an oracle. *)
From Verif Require Import Fld Py GraphModel DagModel.
Local Open Scope fld_scope.

Section simplify.
  Context {K : fld} {N : Type} `{Countable N}.
  Context (enum : gset N -> list N).
  Notation srabe := (srabe K N).

  (** scipy.sparse.linalg.spsolve on the matrix [A] (column, row) with the given
      keys, for the right-hand sides [b c], c in cols; the result lists the
      stored entries x(c, key). *)
  Context (spsolve : gset N -> gset N -> (N -> N -> K) -> (N -> N -> K) -> res (gmap (N * N) K)).
  (** iteration order of the result dict *)
  Context (xenum : gmap (N * N) K -> list ((N * N) * K)).

  Definition members (m : gmap N (gset N)) : gset N := ⋃ ((map_to_list m).*2).
  (** 103-109 *)
  Definition sp_keys (s : srabe) : gset N :=
    dom (q_seq s) ∪ dom (q_req s) ∪ members (q_req s) ∪ members (q_seq s).
  (** 157-162: the matrix built from seq and edge_map *)
  Definition sp_A (s : srabe) (c r : N) : K :=
    if decide (r ∈ ds_get (q_seq s) c) then default 0 (q_em s !! (c, r)) else 0.
  (** 164-174 *)
  Definition sp_b (s : srabe) (c r : N) : K :=
    if decide (c ∈ ds_get (q_ra s) r) then default 0 (q_em s !! (c, r)) else 0.

  (** 237-251: one stored entry of the solution.  [sb] and [em] are the dicts as
      they were before the loop. *)
  Definition sp_entry (s0 : srabe) (s : srabe) (cx : (N * N) * K) : res srabe :=
    let '((c, k), x) := cx in
    match elements (ds_get (q_sb s0) k) with
    | [] => Ok s
    | [o] => v ← d_get (q_em s0) (k, o);
             Ok (SR (q_seq s) (q_req s) (ds_add (q_ra s) o c) (ds_add (q_sb s) c o)
                    (<[(c, o) := x * v]> (q_em s)))
    | _ => Err AssertionError
    end.

  (** 79-255 mgraph_simplify_inplace.  The lookups [edge_map[k]] and
      [keys_inv[k_to]] that can raise KeyError come first. *)
  Definition sp_simplify (s : srabe) : res srabe :=
    g ← check_balance enum (Graph (q_seq s) (q_req s) (q_em s));
    let s := with_em s (g_em g) in
    let keys := sp_keys s in
    _ ← mfor (fun _ n => mfor (fun _ o => _ ← d_get (q_em s) (n, o); Ok tt) (enum (ds_get (q_sb s) n)) tt)
             (enum (dom (q_sb s))) tt;
    _ ← mfor (fun _ n => mfor (fun _ o => _ ← d_get (q_em s) (n, o); Ok tt) (enum (ds_get (q_seq s) n)) tt)
             (enum (dom (q_seq s))) tt;
    _ ← mfor (fun _ n => mfor (fun _ a => _ ← d_get (q_em s) (a, n);
                                          if decide (n ∈ keys) then Ok tt else Err KeyError)
                              (enum (ds_get (q_ra s) n)) tt)
             (enum (dom (q_ra s))) tt;
    x ← spsolve keys (members (q_ra s)) (sp_A s) (sp_b s);
    mfor (sp_entry s) (xenum x) (with_em s ∅).
End simplify.

(** 258-404 inverse_solve_inplace *)
Section solve.
  Context {K : fld} {N : Type} `{Countable N}.
  Notation W := (wnode N).
  Notation wgraph := (graph K W).
  Context (enum : gset W -> list W) (pick : gset W -> option W).
  Context (spsolve : gset W -> gset W -> (W -> W -> K) -> (W -> W -> K) -> res (gmap (W * W) K)).
  Context (xenum : gmap (W * W) K -> list ((W * W) * K)).

  (** 283-295: here the requested nodes count as nodes too *)
  Definition sp_scatter (g : wgraph) (outputs_set inputs_set : list N)
      (inputs_map : option (list (N * K))) : res wgraph :=
    mfor dag_diag (enum (dom (g_seq g) ∪ dom (g_req g) ∪ list_to_set (Nd <$> inputs_set)
                         ∪ list_to_set (Nd <$> outputs_set)
                         ∪ list_to_set (Nd <$> (default [] inputs_map).*1))) g.

  (** 299-332: the dressing is that of DAG_algorithm.py except for the sign of
      the output edges: -1 if negative else 1. *)
  Definition sp_dress (g : wgraph) (outputs_set inputs_set : list N)
      (inputs_map : option (list (N * K))) (negative : bool) : srabe K W :=
    let s := SR (g_seq g) (g_req g) ∅ ∅ (g_em g) in
    let s := fold_left (fun s iv => dag_alpha s iv.1 WVac iv.2) (default [] inputs_map) s in
    let s := fold_left (fun s i => dag_alpha s i (WIn i) 1) inputs_set s in
    fold_left (dag_beta (if negative then - (1) else 1)) outputs_set s.

  Definition sp_inverse_solve (g : wgraph) (outputs_set inputs_set : list N)
      (inputs_map : option (list (N * K))) (purge_in purge_out negative scattering : bool)
      : res (solution (K := K) (N := N)) :=
    (* 273-280: early exit *)
    if decide (outputs_set = [] \/ (inputs_map = None /\ inputs_set = []))
    then Ok (Solution (Some ∅) ∅) else
    g ← (if scattering then sp_scatter g outputs_set inputs_set inputs_map else Ok g);
    let negative := if scattering then negb negative else negative in
    let s := sp_dress (pre_purge g) outputs_set inputs_set inputs_map negative in
    s ← (if purge_in then dag_purge_in enum pick s else Ok s);
    s ← (if purge_out then dag_purge_out enum pick s else Ok s);
    s ← sp_simplify enum spsolve xenum s;
    unwrap enum (ds_get (q_sb s)) (q_em s) outputs_set inputs_set
           (match inputs_map with Some _ => true | None => false end).
End solve.
