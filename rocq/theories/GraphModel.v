(** Model of phasor/matrix/matrix_generic.py and phasor/matrix/graph_algorithm.py
    (the 'loop_fast_unstable' solver). *)
From stdpp Require Import base tactics list numbers gmap fin_sets option.
From Verif Require Import Fld Py.
Local Open Scope fld_scope.

(** ** Adjacency plus edge values.
    [seq]/[req] are [defaultdict(set)] (system/solver_algorithm.py builds them so),
    [edge_map] a plain dict.  A key mapped to the empty set and an absent key are
    indistinguishable to all the code below, except where said. *)
Record graph (K : fld) (N : Type) `{Countable N} := Graph {
  g_seq : gmap N (gset N);
  g_req : gmap N (gset N);
  g_em  : gmap (N * N) K;
}.
Arguments Graph {K N _ _} _ _ _. Arguments g_seq {K N _ _} _.
Arguments g_req {K N _ _} _. Arguments g_em {K N _ _} _.

Section model.
  Context {K : fld} {N : Type} `{Countable N}.
  Notation graph := (graph K N).
  (** the order in which Python iterates a set or the keys of a dict *)
  Context (enum : gset N -> list N).

  (** matrix_generic.py:34-44 check_seq_req_balance.  The iteration over
      [seq.items()] is over the keys; [if edge_map and ...] skips the repair when
      the edge map is empty. *)
  Definition check_balance (g : graph) : res graph :=
    em ← mfor (fun em node =>
                 mfor (fun em snode =>
                         if decide (node ∈ ds_get (g_req g) snode) then
                           if decide (em <> ∅) then
                             match em !! (node, snode) with
                             | Some _ => Ok em
                             | None => Ok (<[(node, snode) := 0]> em)
                             end
                           else Ok em
                         else Err AssertionError)
                      (enum (ds_get (g_seq g) node)) em)
              (enum (dom (g_seq g))) (g_em g);
    _ ← mfor (fun _ node =>
                mfor (fun _ rnode =>
                        if decide (node ∈ ds_get (g_seq g) rnode) then Ok tt
                        else Err AssertionError)
                     (enum (ds_get (g_req g) node)) tt)
             (enum (dom (g_req g))) tt;
    Ok (Graph (g_seq g) (g_req g) em).

  (** matrix_generic.py:64-70, the colouring loop of color_purge_inplace.
      [pick] is [set.pop()]: some element of a non-empty set. *)
  Context (pick : gset N -> option N).
  Fixpoint color_loop (fuel : nat) (emap : gmap N (gset N)) (active pending : gset N)
      : res (gset N) :=
    match pick pending with
    | None => Ok active
    | Some node =>
      match fuel with
      | O => Err OutOfFuel
      | S fuel =>
        let active := {[node]} ∪ active in
        let pending := pending ∖ {[node]} in
        let pending := fold_left (fun p snode => if decide (snode ∈ active) then p
                                                 else {[snode]} ∪ p)
                                 (enum (ds_get emap node)) pending in
        color_loop fuel emap active pending
      end
    end.

  (** matrix_generic.py:124-134 edgedelwarn: a missing edge is only a warning. *)
  Definition edgedelwarn (em : gmap (N * N) K) (a b : N) : gmap (N * N) K := delete (a, b) em.

  (** matrix_generic.py:136-152 purge_subgraph_inplace.  Line 148 is commented
      out in the source: edges INTO a purged node stay in the edge map. *)
  Definition purge_step_s (purge : gset N) (node : N) (g : graph) (snode : N) : res graph :=
    let em := edgedelwarn (g_em g) node snode in
    if decide (snode ∈ purge) then Ok (Graph (g_seq g) (g_req g) em)
    else req ← ds_remove (g_req g) snode node; Ok (Graph (g_seq g) req em).
  Definition purge_step_r (purge : gset N) (node : N) (g : graph) (rnode : N) : res graph :=
    if decide (rnode ∈ purge) then Ok g
    else seq ← ds_remove (g_seq g) rnode node; Ok (Graph seq (g_req g) (g_em g)).
  Definition purge_node (purge : gset N) (g : graph) (node : N) : res graph :=
    g ← mfor (purge_step_s purge node) (enum (ds_get (g_seq g) node)) g;
    let g := Graph (delete node (g_seq g)) (g_req g) (g_em g) in
    g ← mfor (purge_step_r purge node) (enum (ds_get (g_req g) node)) g;
    Ok (Graph (g_seq g) (delete node (g_req g)) (g_em g)).
  Definition purge_subgraph (purge : gset N) (g : graph) : res graph :=
    mfor (purge_node purge) (enum purge) g.

  (** all nodes mentioned by an adjacency map: only used as the loop bound *)
  Definition ds_nodes (m : gmap N (gset N)) : gset N :=
    dom m ∪ map_fold (fun _ X acc => X ∪ acc) ∅ m.

  (** reading [d[n]] on a defaultdict creates the key *)
  Definition ds_touch (m : gmap N (gset N)) (X : gset N) : gmap N (gset N) :=
    m ∪ gset_to_gmap ∅ X.

  (** matrix_generic.py:47-75 color_purge_inplace; [fwd]: [emap] is [seq],
      otherwise [req].  Every coloured node gets read from [emap], which creates
      its key before [set(seq.keys())] is taken. *)
  Definition color_purge (start : gset N) (fwd : bool) (g : graph) : res graph :=
    let emap := if fwd then g_seq g else g_req g in
    active ← color_loop (size (start ∪ ds_nodes emap)) emap ∅ start;
    let g := if fwd then Graph (ds_touch (g_seq g) active) (g_req g) (g_em g)
             else Graph (g_seq g) (ds_touch (g_req g) active) (g_em g) in
    purge_subgraph (dom (g_seq g) ∖ active) g.

  (** matrix_generic.py:78-98 / 101-121 with [except_set] given and no
      alpha/beta maps, as called by graph_algorithm.py:211-223. *)
  Definition purge_reqless (except_set : gset N) (g : graph) : res graph :=
    color_purge except_set true g.
  Definition purge_seqless (except_set : gset N) (g : graph) : res graph :=
    color_purge except_set false g.

  (** matrix_generic.py:155-172 pre_purge_inplace *)
  Definition pre_purge (g : graph) : graph :=
    Graph (map_imap (fun inode X => Some (filter (fun s => is_Some (g_em g !! (inode, s))) X)) (g_seq g))
          (map_imap (fun snode X => Some (filter (fun i => is_Some (g_em g !! (i, snode))) X)) (g_req g))
          (g_em g).

  (** ** graph_algorithm.py:25-148 mgraph_simplify_inplace *)

  (** lines 118-130.  [x is 1] is an identity test: it may hold only when the
      value is 1, but need not. *)
  Context (is_one : K -> bool).
  Definition prod_edge (clg : option K) (sedge redge : K) : K :=
    match clg with
    | None => if is_one sedge then redge else if is_one redge then sedge else sedge * redge
    | Some c => if is_one sedge then c * redge else if is_one redge then sedge * c
                else sedge * c * redge
    end.

  (** lines 115-140, body of [for rnode in req[node]]; the second component is
      node_costs_invalid_in_queue *)
  Definition fast_step_r (node snode : N) (clg : option K) (sedge : K)
      (st : graph * gset N) (rnode : N) : res (graph * gset N) :=
    let '(g, inv) := st in
    redge ← d_get (g_em g) (rnode, node);
    let prod := prod_edge clg sedge redge in
    match g_em g !! (rnode, snode) with
    | Some prev_edge =>
        Ok (Graph (g_seq g) (g_req g) (<[(rnode, snode) := prev_edge + prod]> (g_em g)), inv)
    | None =>
        Ok (Graph (ds_add (g_seq g) rnode snode) (ds_add (g_req g) snode rnode)
                  (<[(rnode, snode) := prod]> (g_em g)),
            {[rnode; snode]} ∪ inv)
    end.

  (** lines 113-142, body of [for snode in seq[node]] *)
  Definition fast_step_s (node : N) (clg : option K) (st : graph * gset N) (snode : N)
      : res (graph * gset N) :=
    sedge ← d_get (g_em st.1) (node, snode);
    st ← mfor (fast_step_r node snode clg sedge) (enum (ds_get (g_req st.1) node)) st;
    req ← ds_remove (g_req st.1) snode node;
    em ← d_del (g_em st.1) (node, snode);
    Ok (Graph (g_seq st.1) req em, st.2).

  (** lines 96-106: the self loop. The value [edge_map[node, node]] stays behind. *)
  Definition fast_loop_gain (node : N) (g : graph) : res (graph * option K) :=
    if decide (node ∈ ds_get (g_seq g) node) then
      self_edge ← d_get (g_em g) (node, node);
      if decide (1 - self_edge = 0) then Err ZeroDivisionError else
      seq ← ds_remove (g_seq g) node node;
      req ← ds_remove (g_req g) node node;
      Ok (Graph seq req (g_em g), Some (1 / (1 - self_edge)))
    else Ok (g, None).

  (** lines 96-147: eliminate one node *)
  Definition fast_eliminate (node : N) (g : graph) (inv : gset N) : res (graph * gset N) :=
    gc ← fast_loop_gain node g;
    st ← mfor (fast_step_s node gc.2) (enum (ds_get (g_seq gc.1) node)) (gc.1, inv);
    g ← mfor (fun g rnode =>
                em ← d_del (g_em g) (rnode, node);
                seq ← ds_remove (g_seq g) rnode node;
                Ok (Graph seq (g_req g) em))
             (enum (ds_get (g_req st.1) node)) st.1;
    Ok (Graph (delete node (g_seq g)) (delete node (g_req g)) (g_em g), st.2).

  (** The priority queue: entries (cost, node); [qpop] returns some entry and
      the rest.  [cost] is the heuristic of lines 34-60 (it is finite, so the
      test of line 89 never re-queues). *)
  Context {C : Type} (cost : graph -> N -> C)
          (qpop : list (C * N) -> option ((C * N) * list (C * N))).

  (** lines 78-81 *)
  Fixpoint fast_refresh (fuel : nat) (g : graph) (inv : gset N) (node : N) (q : list (C * N))
      : res (N * list (C * N) * gset N) :=
    if decide (node ∈ inv) then
      match fuel with
      | O => Err OutOfFuel
      | S fuel =>
        match qpop ((cost g node, node) :: q) with
        | Some ((_, node'), q') => fast_refresh fuel g (inv ∖ {[node]}) node' q'
        | None => Err EmptyError
        end
      end
    else Ok (node, q, inv).

  (** lines 74-147 *)
  Fixpoint fast_loop (fuel : nat) (g : graph) (inv : gset N) (q : list (C * N)) : res graph :=
    match qpop q with
    | None => Ok g
    | Some ((_, node), q) =>
      match fuel with
      | O => Err OutOfFuel
      | S fuel =>
        r ← fast_refresh (size inv) g inv node q;
        let '(node, q, inv) := r in
        gi ← fast_eliminate node g inv;
        fast_loop fuel gi.1 gi.2 q
      end
    end.

  (** lines 62-69: nodes without seq or without req are exempt *)
  Definition fast_queue (g : graph) : list (C * N) :=
    (fun n => (cost g n, n)) <$>
      filter (fun n => ds_get (g_seq g) n <> ∅ /\ ds_get (g_req g) n <> ∅) (enum (dom (g_seq g))).

  Definition fast_simplify (g : graph) : res graph :=
    g ← check_balance g;
    fast_loop (length (fast_queue g)) g ∅ (fast_queue g).
End model.

(** ** graph_algorithm.py:151-272 inverse_solve_inplace *)

(** Nodes of the dressed graph: the caller's nodes, [('INPUT', n)],
    [('OUTPUT', n)] and [DictKey(special = 'vacuum')].  Simplification: the
    caller's own nodes are assumed not to be of those three shapes. *)
Inductive wnode (N : Type) := Nd (n : N) | WIn (n : N) | WOut (n : N) | WVac.
Arguments Nd {N} _. Arguments WIn {N} _. Arguments WOut {N} _. Arguments WVac {N}.

Definition wnode_enc {N} (w : wnode N) : N + (N + (N + unit)) :=
  match w with Nd n => inl n | WIn n => inr (inl n) | WOut n => inr (inr (inl n))
             | WVac => inr (inr (inr tt)) end.
Definition wnode_dec {N} (s : N + (N + (N + unit))) : wnode N :=
  match s with inl n => Nd n | inr (inl n) => WIn n | inr (inr (inl n)) => WOut n
             | inr (inr (inr _)) => WVac end.
Lemma wnode_dec_enc {N} (w : wnode N) : wnode_dec (wnode_enc w) = w.
Proof. by destruct w. Qed.
#[global] Instance wnode_eq_dec {N} `{EqDecision N} : EqDecision (wnode N).
Proof. solve_decision. Defined.
#[global] Instance wnode_countable {N} `{Countable N} : Countable (wnode N) :=
  inj_countable' wnode_enc wnode_dec wnode_dec_enc.

Section solve.
  Context {K : fld} {N : Type} `{Countable N}.
  Notation W := (wnode N).
  Notation wgraph := (graph K W).
  Context (enum : gset W -> list W) (pick : gset W -> option W) (is_one : K -> bool)
          {C : Type} (cost : wgraph -> W -> C)
          (qpop : list (C * W) -> option ((C * W) * list (C * W))).

  (** one dressed edge: seq[a].add(b); req[b].add(a); edge_map[a,b] = v *)
  Definition add_edge (g : wgraph) (a b : W) (v : K) : wgraph :=
    Graph (ds_add (g_seq g) a b) (ds_add (g_req g) b a) (<[(a, b) := v]> (g_em g)).

  (** lines 177-206 *)
  Definition dress (g : wgraph) (outputs_set inputs_set : list N)
      (inputs_map : option (list (N * K))) (negative : bool) : wgraph :=
    let g := match inputs_map with
             | None => g
             | Some l => fold_left (fun g iv => add_edge g WVac (Nd iv.1) iv.2) l g
             end in
    let g := fold_left (fun g i => add_edge g (WIn i) (Nd i) 1) inputs_set g in
    let value := if negative then - (1) else 1 in
    fold_left (fun g o => add_edge g (Nd o) (WOut o) value) outputs_set g.

  Record solution := Solution {
    sol_outputs_map : option (gmap N K);
    sol_edge_map : gmap (N * N) K;
  }.

  (** lines 239-265: unwrap. [k, onode = wonode; assert(k == 'OUTPUT')]: a
      successor that is not an output fails the assertion (or the unpacking). *)
  Definition unwrap_step (em : gmap (W * W) K) (i : N) (um : gmap (N * N) K) (w : W)
      : res (gmap (N * N) K) :=
    v ← d_get em (WIn i, w);
    match w with
    | WOut o => Ok (<[(i, o) := v]> um)
    | _ => Err AssertionError
    end.
  Definition unwrap_in (seq_of : W -> gset W) (em : gmap (W * W) K) (um : gmap (N * N) K) (i : N)
      : res (gmap (N * N) K) := mfor (unwrap_step em i) (enum (seq_of (WIn i))) um.
  Definition unwrap (seq_of : W -> gset W) (em : gmap (W * W) K)
      (outputs_set inputs_set : list N) (have_map : bool) : res solution :=
    let om := if have_map then
                Some (fold_left (fun m o => match em !! (WVac, WOut o) with
                                            | Some v => <[o := v]> m | None => m end)
                                outputs_set ∅)
              else None in
    um ← mfor (unwrap_in seq_of em) inputs_set ∅;
    Ok (Solution om um).

  Definition fast_inverse_solve (g : wgraph) (outputs_set inputs_set : list N)
      (inputs_map : option (list (N * K))) (purge_in purge_out negative scattering : bool)
      : res solution :=
    if negb scattering then Err AssertionError else
    let g := pre_purge g in
    let g := dress g outputs_set inputs_set inputs_map negative in
    g ← (if purge_in then
           purge_reqless enum pick ({[WVac]} ∪ list_to_set (WIn <$> inputs_set)) g
         else Ok g);
    g ← (if purge_out then purge_seqless enum pick (list_to_set (WOut <$> outputs_set)) g
         else Ok g);
    g ← fast_simplify enum is_one cost qpop g;
    unwrap (ds_get (g_seq g)) (g_em g) outputs_set inputs_set
           (match inputs_map with Some _ => true | None => false end).
End solve.
