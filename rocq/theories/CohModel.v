(** Model of the coherent sparsity analysis in /repo/phasor/system/matrix_algorithm.py:
    injection_insert 193-242 (the parts that feed it) and _coherent_sparsity_graph 260-473.
    Nodes are (port, key) pairs, here any countable type [N]; the virtual nodes of 302-317
    are pairs of indices, so the adjacency maps are over [N + nat * nat].  Frozen sets of
    nodes are lists, in the order Python would iterate over them. *)
From stdpp Require Import base tactics list numbers gmap fin_sets.
From Verif Require Import Fld Py GraphModel.
Local Open Scope nat_scope.

(** What the analysis reads of an injection object (matrix_injections.py 8-43): for
    each edge and each source it provides, the nodes whose product scales it (NZ sets)
    and the nodes its value is computed from (req sets); the float attributes are None
    or given. *)
Record injection (N : Type) := MkInj {
  i_edges : list ((N * N) * (list N * list N));
  i_sources : list (N * (list N * list N));
  i_req : option (list N);
  i_floats : option (list (list N * list N));
  i_ac_in : list N;
  i_ac_out : list N;
}.
Arguments MkInj {N}. Arguments i_edges {N}. Arguments i_sources {N}. Arguments i_req {N}.
Arguments i_floats {N}. Arguments i_ac_in {N}. Arguments i_ac_out {N}.

(** the order counters [order_list] and the inverse lists of 319-358 *)
Notation inv_map V X N := (gmap V (list (nat * X * list N))).
Notation ord_map X := (gmap X (list Z)).
Section tables.
  Context {V X N : Type} `{Countable V} `{Countable X} (emb : N -> V).

  (** one injection of the inner loops 324-338 and 345-357 *)
  Definition link_inj (x : X) (acc : list Z * bool * gset V * (inv_map V X N)) (r : list N * list N)
      : list Z * bool * gset V * (inv_map V X N) :=
    let '(order_list, any0, outs, inv) := acc in
    let '(NZ, rq) := r in
    let '(any0, outs, NZ') :=
      if decide (length NZ = 0) then (true, list_to_set (emb <$> rq) ∪ outs, rq)
      else (any0, outs, NZ) in
    let order_list := order_list ++ [Z.of_nat (length NZ)] in
    let inv := foldl (fun inv n =>
                 <[emb n := default [] (inv !! emb n) ++ [((length order_list - 1)%nat, x, rq)]]> inv)
                 inv NZ' in
    (order_list, any0, outs, inv).

  (** the loops over the items of an injection dict 321-342 and 345-361: [mark] is what
      happens to a target with an injection of order 0 *)
  Definition link_items {T} (mark : T -> X -> T) (outs : gset V) (t : T)
      (items : list (X * list (list N * list N))) : (ord_map X) * (inv_map V X N) * gset V * T :=
    foldl (fun '(ord, inv, outs, t) '(x, rs) =>
             let '(ol, any0, outs, inv) := foldl (link_inj x) ([], false, outs, inv) rs in
             (<[x := ol]> ord, inv, outs, if any0 : bool then mark t x else t))
          (∅, ∅, outs, t) items.

  (** the loops over an inverse list 378-393 and 395-416: [fire] is what happens when a
      counter reaches zero *)
  Definition dec_step {T} (fire : T -> X -> list N -> T) (acc : (ord_map X) * T)
      (e : nat * X * list N) : res ((ord_map X) * T) :=
    let '(ord, t) := acc in
    let '(i, x, rq) := e in
    match ord !! x with
    | None => Err KeyError
    | Some os =>
        match os !! i with
        | None => Err IndexError
        | Some o =>
            let ord := <[x := <[i := (o - 1)%Z]> os]> ord in
            Ok (ord, if decide (o - 1 = 0)%Z then fire t x rq else t)
        end
    end.
  Definition dec_loop {T} (fire : T -> X -> list N -> T) (ord : (ord_map X)) (t : T)
      (l : list (nat * X * list N)) : res ((ord_map X) * T) :=
    mfor (dec_step fire) l (ord, t).
End tables.

Notation vnode N := (N + nat * nat)%type.
Notation adj N := (gmap (vnode N) (gset (vnode N)) * gmap (vnode N) (gset (vnode N)))%type.
Section coh.
  Context {N : Type} `{Countable N}.
  Notation V := (vnode N).
  (** iteration over a set and set.pop *)
  Context (enum : gset V -> list V) (pick : gset V -> option V).

  (** ** injection_insert 193-242: the injection lists, keyed by target.
      [known] is the test on port_cplgs: the port is unknown (only a print) or has the key.
      field_space and the function lists are not modelled. *)
  Definition app_at {X B} `{Countable X} (m : gmap X (list B)) (x : X) (b : B) : gmap X (list B) :=
    <[x := default [] (m !! x) ++ [b]]> m.
  Context (known : N -> bool).
  Definition entries : Type := list (list N * list N).
  Definition inj_lists : Type := gmap N entries * gmap (N * N) entries.
  Definition injection_insert (acc : inj_lists) (j : injection N) : res inj_lists :=
    let '(srcs, edges) := acc in
    edges ← mfor (fun m '((a, b), r) => if known b then Ok (app_at m (a, b) r) else Err RuntimeError)
              (i_edges j) edges;
    srcs ← mfor (fun m '(a, r) => if known a then Ok (app_at m a r) else Err AssertionError)
              (i_sources j) srcs;
    Ok (srcs, edges).

  (** ** _coherent_sparsity_graph 260-473 *)
  Record cst := Cst {
    sub : gset V; pend : gset V; pend2 : gset V;     (* subgraph_set, _pending, _pending2 *)
    inp : gset V; outp : gset V;                     (* inputs_set, outputs_set *)
    nord : ord_map N; eord : ord_map (N * N);        (* node/edge_sourcing_order *)
    sinv : inv_map V N N; einv : inv_map V (N * N) N;
    cseq : gmap V (gset V); creq : gmap V (gset V);
  }.

  (** [seq[v].add(w); req[w].add(v)] *)
  Definition add_link (g : (adj N)) (v w : V) : (adj N) := (ds_add g.1 v w, ds_add g.2 w v).

  (** 306-317: virtual nodes *)
  Definition float_link (g : (adj N)) (v : V) (f : list N * list N) : (adj N) :=
    let g := foldl (fun g n => add_link g (inl n) v) g f.1 in
    foldl (fun g n => add_link g v (inl n)) g f.2.
  Definition float_nodes (js : list (injection N)) : list (V * (list N * list N)) :=
    let fl := omap i_floats js in                  (* floating_in_out_func_pair_injlist *)
    mjoin (imap (fun ii fs => imap (fun i f => (inr (ii, i) : V, f)) fs) fl).

  (** 262-358: everything before the loop.  [bonds] are the pairs that bond_trivial 277-283
      is called on; [isrc], [iedge] are the items of the injection lists, in dict order *)
  Definition coh_init (js : list (injection N)) (bonds : list (N * N))
      (isrc : list (N * entries)) (iedge : list ((N * N) * entries)) : cst :=
    let g := foldl (fun g '(a, b) => add_link g (inl a) (inl b)) (∅, ∅) bonds in
    let outs := list_to_set (inl <$> mjoin (omap i_req js)) in
    let g := foldl (fun g '(v, f) => float_link g v f) g (float_nodes js) in
    let '(ord, sinv, outs, pend) :=
      link_items inl (fun pend x => {[inl x]} ∪ pend) outs ∅ isrc in
    let '(eord, einv, outs, (seq, req)) :=
      link_items inl (fun g '(a, b) => add_link g (inl a) (inl b)) outs g iedge in
    Cst ∅ pend ∅ pend outs ord eord sinv einv seq req.

  (** 386-393: a source whose factors are all active *)
  Definition fire_src (A : gset V) (t : gset V * gset V * gset V) (x : N) (rq : list N) :=
    let '(p2, ins, outs) := t in
    (if decide (inl x ∈ A) then p2 else {[inl x]} ∪ p2, {[inl x]} ∪ ins,
     list_to_set (inl <$> rq) ∪ outs).
  (** 404-416: an edge whose factors are all active *)
  Definition fire_edge (A : gset V) (t : gset V * gset V * (adj N))
      (x : N * N) (rq : list N) :=
    let '(p2, outs, g) := t in
    let '(a, b) := x in
    (if decide (inl a ∈ A) then (if decide (inl b ∈ A) then p2 else {[inl b]} ∪ p2) else p2,
     list_to_set (inl <$> rq) ∪ outs,
     add_link g (inl a) (inl b)).

  (** 365-417: one popped node.  Reading seq[node] on the defaultdict creates the key. *)
  Definition visit (s : cst) (v : V) : res cst :=
    let A := {[v]} ∪ sub s in
    let pend' := fold_left (fun p r => if decide (r ∈ A) then p else {[r]} ∪ p)
                   (enum (ds_get (cseq s) v)) (pend s ∖ {[v]}) in
    let seq := ds_touch (cseq s) {[v]} in
    '(ord, (p2, ins, outs)) ← dec_loop (fire_src A) (nord s) (pend2 s, inp s, outp s)
                               (default [] (sinv s !! v));
    '(eord, (p2, outs, (seq, req))) ← dec_loop (fire_edge A) (eord s) (p2, outs, (seq, creq s))
                               (default [] (einv s !! v));
    Ok (Cst A pend' p2 ins outs ord eord (delete v (sinv s)) (delete v (einv s)) seq req).
  (** the inner loop 364-417 *)
  Fixpoint sweep (fuel : nat) (s : cst) : res cst :=
    match pick (pend s) with
    | None => Ok s
    | Some v =>
        match fuel with
        | O => Err OutOfFuel
        | S fuel => s' ← visit s v; sweep fuel s'
        end
    end.
  (** the outer loop 360-424, with solution_min_order *)
  Fixpoint passes (fuel : nat) (order : nat) (s : cst) : res (nat * cst) :=
    match fuel with
    | O => Err OutOfFuel
    | S fuel =>
        s ← sweep fuel s;
        let p := pend2 s ∖ sub s in
        let s' p2 := Cst (sub s) p p2 (inp s) (outp s) (nord s) (eord s) (sinv s) (einv s) (cseq s) (creq s) in
        if decide (p = ∅) then Ok (S order, s' (pend2 s)) else passes fuel (S order) (s' ∅)
    end.

  (** 446-453 remove_vnode *)
  Definition remove_vnode (g : graph Qc_fld V) (v : V) : res (graph Qc_fld V) :=
    req ← mfor (fun req w => ds_remove req w v) (enum (ds_get (g_seq g) v)) (g_req g);
    seq ← mfor (fun seq w => ds_remove seq w v) (enum (ds_get req v)) (g_seq g);
    Ok (Graph (delete v seq) (delete v req) (g_em g)).

  Record bunch := Bunch {
    b_inputs : gset V; b_outputs : gset V; b_order : nat; b_active : gset V;
    b_full : graph Qc_fld V; b_perturb : graph Qc_fld V;    (* seq_full/req_full, seq_/req_perturb *)
  }.
  Definition sparsity_graph (fuel : nat) (js : list (injection N)) (bonds : list (N * N))
      (isrc : list (N * entries)) (iedge : list ((N * N) * entries)) : res bunch :=
    '(order, s) ← passes fuel 0 (coh_init js bonds isrc iedge);
    let AC_in : gset V := list_to_set (inl <$> mjoin (i_ac_in <$> js)) in
    let AC_out : gset V := list_to_set (inl <$> mjoin (i_ac_out <$> js)) in
    let g := Graph (cseq s) (creq s) ∅ in
    p ← check_balance enum g;
    p ← purge_reqless enum pick (inp s ∪ AC_in) p;
    p ← purge_seqless enum pick (outp s ∪ AC_out) p;
    let vs := enum (list_to_set (float_nodes js).*1) in      (* virtual_nodes *)
    '(g, p) ← mfor (fun '(g, p) v => g ← remove_vnode g v; p ← remove_vnode p v; Ok (g, p)) vs (g, p);
    Ok (Bunch (inp s) (outp s) order (sub s) g p).
End coh.
Arguments entries : clear implicits.
