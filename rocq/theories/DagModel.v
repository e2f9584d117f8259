(** Model of phasor/matrix/DAG_algorithm_impl.py and phasor/matrix/DAG_algorithm.py
    (the 'loop_LUQ' solver).
    Simplifications, throughout: edge values are scalars (the code lets them be
    numpy arrays over frequency, treated pointwise except in the pivot
    heuristics); the SRABE_SYM (symbolic) twin graph and the METIS tool are not
    modelled; a numpy division by zero is an exception instead of inf/nan. *)
From Verif Require Import Fld Py GraphModel.
Local Open Scope fld_scope.

(** The tuple SRABE = (seq, req, req_alpha, seq_beta, edge_map). *)
Record srabe (K : fld) (N : Type) `{Countable N} := SR {
  q_seq : gmap N (gset N);
  q_req : gmap N (gset N);
  q_ra : gmap N (gset N);
  q_sb : gmap N (gset N);
  q_em : gmap (N * N) K;
}.
Arguments SR {K N _ _} _ _ _ _ _. Arguments q_seq {K N _ _} _. Arguments q_req {K N _ _} _.
Arguments q_ra {K N _ _} _. Arguments q_sb {K N _ _} _. Arguments q_em {K N _ _} _.

Section impl.
  Context {K : fld} {N : Type} `{Countable N}.
  Notation srabe := (srabe K N).
  Context (enum : gset N -> list N).
  Notation two := (1 + 1 : K).

  Definition with_em (s : srabe) (em : gmap (N * N) K) : srabe :=
    SR (q_seq s) (q_req s) (q_ra s) (q_sb s) em.

  (** exchanging the roles of rows and columns *)
  Definition transpose (s : srabe) : srabe :=
    SR (q_req s) (q_seq s) (q_sb s) (q_ra s)
       (kmap (fun p => (p.2, p.1)) (q_em s)).

  (** DAG_algorithm_impl.py:22-27 check_graph_at_node *)
  Definition check_node (s : srabe) (node : N) : res unit :=
    _ ← mfor (fun _ snode => if decide (node ∈ ds_get (q_req s) snode) then Ok tt else Err AssertionError)
             (enum (ds_get (q_seq s) node)) tt;
    mfor (fun _ rnode => if decide (node ∈ ds_get (q_seq s) rnode) then Ok tt else Err AssertionError)
         (enum (ds_get (q_req s) node)) tt.

  (** ** DAG_algorithm_impl.py:591-695 reduceLU *)

  (** 620-624 and repeats: accumulate into an edge *)
  Definition lu_acc (em : gmap (N * N) K) (r s : N) (prod : K) : gmap (N * N) K :=
    <[(r, s) := match em !! (r, s) with Some prev => prev + prod | None => prod end]> em.
  (** 616-627 *)
  Definition lu_vv (node snode : N) (prod_L : K) (s : srabe) (rnode : N) : res srabe :=
    redge ← d_get (q_em s) (rnode, node);
    Ok (SR (ds_add (q_seq s) rnode snode) (ds_add (q_req s) snode rnode) (q_ra s) (q_sb s)
           (lu_acc (q_em s) rnode snode (prod_L * redge))).
  (** 629-639 *)
  Definition lu_av (node snode : N) (prod_L : K) (s : srabe) (rnode : N) : res srabe :=
    redge ← d_get (q_em s) (rnode, node);
    Ok (SR (q_seq s) (q_req s) (ds_add (q_ra s) snode rnode) (q_sb s)
           (lu_acc (q_em s) rnode snode (prod_L * redge))).
  (** 645-655 *)
  Definition lu_vb (node snode : N) (prod_L : K) (s : srabe) (rnode : N) : res srabe :=
    redge ← d_get (q_em s) (rnode, node);
    Ok (SR (q_seq s) (q_req s) (q_ra s) (ds_add (q_sb s) rnode snode)
           (lu_acc (q_em s) rnode snode (prod_L * redge))).
  (** 657-668 *)
  Definition lu_ab (node snode : N) (prod_L : K) (s : srabe) (rnode : N) : res srabe :=
    redge ← d_get (q_em s) (rnode, node);
    Ok (SR (q_seq s) (q_req s) (ds_add (q_ra s) snode rnode) (ds_add (q_sb s) rnode snode)
           (lu_acc (q_em s) rnode snode (prod_L * redge))).
  (** 612-639 *)
  Definition lu_seq (node : N) (clg : K) (s : srabe) (snode : N) : res srabe :=
    sedge ← d_get (q_em s) (node, snode);
    s ← mfor (lu_vv node snode (sedge * clg)) (enum (ds_get (q_req s) node)) s;
    mfor (lu_av node snode (sedge * clg)) (enum (ds_get (q_ra s) node)) s.
  (** 641-668 *)
  Definition lu_beta (node : N) (clg : K) (s : srabe) (snode : N) : res srabe :=
    sedge ← d_get (q_em s) (node, snode);
    s ← mfor (lu_vb node snode (sedge * clg)) (enum (ds_get (q_req s) node)) s;
    mfor (lu_ab node snode (sedge * clg)) (enum (ds_get (q_ra s) node)) s.

  (** [if node_costs_invalid_in_queue: node_costs_invalid_in_queue.add(n)]: the
      test is on truthiness, so an empty set stays empty *)
  Definition inv_add (inv : gset N) (n : N) : gset N :=
    if decide (inv = ∅) then ∅ else {[n]} ∪ inv.
  (** 670-675 and 682-687 *)
  Definition lu_del_seq (node : N) (st : srabe * gset N) (snode : N) : res (srabe * gset N) :=
    em ← d_del (q_em st.1) (node, snode);
    req ← ds_remove (q_req st.1) snode node;
    Ok (SR (q_seq st.1) req (q_ra st.1) (q_sb st.1) em, inv_add st.2 snode).
  Definition lu_del_req (node : N) (st : srabe * gset N) (rnode : N) : res (srabe * gset N) :=
    em ← d_del (q_em st.1) (rnode, node);
    seq ← ds_remove (q_seq st.1) rnode node;
    Ok (SR seq (q_req st.1) (q_ra st.1) (q_sb st.1) em, inv_add st.2 rnode).
  (** 677-679, 690-692 *)
  Definition lu_del_em (pair : N -> N * N) (s : srabe) (n : N) : res srabe :=
    em ← d_del (q_em s) (pair n); Ok (with_em s em).

  Definition reduce_lu (node : N) (st : srabe * gset N) : res (srabe * gset N) :=
    let s := st.1 in
    self_edge ← d_get (q_em s) (node, node);
    if decide (self_edge = 0) then Err ZeroDivisionError else
    let clg := - (1) / self_edge in
    seq ← ds_remove (q_seq s) node node;
    req ← ds_remove (q_req s) node node;
    em ← d_del (q_em s) (node, node);
    let s := SR seq req (q_ra s) (q_sb s) em in
    s ← mfor (lu_seq node clg) (enum (ds_get (q_seq s) node)) s;
    s ← mfor (lu_beta node clg) (enum (ds_get (q_sb s) node)) s;
    st ← mfor (lu_del_seq node) (enum (ds_get (q_seq s) node)) (s, st.2);
    let '(s, inv) := st in
    let s := SR (delete node (q_seq s)) (q_req s) (q_ra s) (q_sb s) (q_em s) in
    s ← mfor (lu_del_em (fun b => (node, b))) (enum (ds_get (q_sb s) node)) s;
    let s := SR (q_seq s) (q_req s) (q_ra s) (delete node (q_sb s)) (q_em s) in
    st ← mfor (lu_del_req node) (enum (ds_get (q_req s) node)) (s, inv);
    let '(s, inv) := st in
    let s := SR (q_seq s) (delete node (q_req s)) (q_ra s) (q_sb s) (q_em s) in
    s ← mfor (lu_del_em (fun a => (a, node))) (enum (ds_get (q_ra s) node)) s;
    Ok (SR (q_seq s) (q_req s) (delete node (q_ra s)) (q_sb s) (q_em s), inv).

  (** ** DAG_algorithm_impl.py:178-254 pivotCOL_OP.
      State: the graph, edge_map_2 and the invalid set. *)
  Definition piv_state : Type := srabe * gmap (N * N) K * gset N.
  (** 213-219 *)
  Definition piv_seq1 (n1 n2 : N) (p : piv_state) (snode : N) : res piv_state :=
    let '(s, em2, inv) := p in
    edge ← d_get (q_em s) (n1, snode);
    req ← ds_remove (q_req s) snode n1;
    Ok (SR (q_seq s) (ds_add req snode n2) (q_ra s) (q_sb s) (delete (n1, snode) (q_em s)),
        <[(n2, snode) := edge]> em2, {[snode]} ∪ inv).
  (** 221-223, 235-237 *)
  Definition piv_beta (n1 n2 : N) (p : piv_state) (snode : N) : res piv_state :=
    let '(s, em2, inv) := p in
    edge ← d_get (q_em s) (n1, snode);
    Ok (with_em s (delete (n1, snode) (q_em s)), <[(n2, snode) := edge]> em2, inv).
  (** 225-232 *)
  Definition piv_seq2 (n1 n2 : N) (p : piv_state) (snode : N) : res piv_state :=
    let '(s, em2, inv) := p in
    edge ← d_get (q_em s) (n2, snode);
    req ← (if decide (snode ∈ ds_get (q_seq s) n1) then Ok (q_req s)
           else ds_remove (q_req s) snode n2);
    Ok (SR (q_seq s) (ds_add req snode n1) (q_ra s) (q_sb s) (delete (n2, snode) (q_em s)),
        <[(n1, snode) := edge]> em2, {[snode]} ∪ inv).
  Definition pivot_col (n1 n2 : N) (st : srabe * gset N) : res (srabe * gset N) :=
    let '(s, inv) := st in
    _ ← check_node s n1;
    _ ← check_node s n2;
    p ← mfor (piv_seq1 n1 n2) (enum (ds_get (q_seq s) n1)) (s, ∅, inv);
    p ← mfor (piv_beta n1 n2) (enum (ds_get (q_sb s) n1)) p;
    p ← mfor (piv_seq2 n1 n2) (enum (ds_get (q_seq s) n2)) p;
    p ← mfor (piv_beta n2 n1) (enum (ds_get (q_sb s) n2)) p;
    let '(s, em2, inv) := p in
    let s := SR (<[n2 := ds_get (q_seq s) n1]> (<[n1 := ds_get (q_seq s) n2]> (q_seq s))) (q_req s) (q_ra s)
                (<[n2 := ds_get (q_sb s) n1]> (<[n1 := ds_get (q_sb s) n2]> (q_sb s))) (q_em s) in
    _ ← check_node s n1;
    _ ← check_node s n2;
    Ok (with_em s (em2 ∪ q_em s), inv).

  (** DAG_algorithm_impl.py:257-330 pivotROW_OP: the same text with rows and
      columns, alpha and beta exchanged. *)
  Definition pivot_row (n1 n2 : N) (st : srabe * gset N) : res (srabe * gset N) :=
    st ← pivot_col n1 n2 (transpose st.1, st.2); Ok (transpose st.1, st.2).

  (** ** DAG_algorithm_impl.py:333-453 householderREFL_ROW_OP *)
  Context (conj sqrtK absK : K -> K).
  (** line 14 *)
  Definition abssq (x : K) : K := x * conj x.

  (** 355-376: the normalised reflection vector, norm_rem_sq, norm.  [u_vec] is
      a dict filled from [nodes_from], then [node_into]. *)
  Definition hh_collect (s : srabe) (into : N) (l : list N) : res (list (N * K)) :=
    mfor (fun acc k => e ← d_get (q_em s) (k, into); Ok (acc ++ [(k, e)])) l [].
  Definition hh_vector (s : srabe) (into : N) (from : list N)
      : res (list (N * K) * K (* edge_inject *)) :=
    raw ← hh_collect s into from;
    edge ← d_get (q_em s) (into, into);
    let norm_rem_sq := fsum (fun p => abssq p.2) raw in
    let norm_orig := sqrtK (norm_rem_sq + abssq edge) in
    if decide (absK edge = 0) then Err ZeroDivisionError else
    let u_mod := edge + norm_orig * edge / absK edge in
    let norm := sqrtK (norm_rem_sq + abssq u_mod) in
    if decide (norm = 0) then Err ZeroDivisionError else
    let u := u_mod / norm in
    Ok ((prod_map id (fun e => e / norm) <$> raw) ++ [(into, u)],
        edge - two * u * (conj u * edge + norm_rem_sq / norm)).

  (** 394-400: gen_edge for one column *)
  Definition hh_gen (s : srabe) (u : list (N * K)) (fnode : N) : res K :=
    mfor (fun acc ku => if decide (ku.1 ∈ ds_get (q_req s) fnode) then
                          e ← d_get (q_em s) (ku.1, fnode); Ok (acc + conj ku.2 * e)
                        else Ok acc) u 0.
  (** 390-402: fnode_edges *)
  Definition hh_gens (s : srabe) (u : list (N * K)) : res (list (N * K)) :=
    mfor (fun acc fnode => gen ← hh_gen s u fnode;
                           Ok (if decide (gen = 0) then acc else acc ++ [(fnode, gen)]))
         (enum (dom (q_req s))) [].
  (** 405-411 *)
  Definition hh_upd (fnode : N) (fedge : K) (s : srabe) (ku : N * K) : res srabe :=
    let '(k, u) := ku in
    if decide (fnode ∈ ds_get (q_seq s) k) then
      e ← d_get (q_em s) (k, fnode);
      Ok (with_em s (<[(k, fnode) := e - two * u * fedge]> (q_em s)))
    else
      Ok (SR (ds_add (q_seq s) k fnode) (ds_add (q_req s) fnode k) (q_ra s) (q_sb s)
             (<[(k, fnode) := - (two) * u * fedge]> (q_em s))).
  (** 404-411 *)
  Definition hh_apply (u : list (N * K)) (s : srabe) (fe : N * K) : res srabe :=
    mfor (hh_upd fe.1 fe.2) u s.
  (** 415-418 *)
  Definition hh_zero (into : N) (s : srabe) (k : N) : res srabe :=
    seq ← ds_remove (q_seq s) k into;
    req ← ds_remove (q_req s) into k;
    em ← d_del (q_em s) (k, into);
    Ok (SR seq req (q_ra s) (q_sb s) em).
  (** 423-430: edge_map_2, keyed (k_to, snode) here *)
  Definition hh_beta_one (s : srabe) (u : list (N * K)) (ku : N * K) (em2 : gmap (N * N) K) (snode : N)
      : res (gmap (N * N) K) :=
    eb ← d_get (q_em s) (ku.1, snode);
    Ok (fold_left (fun em2 kt => lu_acc em2 kt.1 snode (kt.2 * (- (two) * conj ku.2 * eb))) u em2).
  Definition hh_beta (s : srabe) (u : list (N * K)) : res (gmap (N * N) K) :=
    mfor (fun em2 ku => mfor (hh_beta_one s u ku) (enum (ds_get (q_sb s) ku.1)) em2) u ∅.
  (** 432-437; the dict's iteration order is irrelevant: each key is written once *)
  Definition hh_beta_upd (s : srabe) (kv : (N * N) * K) : res srabe :=
    let '((k, snode), edge) := kv in
    if decide (snode ∈ ds_get (q_sb s) k) then
      e ← d_get (q_em s) (k, snode);
      Ok (with_em s (<[(k, snode) := e + edge]> (q_em s)))
    else Ok (SR (q_seq s) (q_req s) (q_ra s) (ds_add (q_sb s) k snode)
                (<[(k, snode) := edge]> (q_em s))).
  Definition householder_row (into : N) (from : list N) (s : srabe) : res srabe :=
    _ ← check_node s into;
    ui ← hh_vector s into from;
    let '(u, inject) := ui in
    fe ← hh_gens s u;
    s ← mfor (hh_apply u) fe s;
    let s := with_em s (<[(into, into) := inject]> (q_em s)) in
    s ← mfor (hh_zero into) from s;
    em2 ← hh_beta s u;
    s ← mfor hh_beta_upd (map_to_list em2) s;
    _ ← check_node s into;
    Ok s.

  (** DAG_algorithm_impl.py:1028-1143 householderREFL_COL_OP: the same text with
      rows and columns, alpha and beta exchanged. *)
  Definition householder_col (into : N) (from : list N) (s : srabe) : res srabe :=
    s ← householder_row into from (transpose s); Ok (transpose s).

  (** ** DAG_algorithm_impl.py:30-175 reduceLUQ_row.
      [big n normr e] is the test of line 79,
      [abs(e / normr) >= 1 / len(req[node])**.5]. *)
  Context (big : nat -> K -> K -> bool).
  Definition row_values (s : srabe) (node : N) : res (list (N * K)) :=
    mfor (fun acc r => e ← d_get (q_em s) (r, node); Ok (acc ++ [(r, e)]))
         (enum (ds_get (q_req s) node)) [].
  (** 41-44 *)
  Definition row_norm (vals : list (N * K)) : K := sqrtK (fsum (fun p => absK p.2 * absK p.2) vals).
  (** 66-80 *)
  Definition bignodes (vals : list (N * K)) : list N :=
    fst <$> filter (fun p => big (length vals) (row_norm vals) p.2 = true) vals.
  Definition reduce_luq_row (node : N) (st : srabe * gset N) : res (srabe * gset N) :=
    let '(s, inv) := st in
    vals ← row_values s node;
    if decide (ds_get (q_req s) node = ∅) then
      (* 49-54 *)
      if decide (ds_get (q_seq s) node = ∅ /\ ds_get (q_sb s) node = ∅ /\ ds_get (q_ra s) node = ∅)
      then Ok (s, inv) else Err AssertionError
    else
    (* 76-78: a zero norm makes every ratio nan *)
    if decide (row_norm vals = 0) then Err AssertionError else
    let bn := bignodes vals in
    match bn with
    | [] => reduce_lu node (s, inv)
    | [b] =>
        (* 147-169 *)
        if decide (node ∈ bn) then reduce_lu node (s, inv)
        else '(s, inv) ← pivot_col node b (s, inv); reduce_lu node (s, {[node; b]} ∪ inv)
    | b :: _ =>
        (* 85-146 *)
        '(s, inv, nfrom) ← (if decide (node ∈ bn) then Ok (s, inv, filter (.≠ node) bn)
                            else '(s, inv) ← pivot_col node b (s, inv);
                                 Ok (s, {[node; b]} ∪ inv, filter (.≠ b) bn));
        s ← householder_row node nfrom s;
        reduce_lu node (s, inv)
    end.

  (** ** DAG_algorithm.py:159-234 mgraph_simplify_trivial.  [order] is the
      order in which the heap yields the nodes (each was pushed once), [bad] the
      stability test of lines 201-221. *)
  Context (order : srabe -> list N) (bad : srabe -> N -> bool).
  Definition trivial_step (st : srabe * gset N) (node : N) : res (srabe * gset N) :=
    match q_em st.1 !! (node, node) with
    | None => Ok st
    | Some e => if decide (e = 0) then Ok st else
                if bad st.1 node then Ok st else reduce_lu node st
    end.
  Definition simplify_trivial (s : srabe) : res srabe :=
    st ← mfor trivial_step (order s) (s, ∅); Ok st.1.

  (** DAG_algorithm.py:118-140 mgraph_simplify_sorted: [while req] with one queue
      entry per node *)
  Fixpoint sorted_loop (q : list N) (s : srabe) : res srabe :=
    if decide (dom (q_req s) = ∅) then Ok s else
    match q with
    | [] => Err EmptyError
    | node :: q => st ← reduce_lu node (s, ∅); sorted_loop q st.1
    end.
  Definition simplify_sorted (s : srabe) : res srabe := sorted_loop (order s) s.

  (** DAG_algorithm.py:143-156 mgraph_simplify_ordered *)
  Definition simplify_ordered (l : list N) (s : srabe) : res srabe :=
    mfor (fun s node => st ← reduce_luq_row node (s, ∅); Ok st.1) l s.

  (** ** DAG_algorithm.py:236-351 mgraph_simplify_badguys.
      [cost] may be any heuristic; its first argument counts loop rounds because
      the cached norms make it depend on the history.  [drift c c'] is
      [abs(abs(c / c') - 1) > .1]. *)
  Context {C : Type} (cost : nat -> srabe -> N -> C) (drift : C -> C -> bool)
          (qpop : list (C * N) -> option ((C * N) * list (C * N))).

  (** 324-325: [while node not in seq: pop].  None: the queue ran empty. *)
  Fixpoint skip_dead (fuel : nat) (s : srabe) (cn : C * N) (q : list (C * N))
      : res (option ((C * N) * list (C * N))) :=
    if decide (cn.2 ∈ dom (q_seq s)) then Ok (Some (cn, q)) else
    match fuel with
    | O => Err OutOfFuel
    | S fuel => match qpop q with
                | None => Ok None
                | Some (cn, q) => skip_dead fuel s cn q
                end
    end.
  (** 321-327 *)
  Fixpoint drift_loop (fuel round : nat) (s : srabe) (cn : C * N) (q : list (C * N))
      : res (option (N * list (C * N))) :=
    let nc := cost round s cn.2 in
    if drift cn.1 nc then
      match fuel with
      | O => Err OutOfFuel
      | S fuel =>
        match qpop ((nc, cn.2) :: q) with
        | None => Ok None
        | Some (cn, q) =>
          r ← skip_dead (length q) s cn q;
          match r with
          | None => Ok None
          | Some (cn, q) => drift_loop fuel round s cn q
          end
        end
      end
    else Ok (Some (cn.2, q)).
  (** 300-351 *)
  Fixpoint bad_loop (fuel : nat) (s : srabe) (inv : gset N) (q : list (C * N)) : res srabe :=
    if decide (dom (q_req s) = ∅) then Ok s else
    match fuel with
    | O => Err OutOfFuel
    | S fuel =>
      (* 302-307 *)
      let q := ((fun n => (cost fuel s n, n)) <$> filter (.∈ dom (q_seq s)) (enum inv)) ++ q in
      match qpop q with
      | None => Ok s   (* 350-351: Empty is swallowed *)
      | Some (cn, q) =>
        if decide (cn.2 ∈ dom (q_seq s)) then
          r ← drift_loop (S (length q)) fuel s cn q;
          match r with
          | None => Ok s
          | Some (node, q) => '(s, inv) ← reduce_luq_row node (s, ∅); bad_loop fuel s inv q
          end
        else bad_loop fuel s ∅ q
      end
    end.
  Definition bad_queue (s : srabe) : list (C * N) :=
    (fun n => (cost 0 s n, n)) <$> enum (dom (q_seq s)).
  (** the model's bound on the number of rounds *)
  Definition bad_fuel (s : srabe) : nat :=
    let n := size (dom (q_seq s)) in S (n + n * n).
  Definition simplify_badguys (s : srabe) : res srabe :=
    bad_loop (bad_fuel s) s ∅ (bad_queue s).

  (** DAG_algorithm.py:41-115 mgraph_simplify_inplace: the default path and
      [sorted_order = True].  METIS orders ([order] given) are not modelled. *)
  Definition dag_simplify (sorted_order : bool) (s : srabe) : res srabe :=
    g ← check_balance enum (Graph (q_seq s) (q_req s) (q_em s));
    let s := with_em s (g_em g) in
    if sorted_order then simplify_sorted s else
    s ← simplify_trivial s;
    s ← simplify_trivial s;
    s ← simplify_trivial s;
    simplify_badguys s.
End impl.

(** ** DAG_algorithm.py:360-560 inverse_solve_inplace *)
Section solve.
  Context {K : fld} {N : Type} `{Countable N}.
  Notation W := (wnode N).
  Notation wgraph := (graph K W).
  Context (enum : gset W -> list W) (pick : gset W -> option W).

  (** 382-396: subtract the identity on every known node *)
  Definition dag_diag (g : wgraph) (node : W) : res wgraph :=
    if decide (node ∈ ds_get (g_seq g) node) then
      e ← d_get (g_em g) (node, node);
      Ok (Graph (g_seq g) (g_req g) (<[(node, node) := e - 1]> (g_em g)))
    else Ok (Graph (ds_add (g_seq g) node node) (ds_add (g_req g) node node)
                   (<[(node, node) := - (1)]> (g_em g))).
  Definition dag_scatter (g : wgraph) : res wgraph :=
    mfor dag_diag (enum (dom (g_seq g) ∪ dom (g_req g))) g.

  (** 419-446: dress *)
  Definition dag_alpha (s : srabe K W) (inode : N) (a : W) (val : K) : srabe K W :=
    SR (q_seq s) (q_req s) (ds_add (q_ra s) (Nd inode) a) (q_sb s) (<[(a, Nd inode) := val]> (q_em s)).
  Definition dag_beta (value : K) (s : srabe K W) (onode : N) : srabe K W :=
    SR (q_seq s) (q_req s) (q_ra s) (ds_add (q_sb s) (Nd onode) (WOut onode))
       (<[(Nd onode, WOut onode) := value]> (q_em s)).
  Definition dag_dress (g : wgraph) (outputs_set inputs_set : list N)
      (inputs_map : option (list (N * K))) (negative : bool) : srabe K W :=
    let s := SR (g_seq g) (g_req g) ∅ ∅ (g_em g) in
    let s := fold_left (fun s iv => dag_alpha s iv.1 WVac iv.2) (default [] inputs_map) s in
    let s := fold_left (fun s i => dag_alpha s i (WIn i) 1) inputs_set s in
    fold_left (dag_beta (if negative then 1 else - (1))) outputs_set s.

  (** matrix_generic.py:78-98 purge_reqless_inplace with except_set = None *)
  Definition dag_purge_in (s : srabe K W) : res (srabe K W) :=
    g ← color_purge enum pick (dom (q_ra s)) true (Graph (q_seq s) (q_req s) (q_em s));
    Ok (SR (g_seq g) (g_req g) (q_ra s)
           (filter (fun kv => ds_get (g_req g) kv.1 <> ∅) (q_sb s)) (g_em g)).
  (** matrix_generic.py:101-121 purge_seqless_inplace with except_set = None *)
  Definition dag_purge_out (s : srabe K W) : res (srabe K W) :=
    g ← color_purge enum pick (dom (q_sb s)) false (Graph (q_seq s) (q_req s) (q_em s));
    Ok (SR (g_seq g) (g_req g)
           (filter (fun kv => ds_get (g_seq g) kv.1 <> ∅) (q_ra s)) (q_sb s) (g_em g)).

  Context (simplify : srabe K W -> res (srabe K W)).
  Definition dag_inverse_solve (g : wgraph) (outputs_set inputs_set : list N)
      (inputs_map : option (list (N * K))) (purge_in purge_out negative scattering : bool)
      : res (solution (K := K) (N := N)) :=
    g ← (if scattering then dag_scatter g else Ok g);
    let negative := if scattering then negb negative else negative in
    let s := dag_dress (pre_purge g) outputs_set inputs_set inputs_map negative in
    s ← (if purge_in then dag_purge_in s else Ok s);
    s ← (if purge_out then dag_purge_out s else Ok s);
    s ← simplify s;
    unwrap enum (ds_get (q_sb s)) (q_em s) outputs_set inputs_set
           (match inputs_map with Some _ => true | None => false end).
End solve.
