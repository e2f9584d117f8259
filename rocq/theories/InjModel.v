(** Model of the coupling injections and of the matrices built from them:
    /repo/phasor/system/matrix_injections.py 46-394, the insertion of their functions in
    matrix_algorithm.py 205-242, and solver_algorithm.py _source_vector_generate 164-197
    and _edge_matrix_generate 202-277 (numerical part).  Nodes are (port, key) pairs.
    Values are scalars of a field (arrays one sample at a time).  Not modelled: symbolic
    values, the floating submatrices 279-301, field_space. *)
From stdpp Require Import base tactics list numbers gmap fin_sets.
From Verif Require Import Fld Py.
Local Open Scope fld_scope.

Section inj.
  Context {K : fld} {P Q : Type} `{Countable P} `{Countable Q}.
  Notation N := (P * Q)%type.
  (** a solution vector: a dict of field values, read with .get(pk, default) *)
  Notation sol := (gmap N K).
  Notation vfun := (sol -> K).
  Definition sget (x : sol) (n : N) (d : K) : K := default d (x !! n).

  (** the literals 1e12 (default of the norm) and 1e-30 (362, 365, 300 of matrix_injections) *)
  Context (big eps : K).

  (** the injection classes, with their constructor arguments *)
  Inductive inj :=
  | ConstantEdge (pkfrom pkto : N) (cplg : K)                                      (* 46-70 *)
  | ConstantSource (pksrc : N) (cplg : K)                                          (* 73-94 *)
  | MultiplicativeEdge (pkfrom pkto : N) (cplg : K) (srcs : list N)                (* 97-122 *)
  | MultiplicativeSource (pksrc : N) (cplg : K) (srcs : list N)                    (* 125-149 *)
  | Triplet (pkfrom1 pkfrom2 pkto : N) (cplg : K)                                  (* 152-215 *)
  | TripletNorm (pkfrom1 pkfrom2 pkto pknorm : N) (cplg : K) (f : K -> K)          (* 218-303 *)
  | TripletNorms (pkfrom1 pkfrom2 pkto : N) (pknorms : list N) (cplg : K) (f : list K -> K). (* 307-394 *)

  (** the loop of 117-121 and 144-148 *)
  Definition mult_func (cplg : K) (srcs : list N) : vfun :=
    fun x => foldl (fun val pk => val * sget x pk 0) cplg srcs.
  (** TripletCoupling 200-215 *)
  Definition t_edge1 (p2 : N) (c : K) : vfun := fun x => c * sget x p2 0.
  Definition t_edge2 (p1 : N) (c : K) : vfun := fun x => c * sget x p1 0.
  Definition t_source (p1 p2 : N) (c : K) : vfun := fun x => (- c) * sget x p1 0 * sget x p2 0.
  (** TripletNormCoupling 288-303 *)
  Definition tn_edge1 (p2 pn : N) (c : K) (f : K -> K) : vfun := fun x => c * sget x p2 0 / f (sget x pn big).
  Definition tn_edge2 (p1 pn : N) (c : K) (f : K -> K) : vfun := fun x => c * sget x p1 0 / f (sget x pn big).
  Definition tn_source (p1 p2 pn : N) (c : K) (f : K -> K) : vfun := fun x =>
    (- c) * sget x p1 0 * sget x p2 0 / f (sget x pn big + eps).
  (** TripletNormsCoupling 377-394 *)
  Definition norm_args (pns : list N) (x : sol) : list K := (fun pn => sget x pn big) <$> pns.
  Definition ts_edge1 (p2 : N) (pns : list N) (c : K) (f : list K -> K) : vfun := fun x => c * sget x p2 0 / f (norm_args pns x).
  Definition ts_edge2 (p1 : N) (pns : list N) (c : K) (f : list K -> K) : vfun := fun x => c * sget x p1 0 / f (norm_args pns x).
  Definition ts_source (p1 p2 : N) (pns : list N) (c : K) (f : list K -> K) : vfun := fun x =>
    (- c) * sget x p1 0 * sget x p2 0 / f (norm_args pns x).

  (** edges_pkpk_dict: the entries of a dict literal, with the NZ set of each *)
  Definition inj_edges (j : inj) : list ((N * N) * (vfun * list N)) :=
    match j with
    | ConstantEdge a b c => [((a, b), (fun _ => c, []))]
    | ConstantSource _ _ => []
    | MultiplicativeEdge a b c l => [((a, b), (mult_func c l, l))]
    | MultiplicativeSource _ _ _ => []
    | Triplet p1 p2 t c =>
        if decide (p1 <> p2) then [((p1, t), (t_edge1 p2 c, [p2])); ((p2, t), (t_edge2 p1 c, [p1]))]
        else [((p1, t), (t_edge1 p2 c, [p2]))]
    | TripletNorm p1 p2 t pn c f =>
        if decide (p1 <> p2) then [((p1, t), (tn_edge1 p2 pn c f, [p2])); ((p2, t), (tn_edge2 p1 pn c f, [p1]))]
        else [((p1, t), (tn_edge1 p2 pn c f, [p2]))]
    | TripletNorms p1 p2 t pns c f =>
        if decide (p1 <> p2) then [((p1, t), (ts_edge1 p2 pns c f, [p2])); ((p2, t), (ts_edge2 p1 pns c f, [p1]))]
        else [((p1, t), (ts_edge1 p2 pns c f, [p2]))]
    end.
  (** sources_pk_dict *)
  Definition inj_sources (j : inj) : list (N * (vfun * list N)) :=
    match j with
    | ConstantEdge _ _ _ => []
    | ConstantSource s c => [(s, (fun _ => c, []))]
    | MultiplicativeEdge _ _ _ _ => []
    | MultiplicativeSource s c l => [(s, (mult_func c l, l))]
    | Triplet p1 p2 t c => if decide (p1 <> p2) then [(t, (t_source p1 p2 c, [p1; p2]))] else []
    | TripletNorm p1 p2 t pn c f => if decide (p1 <> p2) then [(t, (tn_source p1 p2 pn c f, [p1; p2]))] else []
    | TripletNorms p1 p2 t pns c f => if decide (p1 <> p2) then [(t, (ts_source p1 p2 pns c f, [p1; p2]))] else []
    end.

  (** coupling_matrix_inj_funclist and source_vector_inj_funclist: defaultdict(list)
      appended to in matrix_algorithm 205-240, turned into plain dicts in 91-93 *)
  Definition fl_app {X} `{Countable X} (m : gmap X (list vfun)) (e : X * (vfun * list N)) : gmap X (list vfun) :=
    <[e.1 := default [] (m !! e.1) ++ [e.2.1]]> m.
  Definition edge_funclist (js : list inj) : gmap (N * N) (list vfun) :=
    foldl (fun m j => foldl fl_app m (inj_edges j)) ∅ js.
  Definition source_funclist (js : list inj) : gmap N (list vfun) :=
    foldl (fun m j => foldl fl_app m (inj_sources j)) ∅ js.

  (** val = f[0](..); for f in f[1:]: val = val + f(..) *)
  Definition sum_funcs (x : sol) (fs : list vfun) : option K :=
    match fs with
    | [] => None
    | f :: fs => Some (foldl (fun val f => val + f x) (f x) fs)
    end.

  (** _source_vector_generate 164-197; [inputs] is the set in iteration order *)
  Definition source_vector (js : list inj) (inputs : list N) (x : sol) : res (gmap N K) :=
    let fl := source_funclist js in
    mfor (fun v pkto =>
            match fl !! pkto with
            | None => Err KeyError
            | Some fs => match sum_funcs x fs with
                         | None => Ok v
                         | Some val => Ok (if decide (val = 0) then v else <[pkto := val]> v)
                         end
            end) inputs ∅.

  (** _edge_matrix_generate 202-277: [links] are the (pkfrom, pkto) of seq in iteration
      order, [bonds] bonds_trivial *)
  Definition edge_step (fl : gmap (N * N) (list vfun)) (bonds : gset (N * N)) (x : sol)
      (acc : gmap (N * N) K * list (N * N)) (l : N * N) : res (gmap (N * N) K * list (N * N)) :=
    let '(M, drop) := acc in
    match fl !! l with
    | None =>
        if decide (l.2.2 = l.1.2) then
          if decide (l ∈ bonds) then Ok (<[l := 1]> M, drop) else Err AssertionError
        else Err AssertionError
    | Some fs =>
        if decide (l ∈ bonds) then Err AssertionError else
        match sum_funcs x fs with
        | None => Ok (M, drop)
        | Some val => if decide (val = 0) then Ok (M, drop ++ [l]) else Ok (<[l := val]> M, drop)
        end
    end.
  (** the drops 268-270 *)
  Definition drop_step (acc : gmap N (gset N) * gmap N (gset N)) (l : N * N) :
      res (gmap N (gset N) * gmap N (gset N)) :=
    let '(seq, req) := acc in
    seq ← ds_remove seq l.1 l.2;
    req ← ds_remove req l.2 l.1;
    Ok (seq, req).
  Definition edge_matrix (js : list inj) (bonds : gset (N * N)) (links : list (N * N))
      (seq req : gmap N (gset N)) (x : sol) :
      res (gmap (N * N) K * gmap N (gset N) * gmap N (gset N)) :=
    '(M, drop) ← mfor (edge_step (edge_funclist js) bonds x) links (∅, []);
    '(seq, req) ← mfor drop_step drop (seq, req);
    Ok (M, seq, req).
End inj.
Arguments inj : clear implicits.
