(** Model of generate_unitary_by_gram_schmidt and edge_matrix_to_unitary_sre of
    phasor/matrix/SRE_matrix_algorithms.py.  Edges are single numbers, not numpy arrays of them, over any field
    with conjugation and square root; arithmetic is exact. *)
From stdpp Require Import base tactics list numbers gmap fin_sets option.
From Verif Require Import Fld Py Herm GraphModel.
Local Open Scope fld_scope.

Section model.
  Context {K : fld} (h : herm K) {N : Type} `{Countable N}.
  Notation sre := (graph K N).
  Notation conj := (h_conj h).
  (** the order in which Python iterates a set or the keys of a dict, and sorted() of the keys *)
  Context (enum sort : gset N -> list N).
  (** the test [np.any(lval > finfo.eps * 10)] of line 97, lval = abs(edge.real) + abs(edge.imag) *)
  Context (large : K -> bool).

  (** 9-10 abssq *)
  Definition abssq (e : K) : K := e * conj e.
  (** [d.get(k, 0)] *)
  Definition vget (a : gmap N K) (k : N) : K := default 0 (a !! k).

  (** 72-87, the loop body: [added_vect] made orthogonal to one column *)
  Definition project (g : sre) (a : gmap N K) (k_from : N) : res (gmap N K) :=
    let fseq := enum (ds_get (g_seq g) k_from) in
    pn ← mfor (fun pn k_to =>
                 e ← d_get (g_em g) (k_from, k_to);
                 Ok (pn.1 + conj e * vget a k_to, pn.2 + abssq e)) fseq (0, 0);
    if decide (pn.1 = 0) then
      Ok (foldl (fun a k_to => <[k_to := vget a k_to]> a) a fseq)
    else
      mfor (fun a k_to =>
              e ← d_get (g_em g) (k_from, k_to);
              Ok (<[k_to := vget a k_to - pn.1 * e / pn.2]> a)) fseq a.

  (** 95-104, the loop body: the large entries become edges *)
  Definition add_edge (vect_from : N) (norm : K) (a : gmap N K) (s : bool * sre) (k_to : N) : bool * sre :=
    if large (vget a k_to) then
      (true, Graph (ds_add (g_seq s.2) vect_from k_to) (ds_add (g_req s.2) k_to vect_from)
                   (<[(vect_from, k_to) := vget a k_to / norm]> (g_em s.2)))
    else s.

  (** 65-105 generate_unitary_by_gram_schmidt; the graph is changed in place and any_added returned *)
  Definition gram_schmidt (g : sre) (added_vect : gmap N K) (vect_from : N) : res (bool * sre) :=
    a ← mfor (project g) (enum (dom (g_seq g))) added_vect;
    let norm_sq := foldl (fun s k_to => s + abssq (vget a k_to)) 0 (enum (dom a)) in
    let norm := h_sqrt h norm_sq in
    Ok (foldl (add_edge vect_from norm a)
              (false, Graph (<[vect_from := ∅]> (g_seq g)) (g_req g) (g_em g)) (enum (dom a))).

  (** 108-110: the targets of each source *)
  Definition targets (em : gmap (N * N) K) : gmap N (gset N) :=
    foldl (fun s k => ds_add s k.1 k.2) ∅ (elements (dom em)).
  (** 117-119: one column *)
  Definition column (em : gmap (N * N) K) (k_f : N) : res (gmap N K) :=
    mfor (fun v k_t => e ← d_get em (k_f, k_t); Ok (<[k_t := e]> v)) (enum (ds_get (targets em) k_f)) ∅.
  (** 116-123: the loop over the columns, left with None when one adds nothing *)
  Fixpoint build (em : gmap (N * N) K) (ks : list N) (g : sre) : res (option sre) :=
    match ks with
    | [] => Ok (Some g)
    | k_f :: ks =>
        vect ← column em k_f;
        match gram_schmidt g vect k_f with
        | Ok (any_added, g) => if any_added then build em ks g else Ok None
        | Err e => Err e
        end
    end.
  (** 107-124 edge_matrix_to_unitary_sre *)
  Definition edge_matrix_to_unitary (em : gmap (N * N) K) : res (option sre) :=
    build em (sort (dom (targets em))) (Graph ∅ ∅ ∅).
End model.
