(** Specification vocabulary for the 'loop_LUQ' solver. *)
From Verif Require Import Fld Py LinSpec Herm GraphModel GraphSpec DagModel.
Local Open Scope fld_scope.

(** ** reduced systems *)
Section sys.
  Context {K : fld} {N : Type} `{Countable N}.
  Notation srabe := (srabe K N).
  Definition qseq (s : srabe) n := ds_get (q_seq s) n.
  Definition qreq (s : srabe) n := ds_get (q_req s) n.
  Definition qra (s : srabe) n := ds_get (q_ra s) n.
  Definition qsb (s : srabe) n := ds_get (q_sb s) n.
  Definition qe (s : srabe) (m n : N) : K := default 0 (q_em s !! (m, n)).

  (** [V]: live nodes, [A]: alpha (input) nodes, [B]: beta (output) nodes *)
  Record dwf (V A B : gset N) (s : srabe) : Prop := {
    dw_seq : forall m n, n ∈ qseq s m <-> (m ∈ V /\ n ∈ V) /\ is_Some (q_em s !! (m, n));
    dw_req : forall m n, m ∈ qreq s n <-> (m ∈ V /\ n ∈ V) /\ is_Some (q_em s !! (m, n));
    dw_ra : forall a n, a ∈ qra s n <-> (a ∈ A /\ (n ∈ V \/ n ∈ B)) /\ is_Some (q_em s !! (a, n));
    dw_sb : forall m b, b ∈ qsb s m <-> ((m ∈ V \/ m ∈ A) /\ b ∈ B) /\ is_Some (q_em s !! (m, b));
  }.
  (** a consistent system: the three kinds of nodes are disjoint, the four dicts
      list exactly the stored edges, and the live nodes are the keys *)
  Record dinv (V A B : gset N) (s : srabe) : Prop := {
    di_VA : V ## A; di_VB : V ## B; di_AB : A ## B;
    di_wf : dwf V A B s;
    di_seq : dom (q_seq s) = V;
    di_req : dom (q_req s) = V;
  }.
  (** the same outputs for the same inputs *)
  Definition same_io (A B V : gset N) (s : srabe) (V' : gset N) (s' : srabe) : Prop :=
    forall u y, io_rel (elements V) (elements A) (elements B) (qe s) u y <->
                io_rel (elements V') (elements A) (elements B) (qe s') u y.
End sys.

Section spec.
  Context {K : fld} (h : herm K).
  (** the Euclidean norm as the code computes it *)
  Definition norm_of (l : list K) : K := h_sqrt h (fsum (fun x => h_abs h x * h_abs h x) l).
  (** What is needed of the "large entry" test  |e / norm| >= n^(-1/2):  it never
      selects a zero, and it selects some entry of every non-zero vector. *)
  Definition big_ok (big : nat -> K -> K -> bool) : Prop :=
    (forall n r e, (0 < n)%nat -> r <> 0 -> big n r e = true -> e <> 0) /\
    (forall l : list K, norm_of l <> 0 -> exists x, x ∈ l /\ big (length l) (norm_of l) x = true).

  Context {N : Type} `{Countable N}.
  Notation W := (wnode N).
  Notation wgraph := (graph K W).
  (** What Python and the pivoting heuristics leave open. *)
  Record dag_runtime := DagRuntime {
    dr_enum : gset W -> list W;                 (* set iteration order *)
    dr_pick : gset W -> option W;               (* set.pop *)
    dr_order : srabe K W -> list W;             (* heap order of the trivial / sorted pass *)
    dr_bad : srabe K W -> W -> bool;            (* stability test of the trivial pass *)
    dr_cost : nat -> srabe K W -> W -> Z;       (* cost heuristic *)
    dr_drift : Z -> Z -> bool;                  (* the cost changed by more than 10% *)
    dr_pop : list (Z * W) -> option ((Z * W) * list (Z * W));
    dr_big : nat -> K -> K -> bool;             (* large-entry test *)
  }.
  Record dag_runtime_ok (rt : dag_runtime) : Prop := {
    dr_enum_ok : forall X, dr_enum rt X ≡ₚ elements X;
    dr_pick_ok : forall X n, dr_pick rt X = Some n -> n ∈ X;
    dr_pick_none : forall X, dr_pick rt X = None -> X = ∅;
    dr_order_ok : forall s, dr_order rt s ≡ₚ elements (dom (q_seq s));
    dr_drift_ok : forall c, dr_drift rt c c = false;
    dr_pop_ok : forall l x l', dr_pop rt l = Some (x, l') -> l ≡ₚ x :: l';
    dr_pop_none : forall l, dr_pop rt l = None -> l = [];
    dr_big_ok : big_ok (dr_big rt);
  }.
  Definition loop_LUQ (rt : dag_runtime) (sorted_order : bool) (g : wgraph) (O I : list N)
      (om : option (list (N * K))) (purge_in purge_out negative scattering : bool) : res solution :=
    dag_inverse_solve (dr_enum rt) (dr_pick rt)
      (dag_simplify (dr_enum rt) (h_conj h) (h_sqrt h) (h_abs h) (dr_big rt) (dr_order rt)
         (dr_bad rt) (dr_cost rt) (dr_drift rt) (dr_pop rt) sorted_order)
      g O I om purge_in purge_out negative scattering.

  (** every node of the network occurs as a key of one of the two dicts *)
  Definition all_keyed (V : list N) (g : wgraph) : Prop :=
    forall w, w ∈ dom (g_seq g) \/ w ∈ dom (g_req g) <-> exists n, w = Nd n /\ n ∈ V.
  (** a node linked to itself has a value for that link *)
  Definition self_valued (g : wgraph) : Prop :=
    forall w, w ∈ ds_get (g_seq g) w -> is_Some (g_em g !! (w, w)).
End spec.
(** What the two modes promise about a returned solution of the network with
    link values [S]. *)
Section promises.
  Context {K : fld} {N : Type} `{Countable N}.
  Context (V I O : list N) (om : option (list (N * K))) (S : N -> N -> K).
  (** scattering: unit sources at [I] give the steady states  x = u + S x *)
  Definition scattering_spec (neg : bool) (sol : solution (K := K) (N := N)) : Prop :=
    is_response V I O (steady_state V S) (fun i o => sgn neg * R_of sol i o) /\
    (om <> None -> forall x, steady_state V S (m_of om) x -> forall o, o ∈ O -> x o = sgn neg * m_out sol o).
  (** plain: the solutions of  S x = u *)
  Definition plain_spec (neg : bool) (sol : solution (K := K) (N := N)) : Prop :=
    is_response V I O (solves V S) (fun i o => sgn neg * R_of sol i o) /\
    (om <> None -> forall x, solves V S (m_of om) x -> forall o, o ∈ O -> x o = sgn neg * m_out sol o).
End promises.
(** two solutions with the same response values and, given a source dict, the
    same output dict (an absent entry counts as zero) *)
Definition same_answers {K : fld} {N : Type} `{Countable N} (I O : list N) (om : option (list (N * K)))
    (sol sol' : solution (K := K) (N := N)) : Prop :=
  (forall i o, i ∈ I -> o ∈ O -> R_of sol i o = R_of sol' i o) /\
  (om <> None -> forall o, o ∈ O -> m_out sol o = m_out sol' o).
Arguments dag_runtime K N {_ _}.
