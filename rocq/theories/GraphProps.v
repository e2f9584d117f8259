(** Theorems about the 'loop_fast_unstable' solver and the graph purges.
    C01, C02, C08, C10, C11. *)
From Verif Require Import Fld Py LinSpec LinAlg GraphModel GraphSpec GraphPurge GraphFinal.
Local Open Scope fld_scope.

(** C01.  On a network with a unique steady state, whatever the solver returns is
    the closed-loop response: for all graphs, field values, request sets, flags,
    iteration orders and queue disciplines. *)
Theorem C01_response {K : fld} {N : Type} `{Countable N} (rt : runtime) (V I O : list N)
    (om : option (list (N * K))) (g : graph K (wnode N)) (purge_in purge_out negative : bool) sol :
  runtime_ok rt -> scattering_input V g -> request_ok V I O om -> nonsingular V (S_of g) ->
  loop_fast_unstable rt g O I om purge_in purge_out negative = Ok sol ->
  is_response V I O (steady_state V (S_of g)) (fun i o => sgn negative * R_of sol i o).
Proof. exact (fast_response rt V I O om g purge_in purge_out negative sol). Qed.
Print Assumptions C01_response.

(** C01 (source dict).  The returned outputs dict is the steady state itself. *)
Theorem C01_outputs_map {K : fld} {N : Type} `{Countable N} (rt : runtime) (V I O : list N)
    (l : list (N * K)) (g : graph K (wnode N)) (purge_in purge_out negative : bool) sol x :
  runtime_ok rt -> scattering_input V g -> request_ok V I O (Some l) -> nonsingular V (S_of g) ->
  loop_fast_unstable rt g O I (Some l) purge_in purge_out negative = Ok sol ->
  steady_state V (S_of g) (m_of (Some l)) x ->
  forall o, o ∈ O -> x o = sgn negative * m_out sol o.
Proof. exact (fast_outputs_map rt V I O l g purge_in purge_out negative sol x). Qed.
Print Assumptions C01_outputs_map.

(** C01 (purging switched off).  Then success alone guarantees that steady states
    exist and are predicted. *)
Theorem C01_response_unpurged {K : fld} {N : Type} `{Countable N} (rt : runtime) (V I O : list N)
    (om : option (list (N * K))) (g : graph K (wnode N)) (negative : bool) sol :
  runtime_ok rt -> scattering_input V g -> request_ok V I O om ->
  loop_fast_unstable rt g O I om false false negative = Ok sol ->
  is_response V I O (steady_state V (S_of g)) (fun i o => sgn negative * R_of sol i o).
Proof. exact (fast_response_unpurged rt V I O om g negative sol). Qed.
Print Assumptions C01_response_unpurged.

(** C02.  The solver terminates, and fails only when some part of the network
    has unit loop gain; with purging disabled it may also reject spurious
    outputs by assertion. *)
Theorem C02_failures {K : fld} {N : Type} `{Countable N} (rt : runtime) (V I O : list N)
    (om : option (list (N * K))) (g : graph K (wnode N)) (purge_in purge_out negative : bool) e :
  runtime_ok rt -> scattering_input V g -> request_ok V I O om ->
  loop_fast_unstable rt g O I om purge_in purge_out negative = Err e ->
  (e = ZeroDivisionError /\ self_sustained V (S_of g)) \/
  (e = AssertionError /\ ~ (purge_in = true /\ purge_out = true)).
Proof. exact (fast_failures rt V I O om g purge_in purge_out negative e). Qed.
Print Assumptions C02_failures.

(** C08 (fast solver).  Neither the elimination order, nor iteration orders, nor
    the purge flags change a response. *)
Theorem C08_order_independent {K : fld} {N : Type} `{Countable N} (rt rt' : runtime) (V I O : list N)
    (om : option (list (N * K))) (g : graph K (wnode N)) (pi po pi' po' negative : bool) sol sol' :
  runtime_ok rt -> runtime_ok rt' -> scattering_input V g -> request_ok V I O om ->
  nonsingular V (S_of g) ->
  loop_fast_unstable rt g O I om pi po negative = Ok sol ->
  loop_fast_unstable rt' g O I om pi' po' negative = Ok sol' ->
  (forall i o, i ∈ I -> o ∈ O -> R_of sol i o = R_of sol' i o) /\
  (forall o, o ∈ O -> m_out sol o = m_out sol' o).
Proof. exact (fast_order_independent rt rt' V I O om g pi po pi' po' negative sol sol'). Qed.
Print Assumptions C08_order_independent.

(** C10.  The forward colour purge terminates without error, keeps exactly the
    links whose tail is reachable from the start set, with their values, and
    keeps the two adjacency maps mirrored. *)
Theorem C10_purge_reqless {K : fld} {N : Type} `{Countable N} (enum : gset N -> list N)
    (pick : gset N -> option N) (start : gset N) (g : graph K N) :
  (forall X, enum X ≡ₚ elements X) ->
  (forall X n, pick X = Some n -> n ∈ X) -> (forall X, pick X = None -> X = ∅) ->
  (forall r s, s ∈ ds_get (g_seq g) r <-> r ∈ ds_get (g_req g) s) ->
  exists g', purge_reqless enum pick start g = Ok g' /\
    (forall r s, s ∈ ds_get (g_seq g') r <->
                 s ∈ ds_get (g_seq g) r /\ reachable (g_seq g) start r) /\
    (forall r s, r ∈ ds_get (g_req g') s <-> s ∈ ds_get (g_seq g') r) /\
    (forall r s, reachable (g_seq g) start r -> g_em g' !! (r, s) = g_em g !! (r, s)).
Proof. exact (purge_reqless_exact enum pick start g). Qed.
Print Assumptions C10_purge_reqless.

(** C10 (backward).  Likewise for the backward purge, provided every node has an
    entry in the forward map (which the forward purge establishes). *)
Theorem C10_purge_seqless {K : fld} {N : Type} `{Countable N} (enum : gset N -> list N)
    (pick : gset N -> option N) (start : gset N) (g : graph K N) :
  (forall X, enum X ≡ₚ elements X) ->
  (forall X n, pick X = Some n -> n ∈ X) -> (forall X, pick X = None -> X = ∅) ->
  (forall r s, s ∈ ds_get (g_seq g) r <-> r ∈ ds_get (g_req g) s) ->
  (forall r s, s ∈ ds_get (g_seq g) r -> s ∈ dom (g_seq g)) ->
  exists g', purge_seqless enum pick start g = Ok g' /\
    (forall r s, s ∈ ds_get (g_seq g') r <->
                 s ∈ ds_get (g_seq g) r /\ reachable (g_req g) start s) /\
    (forall r s, r ∈ ds_get (g_req g') s <-> s ∈ ds_get (g_seq g') r) /\
    (forall r s, reachable (g_req g) start r -> g_em g' !! (r, s) = g_em g !! (r, s)).
Proof. exact (purge_seqless_exact enum pick start g). Qed.
Print Assumptions C10_purge_seqless.

(** C10 (hidden precondition).  Without an entry in the forward map a dead end
    survives the backward purge. *)
Theorem C10_purge_seqless_keyless_refuted :
  exists (g g' : graph Qc_fld nat) (start : gset nat) (r s : nat),
    (forall r s, s ∈ ds_get (g_seq g) r <-> r ∈ ds_get (g_req g) s) /\
    purge_seqless elements (fun X => head (elements X)) start g = Ok g' /\
    s ∈ ds_get (g_seq g') r /\ ~ reachable (g_req g) start s.
Proof. exact purge_seqless_keyless. Qed.
Print Assumptions C10_purge_seqless_keyless_refuted.

(** C11.  After the pre-purge exactly the links with an edge value remain, in
    both directions, and no value changes. *)
Theorem C11_pre_purge {K : fld} {N : Type} `{Countable N} (g : graph K N) :
  (forall r s, s ∈ ds_get (g_seq (pre_purge g)) r <->
               s ∈ ds_get (g_seq g) r /\ is_Some (g_em g !! (r, s))) /\
  (forall r s, r ∈ ds_get (g_req (pre_purge g)) s <->
               r ∈ ds_get (g_req g) s /\ is_Some (g_em g !! (r, s))) /\
  g_em (pre_purge g) = g_em g /\
  ((forall r s, s ∈ ds_get (g_seq g) r <-> r ∈ ds_get (g_req g) s) ->
   forall r s, s ∈ ds_get (g_seq (pre_purge g)) r <-> r ∈ ds_get (g_req (pre_purge g)) s).
Proof. exact (pre_purge_exact g). Qed.
Print Assumptions C11_pre_purge.

(** ** Concrete instances of the hypotheses: a three node network with a loop
    1 -> 2 -> 1 of gain 1/2, a link without value, and an unreachable node. *)
Example runtime_example : runtime_ok ex_rt.
Proof. exact ex_rt_ok. Qed.
Example input_example : scattering_input ex_V ex_g /\ request_ok ex_V [1; 3]%nat [2; 3]%nat (Some ex_m)
  /\ nonsingular ex_V (S_of ex_g).
Proof. exact ex_ok. Qed.
Example solve_example : exists sol,
  loop_fast_unstable ex_rt ex_g [2; 3]%nat [1; 3]%nat (Some ex_m) true true false = Ok sol /\
  R_of sol 1%nat 2%nat = (1 + 1 : Qc_fld) /\ m_out sol 2%nat = (1 + 1 : Qc_fld).
Proof. exact ex_solve. Qed.
Example failure_example :
  scattering_input ex_V ex_bad /\
  loop_fast_unstable ex_rt ex_bad [2; 3]%nat [1; 3]%nat None true true false = Err ZeroDivisionError.
Proof. exact ex_fail. Qed.
