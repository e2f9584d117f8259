(** Theorems about the 'loop_LUQ' and sparse solvers.  C03 - C09. *)
From Verif Require Import Fld Py LinSpec Herm GraphModel GraphSpec GraphFinal DagModel DagSpec DagFinal DagExamples.
From Verif Require Import SparseModel SparseSpec SparseFinal SolverAgree.
Local Open Scope fld_scope.

(** C03.  Eliminating a node with a non-zero self edge succeeds, leaves a
    consistent system without the node, and keeps the input/output relation. *)
Theorem C03_reduce_lu {K : fld} {N : Type} `{Countable N} (enum : gset N -> list N)
    (V A B : gset N) (s : srabe K N) (inv : gset N) (v : N) :
  (forall X, enum X ≡ₚ elements X) ->
  dinv V A B s -> v ∈ V -> is_Some (q_em s !! (v, v)) -> qe s v v <> 0 ->
  exists s' inv', reduce_lu enum v (s, inv) = Ok (s', inv') /\ dinv (V ∖ {[v]}) A B s' /\
    same_io A B V s (V ∖ {[v]}) s'.
Proof. intros Henum. exact (lu_same enum Henum V A B s inv v). Qed.
Print Assumptions C03_reduce_lu.

(** C03 (only).  Whenever the elimination returns, the pivot was non-zero and the
    relation is kept. *)
Theorem C03_reduce_lu_only {K : fld} {N : Type} `{Countable N} (enum : gset N -> list N)
    (V A B : gset N) (s : srabe K N) (inv : gset N) (v : N) st :
  (forall X, enum X ≡ₚ elements X) ->
  dinv V A B s -> reduce_lu enum v (s, inv) = Ok st ->
  v ∈ V /\ qe s v v <> 0 /\ dinv (V ∖ {[v]}) A B st.1 /\ same_io A B V s (V ∖ {[v]}) st.1.
Proof. intros Henum. exact (lu_same' enum Henum V A B s inv v st). Qed.
Print Assumptions C03_reduce_lu_only.

(** C04.  A column (row) pivot succeeds, exchanges exactly two columns (rows), and
    keeps the input/output relation. *)
Theorem C04_pivot {K : fld} {N : Type} `{Countable N} (enum : gset N -> list N)
    (V A B : gset N) (s : srabe K N) (inv : gset N) (a b : N) :
  (forall X, enum X ≡ₚ elements X) ->
  dinv V A B s -> a ∈ V -> b ∈ V -> a <> b ->
  (exists s' inv', pivot_col enum a b (s, inv) = Ok (s', inv') /\ dinv V A B s' /\ same_io A B V s V s' /\
     forall m n, m ∈ V ∪ A -> n ∈ V ∪ B -> qe s' m n = qe s (swap a b m) n) /\
  (exists s' inv', pivot_row enum a b (s, inv) = Ok (s', inv') /\ dinv V A B s' /\ same_io A B V s V s' /\
     forall m n, m ∈ V ∪ A -> n ∈ V ∪ B -> qe s' m n = qe s m (swap a b n)).
Proof. intros Henum. exact (pivot_same enum Henum V A B s inv a b). Qed.
Print Assumptions C04_pivot.

(** C05.  A Householder reflection of a row (column) succeeds, zeroes the listed
    entries, keeps the pivot non-zero and keeps the input/output relation. *)
Theorem C05_householder {K : fld} {N : Type} `{Countable N} (h : herm K) (enum : gset N -> list N)
    (V A B : gset N) (s : srabe K N) (into : N) (from : list N) :
  (forall X, enum X ≡ₚ elements X) ->
  dinv V A B s -> into ∈ V -> into ∉ from -> NoDup from ->
  is_Some (q_em s !! (into, into)) -> qe s into into <> 0 ->
  ((forall k, k ∈ from -> k ∈ V /\ is_Some (q_em s !! (k, into))) ->
   exists s', householder_row enum (h_conj h) (h_sqrt h) (h_abs h) into from s = Ok s' /\
     dinv V A B s' /\ same_io A B V s V s' /\ (forall k, k ∈ from -> qe s' k into = 0) /\ qe s' into into <> 0) /\
  ((forall k, k ∈ from -> k ∈ V /\ is_Some (q_em s !! (into, k))) ->
   exists s', householder_col enum (h_conj h) (h_sqrt h) (h_abs h) into from s = Ok s' /\
     dinv V A B s' /\ same_io A B V s V s' /\ (forall k, k ∈ from -> qe s' into k = 0) /\ qe s' into into <> 0).
Proof. intros Henum. exact (house_same enum Henum h V A B s into from). Qed.
Print Assumptions C05_householder.

(** C06, C07 (scattering).  On every network with a unique steady state whose
    nodes all occur in the dicts, the default LUQ solve returns, and whatever it
    (or the sorted variant) returns is the closed-loop response. *)
Theorem C06_scattering {K : fld} {N : Type} `{Countable N} (h : herm K) (rt : dag_runtime K N)
    (V I O : list N) (om : option (list (N * K))) (sorted : bool) (g : graph K (wnode N))
    (purge_in purge_out negative : bool) :
  dag_runtime_ok h rt -> request_ok V I O om ->
  scattering_input V g -> all_keyed V g -> self_valued g -> nonsingular V (S_of g) ->
  (sorted = false -> exists sol, loop_LUQ h rt sorted g O I om purge_in purge_out negative true = Ok sol) /\
  (forall sol, loop_LUQ h rt sorted g O I om purge_in purge_out negative true = Ok sol ->
     scattering_spec V I O om (S_of g) negative sol).
Proof. intros Hrt Hrq. exact (luq_scattering h rt Hrt V I O om Hrq sorted g purge_in purge_out negative). Qed.
Print Assumptions C06_scattering.

(** C06, C07 (plain).  Likewise for the plain system  A x = u. *)
Theorem C06_plain {K : fld} {N : Type} `{Countable N} (h : herm K) (rt : dag_runtime K N)
    (V I O : list N) (om : option (list (N * K))) (sorted : bool) (g : graph K (wnode N))
    (purge_in purge_out negative : bool) :
  dag_runtime_ok h rt -> request_ok V I O om ->
  scattering_input V g ->
  (forall w, w ∈ dom (g_seq g) \/ w ∈ dom (g_req g) -> exists n, w = Nd n /\ n ∈ V) ->
  injective_sys V (S_of g) ->
  (sorted = false -> exists sol, loop_LUQ h rt sorted g O I om purge_in purge_out negative false = Ok sol) /\
  (forall sol, loop_LUQ h rt sorted g O I om purge_in purge_out negative false = Ok sol ->
     plain_spec V I O om (S_of g) negative sol).
Proof. intros Hrt Hrq. exact (luq_plain h rt Hrt V I O om Hrq sorted g purge_in purge_out negative). Qed.
Print Assumptions C06_plain.

(** C06 (isolated nodes).  A requested node that occurs in neither dict gets the
    response 0 instead of 1. *)
Theorem C06_isolated_node_refuted : exists sol,
  scattering_input [1]%nat (Graph ∅ ∅ ∅ : graph C_fld (wnode nat)) /\
  nonsingular [1]%nat (S_of (Graph ∅ ∅ ∅ : graph C_fld (wnode nat))) /\
  request_ok (K := C_fld) [1]%nat [1]%nat [1]%nat None /\
  loop_LUQ C_herm C_rt false (Graph ∅ ∅ ∅) [1]%nat [1]%nat None true true false true = Ok sol /\
  ~ is_response [1]%nat [1]%nat [1]%nat (steady_state [1]%nat (S_of (Graph ∅ ∅ ∅ : graph C_fld (wnode nat))))
      (fun i o => sgn false * R_of sol i o).
Proof. exact luq_keyless. Qed.
Print Assumptions C06_isolated_node_refuted.

(** C08 (LUQ).  Pivot costs, queue and set orders, the stability test, the sorted
    flag and the purge flags do not change any answer. *)
Theorem C08_LUQ_order_independent {K : fld} {N : Type} `{Countable N} (h : herm K)
    (rt rt' : dag_runtime K N) (V I O : list N) (om : option (list (N * K))) (g : graph K (wnode N))
    (sorted sorted' pi po pi' po' negative : bool) sol sol' :
  request_ok V I O om -> dag_runtime_ok h rt -> dag_runtime_ok h rt' ->
  scattering_input V g -> all_keyed V g -> self_valued g -> nonsingular V (S_of g) ->
  loop_LUQ h rt sorted g O I om pi po negative true = Ok sol ->
  loop_LUQ h rt' sorted' g O I om pi' po' negative true = Ok sol' -> same_answers I O om sol sol'.
Proof.
  intros Hrq. exact (luq_order_independent V I O om Hrq h rt rt' g sorted sorted' pi po pi' po' negative sol sol').
Qed.
Print Assumptions C08_LUQ_order_independent.

(** C09.  The sparse solver is exact too (given an exact spsolve), and any two
    solvers that return agree. *)
Theorem C09_sparse_scattering {K : fld} {N : Type} `{Countable N} (rt : sparse_runtime K N)
    (V I O : list N) (om : option (list (N * K))) (g : graph K (wnode N))
    (purge_in purge_out negative : bool) :
  sparse_runtime_ok rt -> request_ok V I O om ->
  scattering_input V g -> all_mentioned V I O om g -> self_valued g -> nonsingular V (S_of g) ->
  (spsolve_total (sr_spsolve rt) ->
   exists sol, scisparse rt g O I om purge_in purge_out negative true = Ok sol) /\
  (forall sol, scisparse rt g O I om purge_in purge_out negative true = Ok sol ->
     scattering_spec V I O om (S_of g) negative sol).
Proof. intros Hrt Hrq. exact (sp_scattering rt Hrt V I O om Hrq g purge_in purge_out negative). Qed.
Print Assumptions C09_sparse_scattering.

Theorem C09_sparse_plain {K : fld} {N : Type} `{Countable N} (rt : sparse_runtime K N)
    (V I O : list N) (om : option (list (N * K))) (g : graph K (wnode N))
    (purge_in purge_out negative : bool) :
  sparse_runtime_ok rt -> request_ok V I O om -> scattering_input V g ->
  (forall w, w ∈ dom (g_seq g) \/ w ∈ dom (g_req g) -> exists n, w = Nd n /\ n ∈ V) ->
  injective_sys V (S_of g) ->
  (spsolve_total (sr_spsolve rt) ->
   exists sol, scisparse rt g O I om purge_in purge_out negative false = Ok sol) /\
  (forall sol, scisparse rt g O I om purge_in purge_out negative false = Ok sol ->
     plain_spec V I O om (S_of g) negative sol).
Proof. intros Hrt Hrq. exact (sp_plain rt Hrt V I O om Hrq g purge_in purge_out negative). Qed.
Print Assumptions C09_sparse_plain.

Theorem C09_fast_LUQ_agree {K : fld} {N : Type} `{Countable N} (h : herm K)
    (rt : runtime) (drt : dag_runtime K N) (V I O : list N) (om : option (list (N * K)))
    (g : graph K (wnode N)) (sorted pi po pi' po' negative : bool) sol sol' :
  request_ok V I O om -> runtime_ok rt -> dag_runtime_ok h drt ->
  scattering_input V g -> all_keyed V g -> self_valued g -> nonsingular V (S_of g) ->
  loop_fast_unstable rt g O I om pi po negative = Ok sol ->
  loop_LUQ h drt sorted g O I om pi' po' negative true = Ok sol' -> same_answers I O om sol sol'.
Proof. intros Hrq. exact (fast_luq_agree V I O om Hrq h rt drt g sorted pi po pi' po' negative sol sol'). Qed.
Print Assumptions C09_fast_LUQ_agree.

Theorem C09_fast_sparse_agree {K : fld} {N : Type} `{Countable N}
    (rt : runtime) (srt : sparse_runtime K N) (V I O : list N) (om : option (list (N * K)))
    (g : graph K (wnode N)) (pi po pi' po' negative : bool) sol sol' :
  request_ok V I O om -> runtime_ok rt -> sparse_runtime_ok srt ->
  scattering_input V g -> all_mentioned V I O om g -> self_valued g -> nonsingular V (S_of g) ->
  loop_fast_unstable rt g O I om pi po negative = Ok sol ->
  scisparse srt g O I om pi' po' negative true = Ok sol' -> same_answers I O om sol sol'.
Proof. intros Hrq. exact (fast_sparse_agree V I O om Hrq rt srt g pi po pi' po' negative sol sol'). Qed.
Print Assumptions C09_fast_sparse_agree.

Theorem C09_LUQ_sparse_plain_agree {K : fld} {N : Type} `{Countable N} (h : herm K)
    (drt : dag_runtime K N) (srt : sparse_runtime K N) (V I O : list N) (om : option (list (N * K)))
    (g : graph K (wnode N)) (sorted pi po pi' po' negative : bool) sol sol' :
  request_ok V I O om -> dag_runtime_ok h drt -> sparse_runtime_ok srt ->
  scattering_input V g ->
  (forall w, w ∈ dom (g_seq g) \/ w ∈ dom (g_req g) -> exists n, w = Nd n /\ n ∈ V) ->
  injective_sys V (S_of g) ->
  loop_LUQ h drt sorted g O I om pi po negative false = Ok sol ->
  scisparse srt g O I om pi' po' negative false = Ok sol' -> same_answers I O om sol sol'.
Proof. intros Hrq. exact (luq_sparse_plain_agree V I O om Hrq h drt srt g sorted pi po pi' po' negative sol sol'). Qed.
Print Assumptions C09_LUQ_sparse_plain_agree.

(** ** Concrete instances of the hypotheses: a two node loop of gain 1/2 over the
    complex numbers, an executable runtime, an exact reference [spsolve]. *)
Example LUQ_input_example :
  scattering_input [1; 2]%nat exC_g /\ all_keyed [1; 2]%nat exC_g /\ self_valued exC_g /\
  request_ok (K := C_fld) [1; 2]%nat [1]%nat [2]%nat (Some [(1%nat, 1)]) /\ nonsingular [1; 2]%nat (S_of exC_g).
Proof. exact exC_ok. Qed.
Example LUQ_runtime_example : dag_runtime_ok C_herm (C_rt (N := nat)).
Proof. exact C_rt_ok. Qed.
Example sparse_runtime_example :
  sparse_runtime_ok (ref_rt (K := C_fld) (N := nat)) /\ spsolve_total (sr_spsolve (ref_rt (K := C_fld) (N := nat))).
Proof. exact (conj ref_rt_ok ref_rt_total). Qed.
Example system_example : exists (V A B : gset (wnode nat)) (s : srabe C_fld (wnode nat)),
  dinv V A B s /\ Nd 1%nat ∈ V /\ Nd 2%nat ∈ V /\ A <> ∅ /\ B <> ∅ /\
  is_Some (q_em s !! (Nd 1%nat, Nd 1%nat)) /\ qe s (Nd 1%nat) (Nd 1%nat) <> 0 /\
  is_Some (q_em s !! (Nd 2%nat, Nd 1%nat)) /\ is_Some (q_em s !! (Nd 1%nat, Nd 2%nat)).
Proof. exact exC_sys. Qed.
