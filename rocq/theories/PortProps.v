(** Theorems about the port requests.  C31, C32. *)
From stdpp Require Import base tactics list numbers gmap fin_sets relations.
From Verif Require Import Py PortModel PortSpec PortProofs PortProofs2.

(** C31: whenever the port loop finishes, whatever the order in which elements and
    ports were taken, a key has been handed to a port exactly when it belongs to the
    least set containing the initial requests and closed under the elements' demands and
    the bonds; the port's key set holds exactly these as soon as some element seeing the
    port has a setup method (otherwise they stay in its owner's update set). *)
Theorem C31_least {E P K} `{Countable E} `{Countable P} `{Countable K}
    (S : sys E P K) (D : demand) (init : list (P * K))
    (popE : nat -> gset E -> E) (popP : nat -> gset P -> P) fuel s :
  sys_ok S -> demand_ok S D -> rules_ok S D ->
  (forall t X, X <> ∅ -> popE t X ∈ X) -> (forall t X, X <> ∅ -> popP t X ∈ X) ->
  port_needs S popE popP fuel init = Ok s ->
  forall p o k, owner S p = Some o ->
    (needed S D init p k <-> k ∈ cplgs s p \/ k ∈ upd s (o, p)) /\
    ((exists e, sees S e p /\ active S e) -> (needed S D init p k <-> k ∈ cplgs s p)).
Proof. exact (C31_least_lem S D init popE popP fuel s). Qed.
Print Assumptions C31_least.

(** C31: the loop finishes when the demands can only reach finitely many keys. *)
Theorem C31_terminates {E P K} `{Countable E} `{Countable P} `{Countable K}
    (S : sys E P K) (D : demand) (init : list (P * K))
    (popE : nat -> gset E -> E) (popP : nat -> gset P -> P) :
  sys_ok S -> demand_ok S D -> rules_ok S D ->
  (forall t X, X <> ∅ -> popE t X ∈ X) -> (forall t X, X <> ∅ -> popP t X ∈ X) ->
  (exists B : gset (P * K), forall p k, needed S D init p k -> (p, k) ∈ B) ->
  exists c, forall fuel, c <= fuel -> exists s, port_needs S popE popP fuel init = Ok s.
Proof. exact (C31_terminates_lem S D init popE popP). Qed.
Print Assumptions C31_terminates.

(** C31: two runs with different orders (and the initial requests in a different order)
    leave the same key sets. *)
Theorem C31_order_independent {E P K} `{Countable E} `{Countable P} `{Countable K}
    (S : sys E P K) (D : demand) (init1 init2 : list (P * K))
    (popE1 popE2 : nat -> gset E -> E) (popP1 popP2 : nat -> gset P -> P) f1 f2 s1 s2 :
  sys_ok S -> demand_ok S D -> rules_ok S D ->
  (forall t X, X <> ∅ -> popE1 t X ∈ X) -> (forall t X, X <> ∅ -> popE2 t X ∈ X) ->
  (forall t X, X <> ∅ -> popP1 t X ∈ X) -> (forall t X, X <> ∅ -> popP2 t X ∈ X) ->
  (forall pk, pk ∈ init1 <-> pk ∈ init2) ->
  port_needs S popE1 popP1 f1 init1 = Ok s1 -> port_needs S popE2 popP2 f2 init2 = Ok s2 ->
  forall e p, sees S e p -> active S e -> cplgs s1 p = cplgs s2 p.
Proof. exact (port_order_independent S D init1 init2 popE1 popE2 popP1 popP2 f1 f2 s1 s2). Qed.
Print Assumptions C31_order_independent.

(** C31: one element alone.  Whatever the other elements' methods do, once the loop has
    finished everything the element wants given the keys at its ports has been handed out. *)
Theorem C31_complete {E P K} `{Countable E} `{Countable P} `{Countable K}
    (S : sys E P K) (e : E) (W : (P -> K -> Prop) -> P -> K -> Prop) (init : list (P * K))
    (popE : nat -> gset E -> E) (popP : nat -> gset P -> P) fuel s :
  sys_ok S -> one_demand_ok S e W -> active S e ->
  (forall t X, X <> ∅ -> popE t X ∈ X) -> (forall t X, X <> ∅ -> popP t X ∈ X) ->
  port_needs S popE popP fuel init = Ok s -> meets S e W (at_ports (cplgs s)) ->
  forall p k, W (at_ports (cplgs s)) p k -> forall q, rtc (bonded S) p q ->
    (exists e', sees S e' q /\ active S e') -> k ∈ cplgs s q.
Proof. exact (fun Hok HW Ha HE HP Er HC => port_needs_meets S Hok init e W HW _ HC Ha popP HP popE HE fuel s Er (fun p k Hk => Hk)). Qed.
Print Assumptions C31_complete.

(** C31 is false without the restriction on virtual ownership in [rules_ok]: an element
    working from its update sets that asks for a key at a port it owns virtually never
    gets to see that key, and the keys it would lead to are missing at the end. *)
Theorem C31_virtual_refuted :
  exists (S : sys N N N) (D : demand) (init : list (N * N))
    (popE : nat -> gset N -> N) (popP : nat -> gset N -> N) fuel s p k,
  sys_ok S /\ demand_ok S D /\ (forall e, incremental S D e) /\
  (forall t X, X <> ∅ -> popE t X ∈ X) /\ (forall t X, X <> ∅ -> popP t X ∈ X) /\
  port_needs S popE popP fuel init = Ok s /\
  needed S D init p k /\ k ∉ cplgs s p /\ forall o, owner S p = Some o -> k ∉ upd s (o, p).
Proof. exact C31_virtual_refuted_lem. Qed.
Print Assumptions C31_virtual_refuted.

(** the hypotheses hold of a chain of two elements, where key 7 asked at one end is
    needed at the other *)
Example C31_example :
  sys_ok line_sys /\ demand_ok line_sys line_demand /\ rules_ok line_sys line_demand /\
  (exists B : gset (N * N), forall p k, needed line_sys line_demand [(0, 7)%N] p k -> (p, k) ∈ B) /\
  needed line_sys line_demand [(0, 7)%N] 3%N 7%N.
Proof. exact line_ok. Qed.
Example C31_example_run :
  exists s, port_needs line_sys (pop_min 0%N) (pop_min 0%N) 100 [(0, 7)%N] = Ok s /\ 7%N ∈ cplgs s 3%N.
Proof. eexists. split; [vm_compute; reflexivity|]. vm_compute. reflexivity. Qed.

(** C32: on two different ports, exactly the pairs with at least one new member. *)
Theorem C32_pairs {P K} `{EqDecision P} `{Countable K} (u c : P -> gset K) p1 p2 : p1 <> p2 ->
  exists l, symmetric_update u c (Some (POne p1)) (Some (POne p2)) None None = Ok l /\
  forall a b, (a, b) ∈ l <->
    (a ∈ u p1 \/ a ∈ c p1) /\ (b ∈ u p2 \/ b ∈ c p2) /\ (a ∈ u p1 \/ b ∈ u p2).
Proof. exact (symm_pairs u c p1 p2). Qed.
Print Assumptions C32_pairs.

(** C32: on one port taken twice, the pairs whose first member is new; so each pair with
    a new member comes at least in one of its two orders. *)
Theorem C32_same_port {P K} `{EqDecision P} `{Countable K} (u c : P -> gset K) p :
  exists l, symmetric_update u c (Some (POne p)) (Some (POne p)) None None = Ok l /\
  (forall a b, (a, b) ∈ l <-> a ∈ u p /\ (b ∈ u p \/ b ∈ c p)) /\
  (forall a b, (a ∈ u p \/ a ∈ c p) -> (b ∈ u p \/ b ∈ c p) -> (a ∈ u p \/ b ∈ u p) ->
     (a, b) ∈ l \/ (b, a) ∈ l).
Proof. exact (symm_same u c p). Qed.
Print Assumptions C32_same_port.

(** C32: with the subset functions, each new key is paired with what its function
    selects from the other pool. *)
Theorem C32_subsets {P K} `{EqDecision P} `{Countable K} (u c : P -> gset K) p1 p2
    (f2 f1 : gset K -> K -> list K) : p1 <> p2 ->
  exists l, symmetric_update u c (Some (POne p1)) (Some (POne p2)) (Some f2) (Some f1) = Ok l /\
  forall a b, (a, b) ∈ l <->
    (a ∈ u p1 /\ b ∈ f2 (u p2 ∪ c p2) a) \/ (b ∈ u p2 /\ a ∈ f1 (c p1) b).
Proof. exact (symm_subset u c p1 p2 f2 f1). Qed.
Print Assumptions C32_subsets.

(** C32: the second port may be a list of ports. *)
Theorem C32_second_list {P K} `{EqDecision P} `{Countable K} (u c : P -> gset K) p1 ps :
  exists l, symmetric_update u c (Some (POne p1)) (Some (PMany ps)) None None = Ok l /\
  forall a b, (a, b) ∈ l <->
    (a ∈ u p1 \/ a ∈ c p1) /\ (exists p2, p2 ∈ ps /\ (b ∈ u p2 \/ b ∈ c p2)) /\
    (a ∈ u p1 \/ exists p2, p2 ∈ ps /\ b ∈ u p2).
Proof. exact (symm_second_list u c p1 ps). Qed.
Print Assumptions C32_second_list.

(** C32 is false when the first port is a list: it always raises TypeError. *)
Theorem C32_first_list_refuted {P K} `{EqDecision P} `{Countable K} (u c : P -> gset K) ps p2 f2 f1 :
  symmetric_update u c (Some (PMany ps)) (Some p2) f2 f1 = Err TypeError.
Proof. exact (symm_first_list u c ps p2 f2 f1). Qed.
Print Assumptions C32_first_list_refuted.

(** C32: over any number of rounds, each handing out its update sets and then merging
    them, the pairs handed out are exactly those of keys that were ever there, but for
    those already merged at the start. *)
Theorem C32_history {P K} `{EqDecision P} `{Countable K} p1 p2 (rounds : list (P -> gset K)) (c : P -> gset K) :
  p1 <> p2 ->
  exists l, symm_rounds p1 p2 rounds c = Ok l /\
  forall a b,
    let seen p k := k ∈ c p \/ exists u, u ∈ rounds /\ k ∈ u p in
    (seen p1 a /\ seen p2 b <-> (a, b) ∈ l \/ (a ∈ c p1 /\ b ∈ c p2)).
Proof. exact (symm_rounds_spec p1 p2 rounds c). Qed.
Print Assumptions C32_history.

(** C32: so an element whose method goes through symmetric_update meets the condition
    C31 puts on element methods. *)
Theorem C32_incremental {E P K} `{Countable E} `{Countable P} `{Countable K}
    (S : sys E P K) (D : demand) e p1 p2 f : p1 <> p2 ->
  rule S e = Some (pair_rule p1 p2 f) ->
  (forall X p k, D e X p k <-> exists a b, X p1 a /\ X p2 b /\ (p, k) ∈ f a b) ->
  incremental S D e.
Proof. exact (pair_rule_incremental S D e p1 p2 f). Qed.
Print Assumptions C32_incremental.

Example C32_example :
  exists l, symmetric_update (K := N) (fun p : N => if decide (p = 0%N) then {[1%N]} else {[5%N]})
    (fun p => {[2%N]}) (Some (POne 0%N)) (Some (POne 1%N)) None None = Ok l /\
  (2, 2)%N ∉ l /\ (2, 5)%N ∈ l /\ (1, 2)%N ∈ l.
Proof.
  destruct (C32_pairs (K := N) (fun p : N => if decide (p = 0%N) then {[1%N]} else {[5%N]})
    (fun p => {[2%N]}) 0%N 1%N) as (l & Hl & G); [done|].
  exists l. split; [done|]. rewrite !G. cbn. set_solver.
Qed.
