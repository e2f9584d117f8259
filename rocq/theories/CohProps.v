(** Theorems about the coherent sparsity analysis.  C33. *)
From stdpp Require Import base tactics list numbers gmap fin_sets relations.
From Verif Require Import Fld Py GraphModel CohModel CohSpec CohProofs CohFinal.
Local Open Scope nat_scope.

(** C33: the nodes reported as active are exactly the coherently driven ones: the least
    set containing the unconditional sources and closed under bonds, couplings whose
    factors are all driven, nonlinear sources whose factors are all driven, and floats. *)
Theorem C33_active {N} `{Countable N} (rt : coh_runtime N) known fuel js bonds isrc iedge B :
  coh_runtime_ok rt -> frozen js -> coherent_run rt known fuel js bonds isrc iedge (Ok B) ->
  forall n, inl n ∈ b_active B <-> driven js bonds n.
Proof. exact (C33_active_lem rt known fuel js bonds isrc iedge B). Qed.
Print Assumptions C33_active.

(** C33: the input nodes are exactly the sources whose factors are all driven, and the
    output nodes exactly those some live injection reads. *)
Theorem C33_inputs {N} `{Countable N} (rt : coh_runtime N) known fuel js bonds isrc iedge B :
  coh_runtime_ok rt -> frozen js -> coherent_run rt known fuel js bonds isrc iedge (Ok B) ->
  forall v, v ∈ b_inputs B <-> exists x, v = inl x /\ live_source js bonds x.
Proof. exact (C33_inputs_lem rt known fuel js bonds isrc iedge B). Qed.
Print Assumptions C33_inputs.

Theorem C33_outputs {N} `{Countable N} (rt : coh_runtime N) known fuel js bonds isrc iedge B :
  coh_runtime_ok rt -> frozen js -> coherent_run rt known fuel js bonds isrc iedge (Ok B) ->
  forall v, v ∈ b_outputs B <-> exists n, v = inl n /\ needed js bonds n.
Proof. exact (C33_outputs_lem rt known fuel js bonds isrc iedge B). Qed.
Print Assumptions C33_outputs.

(** C33: the full link structure holds exactly the bonds and the couplings all of whose
    factors are driven, with the two directions agreeing and no virtual node left. *)
Theorem C33_links {N} `{Countable N} (rt : coh_runtime N) known fuel js bonds isrc iedge B :
  coh_runtime_ok rt -> frozen js -> coherent_run rt known fuel js bonds isrc iedge (Ok B) ->
  (forall v w, w ∈ ds_get (g_seq (b_full B)) v <-> exists a b, v = inl a /\ w = inl b /\ link js bonds a b) /\
  (forall v w, v ∈ ds_get (g_req (b_full B)) w <-> exists a b, v = inl a /\ w = inl b /\ link js bonds a b).
Proof. exact (C33_links_lem rt known fuel js bonds isrc iedge B). Qed.
Print Assumptions C33_links.

(** C33: the set of nodes the full structure ranges over. *)
Theorem C33_all {N} `{Countable N} (rt : coh_runtime N) known fuel js bonds isrc iedge B :
  coh_runtime_ok rt -> frozen js -> coherent_run rt known fuel js bonds isrc iedge (Ok B) ->
  forall v, v ∈ dom (g_seq (b_full B)) <->
    exists a, v = inl a /\ (driven js bonds a \/ (exists b, link js bonds a b) \/
                            exists ins outs, float_term js ins outs /\ a ∈ ins).
Proof. exact (C33_all_lem rt known fuel js bonds isrc iedge B). Qed.
Print Assumptions C33_all.

(** C33: the reduced structure used for the perturbative solution keeps exactly the links
    that lie on a path of influence from a live source (or AC drive) to a node that is
    read (or an AC readout). *)
Theorem C33_perturb {N} `{Countable N} (rt : coh_runtime N) known fuel js bonds isrc iedge B :
  coh_runtime_ok rt -> frozen js -> coherent_run rt known fuel js bonds isrc iedge (Ok B) ->
  (forall v w, w ∈ ds_get (g_seq (b_perturb B)) v <->
     exists a b, v = inl a /\ w = inl b /\ link js bonds a b /\
      (exists i, (live_source js bonds i \/ drive_ac js i) /\ rtc (influences js bonds) i a) /\
      (exists o, (needed js bonds o \/ read_ac js o) /\ rtc (influences js bonds) b o)) /\
  (forall v w, v ∈ ds_get (g_req (b_perturb B)) w <-> w ∈ ds_get (g_seq (b_perturb B)) v).
Proof. exact (C33_perturb_lem rt known fuel js bonds isrc iedge B). Qed.
Print Assumptions C33_perturb.

(** C33: nothing depends on set iteration order, dict order or the choices of set.pop. *)
Theorem C33_order_independent {N} `{Countable N} (rt1 rt2 : coh_runtime N) known f1 f2 js1 js2 bonds1 bonds2
    isrc1 iedge1 isrc2 iedge2 B1 B2 :
  coh_runtime_ok rt1 -> coh_runtime_ok rt2 -> frozen js1 -> js1 ≡ₚ js2 -> bonds1 ≡ₚ bonds2 ->
  coherent_run rt1 known f1 js1 bonds1 isrc1 iedge1 (Ok B1) ->
  coherent_run rt2 known f2 js2 bonds2 isrc2 iedge2 (Ok B2) ->
  b_inputs B1 = b_inputs B2 /\ b_outputs B1 = b_outputs B2 /\
  (forall n, inl n ∈ b_active B1 <-> inl n ∈ b_active B2) /\
  (forall v w, w ∈ ds_get (g_seq (b_full B1)) v <-> w ∈ ds_get (g_seq (b_full B2)) v) /\
  (forall v w, w ∈ ds_get (g_seq (b_perturb B1)) v <-> w ∈ ds_get (g_seq (b_perturb B2)) v).
Proof. exact (C33_order_independent_lem rt1 rt2 known f1 f2 js1 js2 bonds1 bonds2 isrc1 iedge1 isrc2 iedge2 B1 B2). Qed.
Print Assumptions C33_order_independent.

(** C33: the analysis always finishes, once every injection has been accepted, which is
    the case when all targets are known port keys. *)
Theorem C33_terminates {N} `{Countable N} (rt : coh_runtime N) known js bonds :
  coh_runtime_ok rt -> frozen js ->
  (forall x NZ rq, source_term js x NZ rq -> known x = true) ->
  (forall a b NZ rq, edge_term js a b NZ rq -> known b = true) ->
  exists isrc iedge c, forall fuel, c <= fuel ->
    exists B, coherent_run rt known fuel js bonds isrc iedge (Ok B).
Proof. exact (C33_terminates_lem rt known js bonds). Qed.
Print Assumptions C33_terminates.

(** the hypotheses hold for a system with a constant source at 0, a coupling 0→1, a
    product coupling 1→2 that needs 0, one 1→3 that needs the undriven 7, and a
    nonlinear source at 4 that needs both 1 and 2 *)
Example C33_runtime : coh_runtime_ok ex_rt.
Proof. exact C33_runtime_lem. Qed.
Example C33_frozen : frozen [ex_inj].
Proof. exact C33_frozen_lem. Qed.
Example C33_run : exists isrc iedge B,
  coherent_run ex_rt (fun _ => true) 20 [ex_inj] [(5, 6)] isrc iedge (Ok B) /\
  b_active B ∖ list_to_set [inr (0, 0)] = list_to_set (inl <$> [0; 1; 2; 4; 5; 6]) /\
  b_outputs B = list_to_set (inl <$> [0; 1; 2]) /\ inl 7 ∉ b_active B.
Proof. exact C33_run_lem. Qed.
