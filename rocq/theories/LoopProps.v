(** C81: sensitivities and loop gains. *)
From stdpp Require Import base tactics list numbers.
From Verif Require Import Fld Herm Py LinSpec LinAlg GraphModel GraphSpec GraphPurge LoopModel LoopSpec LoopProofs LoopFinal.
Local Open Scope fld_scope.

(** the sensitivity is what the readout shows when the drive, at both signs, is 1; whatever the network *)
Theorem C81_sensitivity (K : fld) (N : Type) `{EqDecision N} (V I O : list N) (S R : N -> N -> K) drP drN nP c x :
  is_response V I O (steady_state V S) R -> NoDup I -> drP <> drN -> drP ∈ I -> drN ∈ I -> nP ∈ O ->
  steady_state V S (both drP drN c) x -> x nP = ac_sensitivity R drP drN nP * c.
Proof. exact (fun HR HI => sensitivity_lem V I O S R HR HI drP drN nP c x). Qed.
Print Assumptions C81_sensitivity.
(** the open-loop sensitivity is the ratio of two readouts, however large the drive *)
Theorem C81_ratio (K : fld) (N : Type) `{EqDecision N} (V I O : list N) (S R : N -> N -> K) drP drN dP nP c x :
  is_response V I O (steady_state V S) R -> NoDup I -> drP <> drN -> drP ∈ I -> drN ∈ I -> nP ∈ O -> dP ∈ O ->
  steady_state V S (both drP drN c) x -> x dP <> 0 -> ac_sensitivityOL R drP drN dP nP = x nP / x dP.
Proof. exact (fun HR HI => ratio_lem V I O S R HR HI drP drN dP nP c x). Qed.
Print Assumptions C81_ratio.
(** driven at its own port D (the default), it is the response with D held at 1, all loops
    through D cut *)
Theorem C81_open_loop (K : fld) (N : Type) `{EqDecision N} (V I O : list N) (S R : N -> N -> K) pos dP dN nP u :
  is_response V I O (steady_state V S) R -> NoDup I ->
  unmixed S pos -> pos dP = true -> pos dN = false -> pos nP = true ->
  dP ∈ V -> dP ∈ I -> dN ∈ I -> dP ∈ O -> nP ∈ O -> held_at V S dP u ->
  ac_sensitivityOL R dP dN dP nP = u nP.
Proof. exact (fun HR HI => open_loop_lem V I O S R HR HI pos dP dN nP u). Qed.
Print Assumptions C81_open_loop.
(** loop gains: cut the loops at the port and hold it at 1; what returns there is minus the open
    loop gain, and the closed loop gain is 1 / (1 - what returns) *)
Theorem C81_loop_gain (K : fld) (N : Type) `{EqDecision N} (V I O : list N) (S R : N -> N -> K) pos pP pN u :
  is_response V I O (steady_state V S) R -> NoDup I ->
  unmixed S pos -> pos pP = true -> pos pN = false -> pP ∈ V -> pP ∈ I -> pN ∈ I -> pP ∈ O -> held_at V S pP u ->
  clg R pP pN = 1 / (1 - arriving V S u pP) /\ olg R pP pN = - arriving V S u pP.
Proof. exact (fun HR HI => loop_gain_lem V I O S R HR HI pos pP pN u). Qed.
Print Assumptions C81_loop_gain.
Example C81_loop_gain_meets :
  is_response loop2_V loop2_V loop2_V (steady_state loop2_V loop2) loop2_R /\ NoDup loop2_V /\ unmixed loop2 snd /\
  held_at loop2_V loop2 (false, true) (fun n : bool * bool => if n.2 then if n.1 then q 2 else 1 else 0) /\
  olg loop2_R (false, true) (false, false) = q (-6) /\
  ac_sensitivityOL loop2_R (false, true) (false, false) (false, true) (true, true) = q 2.
Proof.
  split; [exact loop2_response|]. split; [vm_decide|]. split.
  { intros r s Hn. unfold loop2 in Hn. by destruct (decide _). }
  split; [|split; vm_decide].
  split; [done|]. intros [[] []] _ Hn; try done; vm_decide.
Qed.
(** when the two signs are coupled the gains are not those of the cut loop: here nothing returns *)
Theorem C81_mixed_refuted : exists (S R : bool -> bool -> Qc_fld) u,
  is_response [true; false] [true; false] [true; false] (steady_state [true; false] S) R /\
  held_at [true; false] S true u /\ arriving [true; false] S u true = 0 /\ olg R true false <> 0.
Proof.
  exists mix2, (fun i o : bool => if i then if o then 1 else 0 else 1), (fun n : bool => if n then 1 else 0).
  split; [exact mix2_response|]. split; [|split; [vm_decide|intros E; vm_compute in E; discriminate E]].
  split; [done|]. intros [] _ Hn; [done|vm_decide].
Qed.
Print Assumptions C81_mixed_refuted.
(** the plant gain: when the drive reaches the plant only through Act and the plant alone has one
    state, it is the response of the plant alone at Sense to 1 at Act, whatever the rest of the
    loop does *)
Theorem C81_plant (K : fld) (N : Type) `{EqDecision N} (V I O : list N) (S R : N -> N -> K) U drP actP senseP u :
  is_response V I O (steady_state V S) R -> NoDup I ->
  NoDup V -> enters_through S U actP -> U drP = false -> U senseP = true ->
  drP ∈ I -> actP ∈ V -> actP ∈ O -> senseP ∈ V -> senseP ∈ O ->
  (forall z, plant_state V S U actP 0 z -> forall s, s ∈ V -> U s = true -> z s = 0) ->
  plant_state V S U actP 1 u -> R drP actP <> 0 -> gplant R drP actP senseP = u senseP.
Proof. exact (fun HR HI => plant_lem V I O S R HR HI U drP actP senseP u). Qed.
Print Assumptions C81_plant.
Example C81_plant_meets : let U (n : bool * bool) := n.1 && n.2 in
  enters_through loop2 U (false, true) /\ U (false, true) = false /\ U (true, true) = true /\
  (forall z, plant_state loop2_V loop2 U (false, true) 0 z -> forall s, s ∈ loop2_V -> U s = true -> z s = 0) /\
  plant_state loop2_V loop2 U (false, true) 1 (fun _ => q 2) /\ loop2_R (false, true) (false, true) <> 0 /\
  gplant loop2_R (false, true) (false, true) (true, true) = q 2.
Proof.
  intros U. split_and!; try done.
  - split; [done|]. intros [[] []] [[] []] Hs Hn; try discriminate Hs; try (by left); try (by right); exfalso; apply Hn; vm_decide.
  - intros z Hz s Hs HU. rewrite (Hz s Hs HU). destruct s as [[] []]; try discriminate HU.
    assert (filter (fun r => U r = true) loop2_V = [(true, true)]) as -> by reflexivity. cbn [fsum].
    assert (loop2 (true, true) (true, true) = 0) as -> by vm_decide. exact (plant_zero _ _).
  - intros [[] []] _ HU; try discriminate HU. vm_decide.
  - vm_decide.
Qed.
(** a drive as large as the noise-limited sensitivity moves the readout by the noise *)
Theorem C81_noise_limited (K : fld) (N : Type) `{EqDecision N} (h : herm K) (V I O : list N) (S R : N -> N -> K) drP drN nP psd c x :
  is_response V I O (steady_state V S) R -> NoDup I -> drP <> drN -> drP ∈ I -> drN ∈ I -> nP ∈ O ->
  h_nn h psd -> ac_sensitivity R drP drN nP <> 0 ->
  c * h_conj h c = ac_noise_limited R h psd drP drN nP * ac_noise_limited R h psd drP drN nP ->
  steady_state V S (both drP drN c) x -> x nP * h_conj h (x nP) = psd.
Proof. exact (noise_limited_lem h V I O S R drP drN nP psd c x). Qed.
Print Assumptions C81_noise_limited.
(** end to end: the loop gains computed from what the solver returns *)
Theorem C81_solver {K : fld} {N : Type} `{Countable N} (rt : runtime) (V I O : list N)
    (g : graph K (wnode N)) (purge_in purge_out : bool) sol pos pP pN u :
  runtime_ok rt -> scattering_input V g -> request_ok (K := K) V I O None -> nonsingular V (S_of g) ->
  loop_fast_unstable rt g O I None purge_in purge_out false = Ok sol ->
  unmixed (S_of g) pos -> pos pP = true -> pos pN = false -> pP ∈ I -> pN ∈ I -> pP ∈ O -> held_at V (S_of g) pP u ->
  clg (R_of sol) pP pN = 1 / (1 - arriving V (S_of g) u pP) /\ olg (R_of sol) pP pN = - arriving V (S_of g) u pP.
Proof. exact (solver_loop_lem rt V I O g purge_in purge_out sol pos pP pN u). Qed.
Print Assumptions C81_solver.
