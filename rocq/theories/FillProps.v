(** C77, C78: the keys of photodiodes and modulators in a run of the port algorithm. *)
From stdpp Require Import base tactics numbers gmap fin_sets sets relations list.
From Coq Require Import Reals Lra.
From Verif Require Import Fld Py Herm InjModel InjSpec OptModel SigModel SigSpec PortModel PortSpec PortProofs PdModel PdSpec PdProofs PdProofs2 PdProofs3 PdFinal
  FillModel FillSpec FillProofs FillProofs2 FillProofs3 FillProofs4 FillProofs5 FillExamples FillFinal.
Local Open Scope fld_scope.
(** C77: everything the modulator wants, given the keys at its ports, was handed out *)
Theorem C77_modulator_wants {E P A Q} `{Countable E} `{Countable P} `{Countable A} `{Countable Q} (qadd : Q -> Q -> Q) (qneg : Q -> Q) (reject : Q -> bool)
    (S : sys E P (key A Q)) e fri fro bki bko drv ba init popE popP fuel s p k :
  placed S e [fri; fro; bki; bko; drv; ba] (mod_ports qadd qneg reject fri fro bki bko drv ba) -> pops popE -> pops popP ->
  port_needs S popE popP fuel init = Ok s -> p ∈ [fri; fro; bki; bko; drv; ba] ->
  fill_wants qadd qneg reject [fri; bki] [fro; bko] (pmap2 fri fro bki bko) (Some drv) (Some ba) (at_ports (cplgs s)) p k ->
  k ∈ cplgs s p.
Proof. eapply C77_modulator_wants_lem. Qed.
(** C77: the key sets are complete, so that the couplings of modulators can be made: no exception, no
    coupling to a missing key *)
Theorem C77_modulator {E P A Q} `{Countable E} `{Countable P} `{Countable A} `{Countable Q} (qadd : Q -> Q -> Q) (qneg : Q -> Q) (q0 : Q) (Hz : Q -> R) (reject : Q -> bool)
    (S : sys E P (key A Q)) e fri fro bki bko drv ba init popE popP fuel s i0 i t c :
  frequencies qadd qneg q0 Hz ->
  placed S e [fri; fro; bki; bko; drv; ba] (mod_ports qadd qneg reject fri fro bki bko drv ba) -> pops popE -> pops popP ->
  port_needs S popE popP fuel init = Ok s -> bounded qneg q0 reject (cplgs s) [fri; fro; bki; bko; drv; ba] ->
  i0 ∈ [fri; bki] -> carrier_at q0 (cplgs s) i0 -> (i, t) ∈ [(fri, bko); (bki, fro)] ->
  let ks := lights (cplgs s i) in let ds := signals (cplgs s drv) in let bs := signals (cplgs s ba) in
  both (modes (cplgs s i)) ks /\ signal_keys qneg ds /\ signal_keys qneg bs /\
  exists r r', pm qadd qneg reject i t drv ba ks ds bs c = Ok r /\ am qadd qneg reject i t drv ba ks ds bs c = Ok r' /\
    known (cplgs s) r /\ known (cplgs s) r'.
Proof. eapply C77_modulator_lem. Qed.
(** C77: and at each mode of the light that leaves, the field is as it should be *)
Theorem C77_modulator_light {E P A Q} `{Countable E} `{Countable P} `{Countable A} `{Countable Q} (qadd : Q -> Q -> Q) (qneg : Q -> Q) (q0 : Q) (Hz : Q -> R) (reject : Q -> bool)
    (S : sys E P (key A Q)) e fri fro bki bko drv ba init popE popP fuel s i0 i t c x r r' o f :
  frequencies qadd qneg q0 Hz ->
  placed S e [fri; fro; bki; bko; drv; ba] (mod_ports qadd qneg reject fri fro bki bko drv ba) -> pops popE -> pops popP ->
  port_needs S popE popP fuel init = Ok s -> bounded qneg q0 reject (cplgs s) [fri; fro; bki; bko; drv; ba] ->
  i0 ∈ [fri; bki] -> carrier_at q0 (cplgs s) i0 -> (i, t) ∈ [(fri, bko); (bki, fro)] ->
  let ks := lights (cplgs s i) in let ds := signals (cplgs s drv) in let bs := signals (cplgs s ba) in
  shines x i (modes (cplgs s i)) -> opt true o f ∈ cplgs s t ->
  pm qadd qneg reject i t drv ba ks ds bs c = Ok r -> am qadd qneg reject i t drv ba ks ds bs c = Ok r' ->
  arrives r x (t, opt true o f) = lower_at x i (o, f) + ci / (1 + 1) * shifted qadd qneg q0 x i drv ds o f /\
  arrives r' x (t, opt true o f) = lower_at x i (o, f) + 1 / (1 + 1) * shifted qadd qneg q0 x i drv ds o f.
Proof. eapply C77_modulator_light_lem. Qed.
Theorem C77_ampm {E P A Q} `{Countable E} `{Countable P} `{Countable A} `{Countable Q} (qadd : Q -> Q -> Q) (qneg : Q -> Q) (q0 : Q) (Hz : Q -> R) (reject : Q -> bool)
    (S : sys E P (key A Q)) e fri fro bki bko dA dP init popE popP fuel s i0 o0 i t c :
  frequencies qadd qneg q0 Hz ->
  placed S e [fri; fro; bki; bko; dA; dP] (ampm_ports qadd qneg reject fri fro bki bko dA dP) -> pops popE -> pops popP ->
  port_needs S popE popP fuel init = Ok s -> bounded qneg q0 reject (cplgs s) [fri; fro; bki; bko; dA; dP] ->
  i0 ∈ [fri; bki] -> opt true o0 q0 ∈ cplgs s i0 -> (i, t) ∈ [(fri, bko); (bki, fro)] ->
  let ks := lights (cplgs s i) in let das := signals (cplgs s dA) in let dps := signals (cplgs s dP) in
  signal_keys qneg das /\ signal_keys qneg dps /\
  exists r, ampm qadd qneg reject i t dA dP ks das dps c = Ok r /\ known (cplgs s) r.
Proof. eapply C77_ampm_lem. Qed.
(** C77: photodiodes *)
Theorem C77_photodiode {E P A Q} `{Countable E} `{Countable P} `{Countable A} `{Countable Q} (qadd : Q -> Q -> Q) (qneg : Q -> Q) (q0 : Q) (Hz : Q -> R) (reject : Q -> bool)
    (S : sys E P (key A Q)) e fr ba wpd init popE popP fuel s :
  frequencies qadd qneg q0 Hz ->
  placed S e [fr; ba; wpd] (pd_ports qadd qneg reject fr ba wpd) -> pops popE -> pops popP ->
  port_needs S popE popP fuel init = Ok s -> bounded qneg q0 reject (cplgs s) [fr; ba; wpd] ->
  cplgs s ba = ∅ -> carrier_at q0 (cplgs s) fr ->
  let ks := lights (cplgs s fr) in let ws := signals (cplgs s wpd) in
  both (modes (cplgs s fr)) ks /\ signal_keys qneg ws /\
  (forall o f g, (o, f) ∈ modes (cplgs s fr) -> (o, g) ∈ modes (cplgs s fr) -> reject (qadd g (qneg f)) = false -> qadd g (qneg f) ∈ ws) /\
  exists r, pd qadd qneg reject fr wpd ba ks ws (signals (cplgs s ba)) = Ok r /\ known (cplgs s) r.
Proof. eapply C77_photodiode_lem. Qed.
(** C77: the photodiode reads each beat note, and all of the power when no beat note of lit modes is left out *)
Theorem C77_photodiode_power {E P A Q} `{Countable E} `{Countable P} `{Countable A} `{Countable Q} (qadd : Q -> Q -> Q) (qneg : Q -> Q) (q0 : Q) (Hz : Q -> R) (reject : Q -> bool)
    (S : sys E P (key A Q)) e fr ba wpd init popE popP fuel s x os r t :
  frequencies qadd qneg q0 Hz ->
  placed S e [fr; ba; wpd] (pd_ports qadd qneg reject fr ba wpd) -> pops popE -> pops popP ->
  port_needs S popE popP fuel init = Ok s -> bounded qneg q0 reject (cplgs s) [fr; ba; wpd] ->
  cplgs s ba = ∅ -> carrier_at q0 (cplgs s) fr ->
  let ms := modes (cplgs s fr) in let ws := signals (cplgs s wpd) in
  shines x fr ms -> carriers os ms -> pd qadd qneg reject fr wpd ba (lights (cplgs s fr)) ws (signals (cplgs s ba)) = Ok r ->
  (forall F, F ∈ ws -> arrives r x (wpd, cls F) = (if decide (F = q0) then 1 else 1 + 1) * beat_note qadd ms (lower_at x fr) F) /\
  ((forall m m', m ∈ ms -> m' ∈ ms -> m.1 = m'.1 -> dark x fr m \/ dark x fr m' \/ reject (qadd m'.2 (qneg m.2)) = false) ->
   wave q0 Hz ws (fun F => arrives r x (wpd, cls F)) t = intensity Hz os ms (lower_at x fr) t).
Proof. eapply C77_photodiode_power_lem. Qed.
Theorem C77_magic {E P A Q} `{Countable E} `{Countable P} `{Countable A} `{Countable Q} (qadd : Q -> Q -> Q) (qneg : Q -> Q) (q0 : Q) (Hz : Q -> R) (reject : Q -> bool)
    (S : sys E P (key A Q)) e fri fro bki bko wpd init popE popP fuel s :
  frequencies qadd qneg q0 Hz ->
  placed S e [fri; fro; bki; bko; wpd] (magic_pd_ports qadd qneg reject fri fro bki bko wpd) -> pops popE -> pops popP ->
  port_needs S popE popP fuel init = Ok s -> bounded qneg q0 reject (cplgs s) [fri; fro; bki; bko; wpd] ->
  carrier_at q0 (cplgs s) fri ->
  let ks := lights (cplgs s fri) in let ws := signals (cplgs s wpd) in
  both (modes (cplgs s fri)) ks /\ signal_keys qneg ws /\
  (forall o f g, (o, f) ∈ modes (cplgs s fri) -> (o, g) ∈ modes (cplgs s fri) -> reject (qadd g (qneg f)) = false -> qadd g (qneg f) ∈ ws) /\
  exists r, magic_pd qadd qneg reject fri fro bki bko wpd ks (lights (cplgs s bki)) ws = Ok r /\ known (cplgs s) r.
Proof. eapply C77_magic_lem. Qed.
(** C77 is false of a photodiode whose back-action port is driven: its setup fails *)
Theorem C77_driven_refuted {P A Q} `{Countable P} `{Countable A} `{Countable Q} (qadd : Q -> Q -> Q) (qneg : Q -> Q) (reject : Q -> bool) (fr ba wpd : P) (u c : P -> gset (key A Q)) : fr <> ba ->
  (pd_ports qadd qneg reject fr ba wpd u c = Err UnboundLocalError <->
   exists l o f F, (opt l o f ∈ u fr \/ opt l o f ∈ c fr) /\ (cls F ∈ u ba \/ cls F ∈ c ba) /\ (opt l o f ∈ u fr \/ cls F ∈ u ba) /\
     reject (moved qadd qneg l f F) = false) /\
  (pd_ports qadd qneg reject fr ba wpd u c <> Err UnboundLocalError -> exists r, pd_ports qadd qneg reject fr ba wpd u c = Ok r).
Proof. eapply C77_driven_refuted_lem. Qed.
(** C78: with light of a single polarization and carrier, modulators do not make the key sets depend on the order of events *)
Theorem C78_order {E P A Q} `{Countable E} `{Countable P} `{Countable A} `{Countable Q} (qadd : Q -> Q -> Q) (qneg : Q -> Q) (reject : Q -> bool)
    (S : sys E P (key A Q)) (D : demand) init1 init2 popE1 popE2 popP1 popP2 f1 f2 s1 s2 e p :
  (forall o o' : A, o = o') -> sys_ok S -> demand_ok S D ->
  (forall e, exhaustive S D e \/ (incremental S D e /\ no_virtual_request S D e) \/
     exists fri fro bki bko drv ba, placed S e [fri; fro; bki; bko; drv; ba] (mod_ports qadd qneg reject fri fro bki bko drv ba) /\
       forall X p k, D e X p k <-> mod_asks qadd qneg reject fri fro bki bko drv ba X p k) ->
  pops popE1 -> pops popE2 -> pops popP1 -> pops popP2 -> (forall pk, pk ∈ init1 <-> pk ∈ init2) ->
  port_needs S popE1 popP1 f1 init1 = Ok s1 -> port_needs S popE2 popP2 f2 init2 = Ok s2 ->
  sees S e p -> active S e -> cplgs s1 p = cplgs s2 p.
Proof. eapply C78_order_lem. Qed.
(** C78: the keys that drive a modulator depend on the order in which set.pop hands out the elements, when there is light
    of two polarizations or carriers *)
Theorem C78_order_refuted : exists (S : sys N N (key bool Z)) init popE popE' popP fuel s s',
  placed S 0%N [0; 1; 2; 3; 4; 5]%N (mod_ports Z.add Z.opp (fun F => bool_decide (1 < Z.abs F)%Z) 0%N 1%N 2%N 3%N 4%N 5%N) /\
  pops popE /\ pops popE' /\ pops popP /\
  port_needs S popE popP fuel init = Ok s /\ port_needs S popE' popP fuel init = Ok s' /\
  cls 1%Z ∈ cplgs s 4%N /\ cls 1%Z ∉ cplgs s' 4%N.
Proof. exact order_run. Qed.
(** a carrier with a modulator driven at 1, and all orders up to 2 *)
Example C77_example : exists (S : sys N N (key unit Z)) init popE popP fuel s,
  frequencies Z.add Z.opp 0%Z IZR /\
  placed S 0%N [0; 1; 2; 3; 4; 5]%N (mod_ports Z.add Z.opp (fun F => bool_decide (2 < Z.abs F)%Z) 0%N 1%N 2%N 3%N 4%N 5%N) /\
  pops popE /\ pops popP /\ port_needs S popE popP fuel init = Ok s /\
  bounded Z.opp 0%Z (fun F => bool_decide (2 < Z.abs F)%Z) (cplgs s) [0; 1; 2; 3; 4; 5]%N /\
  carrier_at 0%Z (cplgs s) 0%N /\ opt true () 1%Z ∈ cplgs s 3%N /\ cls (-1)%Z ∈ cplgs s 4%N.
Proof. exact mod_run. Qed.
Example C77_example_pd : exists (S : sys N N (key unit Z)) init popE popP fuel s,
  placed S 0%N [0; 1; 2]%N (pd_ports Z.add Z.opp (fun F => bool_decide (2 < Z.abs F)%Z) 0%N 1%N 2%N) /\
  pops popE /\ pops popP /\ port_needs S popE popP fuel init = Ok s /\
  bounded Z.opp 0%Z (fun F => bool_decide (2 < Z.abs F)%Z) (cplgs s) [0; 1; 2]%N /\ cplgs s 1%N = ∅ /\
  carrier_at 0%Z (cplgs s) 0%N /\ cls (-1)%Z ∈ cplgs s 2%N.
Proof. exact pd_run. Qed.
Example C78_example (rej : Z -> bool) :
  demand_ok (ring_sys unit rej) (ring_demand rej) /\
  (forall e, exhaustive (ring_sys unit rej) (ring_demand rej) e \/ (incremental (ring_sys unit rej) (ring_demand rej) e /\ no_virtual_request (ring_sys unit rej) (ring_demand rej) e) \/
     exists fri fro bki bko drv ba, placed (ring_sys unit rej) e [fri; fro; bki; bko; drv; ba] (mod_ports Z.add Z.opp rej fri fro bki bko drv ba) /\
       forall X p k, ring_demand rej e X p k <-> mod_asks Z.add Z.opp rej fri fro bki bko drv ba X p k).
Proof. eapply C78_example_lem. Qed.

Print Assumptions C77_modulator_wants.
Print Assumptions C77_modulator.
Print Assumptions C77_modulator_light.
Print Assumptions C77_ampm.
Print Assumptions C77_photodiode.
Print Assumptions C77_photodiode_power.
Print Assumptions C77_magic.
Print Assumptions C77_driven_refuted.
Print Assumptions C78_order.
Print Assumptions C78_order_refuted.
