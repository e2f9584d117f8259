(** Proofs of the theorems of FillProps.v. *)
From stdpp Require Import base tactics numbers gmap fin_sets sets relations list.
From Coq Require Import Reals Lra.
From Verif Require Import Fld Py Herm InjModel InjSpec OptModel SigModel SigSpec PortModel PortSpec PortProofs PdModel PdSpec PdProofs PdProofs2 PdProofs3 PdFinal
  FillModel FillSpec FillProofs FillProofs2 FillProofs3 FillProofs4 FillProofs5 FillExamples.
Local Open Scope fld_scope.
(** C77: everything the modulator wants, given the keys at its ports, was handed out *)
Lemma C77_modulator_wants_lem {E P A Q} `{Countable E} `{Countable P} `{Countable A} `{Countable Q} (qadd : Q -> Q -> Q) (qneg : Q -> Q) (reject : Q -> bool)
    (S : sys E P (key A Q)) e fri fro bki bko drv ba init popE popP fuel s p k :
  placed S e [fri; fro; bki; bko; drv; ba] (mod_ports qadd qneg reject fri fro bki bko drv ba) -> pops popE -> pops popP ->
  port_needs S popE popP fuel init = Ok s -> p ∈ [fri; fro; bki; bko; drv; ba] ->
  fill_wants qadd qneg reject [fri; bki] [fro; bko] (pmap2 fri fro bki bko) (Some drv) (Some ba) (at_ports (cplgs s)) p k ->
  k ∈ cplgs s p.
Proof.
  intros Hpl HE HP Hrun Hp HW. eapply (mod_closed qadd qneg k.2 reject); [exact HE|exact HP|exact Hrun|exact Hpl|exact Hp|]. left. exact HW.
Qed.
(** C77: the key sets are complete, so that the couplings of modulators can be made: no exception, no
    coupling to a missing key *)
Lemma C77_modulator_lem {E P A Q} `{Countable E} `{Countable P} `{Countable A} `{Countable Q} (qadd : Q -> Q -> Q) (qneg : Q -> Q) (q0 : Q) (Hz : Q -> R) (reject : Q -> bool)
    (S : sys E P (key A Q)) e fri fro bki bko drv ba init popE popP fuel s i0 i t c :
  frequencies qadd qneg q0 Hz ->
  placed S e [fri; fro; bki; bko; drv; ba] (mod_ports qadd qneg reject fri fro bki bko drv ba) -> pops popE -> pops popP ->
  port_needs S popE popP fuel init = Ok s -> bounded qneg q0 reject (cplgs s) [fri; fro; bki; bko; drv; ba] ->
  i0 ∈ [fri; bki] -> carrier_at q0 (cplgs s) i0 -> (i, t) ∈ [(fri, bko); (bki, fro)] ->
  let ks := lights (cplgs s i) in let ds := signals (cplgs s drv) in let bs := signals (cplgs s ba) in
  both (modes (cplgs s i)) ks /\ signal_keys qneg ds /\ signal_keys qneg bs /\
  exists r r', pm qadd qneg reject i t drv ba ks ds bs c = Ok r /\ am qadd qneg reject i t drv ba ks ds bs c = Ok r' /\
    known (cplgs s) r /\ known (cplgs s) r'.
Proof.
  intros HF Hpl HE HP Hrun HB Hi0 Hc Hw.
  edestruct (mod_keys qadd qneg q0 Hz reject HF S e fri fro bki bko init popE popP fuel s HE HP Hrun drv ba i0 i t Hpl HB Hi0 Hc) as (G1 & G2 & G3 & G4).
  { apply elem_of_cons in Hw as [[= -> ->]|Hw]; [by left|]. apply elem_of_list_singleton in Hw as [= -> ->]. by right. }
  cbv zeta. split; [done|]. split; [done|]. split; [done|].
  destruct (C75_total_lem qadd qneg reject i t drv ba (lights (cplgs s i)) _ _ c G2 G3) as ([r Er] & [r' Er'] & _).
  exists r, r'. split; [done|]. split; [done|]. split; [eapply G4; by left|eapply G4; by right].
Qed.
(** C77: and at each mode of the light that leaves, the field is as it should be *)
Lemma C77_modulator_light_lem {E P A Q} `{Countable E} `{Countable P} `{Countable A} `{Countable Q} (qadd : Q -> Q -> Q) (qneg : Q -> Q) (q0 : Q) (Hz : Q -> R) (reject : Q -> bool)
    (S : sys E P (key A Q)) e fri fro bki bko drv ba init popE popP fuel s i0 i t c x r r' o f :
  frequencies qadd qneg q0 Hz ->
  placed S e [fri; fro; bki; bko; drv; ba] (mod_ports qadd qneg reject fri fro bki bko drv ba) -> pops popE -> pops popP ->
  port_needs S popE popP fuel init = Ok s -> bounded qneg q0 reject (cplgs s) [fri; fro; bki; bko; drv; ba] ->
  i0 ∈ [fri; bki] -> carrier_at q0 (cplgs s) i0 -> (i, t) ∈ [(fri, bko); (bki, fro)] ->
  let ks := lights (cplgs s i) in let ds := signals (cplgs s drv) in let bs := signals (cplgs s ba) in
  shines x i (modes (cplgs s i)) -> opt true o f ∈ cplgs s t ->
  pm qadd qneg reject i t drv ba ks ds bs c = Ok r -> am qadd qneg reject i t drv ba ks ds bs c = Ok r' ->
  arrives r x (t, opt true o f) = lower_at x i (o, f) + ci / (1 + 1) * shifted qadd qneg q0 x i drv ds o f /\
  arrives r' x (t, opt true o f) = lower_at x i (o, f) + 1 / (1 + 1) * shifted qadd qneg q0 x i drv ds o f.
Proof.
  intros HF Hpl HE HP Hrun HB Hi0 Hc Hw ks ds bs Hx Ho Er Er'.
  edestruct (mod_keys qadd qneg q0 Hz reject HF S e fri fro bki bko init popE popP fuel s HE HP Hrun drv ba i0 i t Hpl HB Hi0 Hc) as (G1 & G2 & G3 & G4).
  { apply elem_of_cons in Hw as [[= -> ->]|Hw]; [by left|]. apply elem_of_list_singleton in Hw as [= -> ->]. by right. }
  eapply C75_pm_mode_lem; [exact HF|exact Hx|exact G1|exact G2|exact G3| |exact Er|exact Er'].
  apply (bd_keys _ _ _ _ _ HB t (opt true o f)); [|done].
  apply elem_of_cons in Hw as [[= -> ->]|Hw]; [|apply elem_of_list_singleton in Hw as [= -> ->]]; inl.
Qed.
Lemma C77_ampm_lem {E P A Q} `{Countable E} `{Countable P} `{Countable A} `{Countable Q} (qadd : Q -> Q -> Q) (qneg : Q -> Q) (q0 : Q) (Hz : Q -> R) (reject : Q -> bool)
    (S : sys E P (key A Q)) e fri fro bki bko dA dP init popE popP fuel s i0 o0 i t c :
  frequencies qadd qneg q0 Hz ->
  placed S e [fri; fro; bki; bko; dA; dP] (ampm_ports qadd qneg reject fri fro bki bko dA dP) -> pops popE -> pops popP ->
  port_needs S popE popP fuel init = Ok s -> bounded qneg q0 reject (cplgs s) [fri; fro; bki; bko; dA; dP] ->
  i0 ∈ [fri; bki] -> opt true o0 q0 ∈ cplgs s i0 -> (i, t) ∈ [(fri, bko); (bki, fro)] ->
  let ks := lights (cplgs s i) in let das := signals (cplgs s dA) in let dps := signals (cplgs s dP) in
  signal_keys qneg das /\ signal_keys qneg dps /\
  exists r, ampm qadd qneg reject i t dA dP ks das dps c = Ok r /\ known (cplgs s) r.
Proof.
  intros HF Hpl HE HP Hrun HB Hi0 Hc Hw.
  edestruct (ampm_keys qadd qneg q0 Hz reject HF S e fri fro bki bko init popE popP fuel s HE HP Hrun dA dP i0 i t o0 Hpl HB Hi0 Hc) as (G1 & G2 & G3).
  { apply elem_of_cons in Hw as [[= -> ->]|Hw]; [by left|]. apply elem_of_list_singleton in Hw as [= -> ->]. by right. }
  cbv zeta. split; [done|]. split; [done|].
  destruct (C75_total_lem qadd qneg reject i t dA dP (lights (cplgs s i)) _ _ c G1 G2) as (_ & _ & [r Er]).
  exists r. split; [done|]. by eapply G3.
Qed.
(** C77: photodiodes *)
Lemma C77_photodiode_lem {E P A Q} `{Countable E} `{Countable P} `{Countable A} `{Countable Q} (qadd : Q -> Q -> Q) (qneg : Q -> Q) (q0 : Q) (Hz : Q -> R) (reject : Q -> bool)
    (S : sys E P (key A Q)) e fr ba wpd init popE popP fuel s :
  frequencies qadd qneg q0 Hz ->
  placed S e [fr; ba; wpd] (pd_ports qadd qneg reject fr ba wpd) -> pops popE -> pops popP ->
  port_needs S popE popP fuel init = Ok s -> bounded qneg q0 reject (cplgs s) [fr; ba; wpd] ->
  cplgs s ba = ∅ -> carrier_at q0 (cplgs s) fr ->
  let ks := lights (cplgs s fr) in let ws := signals (cplgs s wpd) in
  both (modes (cplgs s fr)) ks /\ signal_keys qneg ws /\
  (forall o f g, (o, f) ∈ modes (cplgs s fr) -> (o, g) ∈ modes (cplgs s fr) -> reject (qadd g (qneg f)) = false -> qadd g (qneg f) ∈ ws) /\
  exists r, pd qadd qneg reject fr wpd ba ks ws (signals (cplgs s ba)) = Ok r /\ known (cplgs s) r.
Proof.
  intros HF Hpl HE HP Hrun HB Hba Hc.
  destruct (pd_keys qadd qneg q0 Hz reject fr ba wpd HF S e init popE popP fuel s HE HP Hrun Hpl Hba HB Hc) as (G1 & G2 & G3 & G4 & G5).
  cbv zeta. split; [done|]. split; [done|]. split; [done|].
  destruct (C74_total_lem qadd qneg q0 Hz reject fr wpd ba (lights (cplgs s fr)) (signals (cplgs s wpd)) (signals (cplgs s ba)) HF) as [[_ G] _].
  { destruct Hc as (o & Hl & _). apply elem_lights in Hl. intros E0. rewrite E0 in Hl. by apply elem_of_nil in Hl. }
  destruct G as [r Er]; [apply G2|]. exists r. split; [done|]. by apply G5.
Qed.
(** C77: the photodiode reads each beat note, and all of the power when no beat note of lit modes is left out *)
Lemma C77_photodiode_power_lem {E P A Q} `{Countable E} `{Countable P} `{Countable A} `{Countable Q} (qadd : Q -> Q -> Q) (qneg : Q -> Q) (q0 : Q) (Hz : Q -> R) (reject : Q -> bool)
    (S : sys E P (key A Q)) e fr ba wpd init popE popP fuel s x os r t :
  frequencies qadd qneg q0 Hz ->
  placed S e [fr; ba; wpd] (pd_ports qadd qneg reject fr ba wpd) -> pops popE -> pops popP ->
  port_needs S popE popP fuel init = Ok s -> bounded qneg q0 reject (cplgs s) [fr; ba; wpd] ->
  cplgs s ba = ∅ -> carrier_at q0 (cplgs s) fr ->
  let ms := modes (cplgs s fr) in let ws := signals (cplgs s wpd) in
  shines x fr ms -> carriers os ms -> pd qadd qneg reject fr wpd ba (lights (cplgs s fr)) ws (signals (cplgs s ba)) = Ok r ->
  (forall F, F ∈ ws -> arrives r x (wpd, cls F) = (if decide (F = q0) then 1 else 1 + 1) * beat_note qadd ms (lower_at x fr) F) /\
  ((forall m m', m ∈ ms -> m' ∈ ms -> m.1 = m'.1 -> dark x fr m \/ dark x fr m' \/ reject (qadd m'.2 (qneg m.2)) = false) ->
   wave q0 Hz ws (fun F => arrives r x (wpd, cls F)) t = intensity Hz os ms (lower_at x fr) t).
Proof.
  intros HF Hpl HE HP Hrun HB Hba Hc ms ws Hx Hos Er.
  destruct (pd_keys qadd qneg q0 Hz reject fr ba wpd HF S e init popE popP fuel s HE HP Hrun Hpl Hba HB Hc) as (G1 & G2 & G3 & G4 & G5).
  assert (forall m, m ∈ ms -> reject m.2 = false) as Hrej.
  { intros [o f] Hm%elem_modes. apply (bd_keys _ _ _ _ _ HB fr (opt true o f)); [inl|done]. }
  split.
  - intros F HFw. eapply C74_spectrum_lem; [exact HF|exact Hx|exact G1|exact Hrej|exact G2|exact HFw|exact Er].
  - intros Hb. eapply C74_power_lem; [exact HF|exact Hx|exact Hos|exact G1|exact Hrej|exact G2| |exact Er].
    intros [o f] [o' g] Hm Hm' E1. destruct (Hb _ _ Hm Hm' E1) as [?|[?|?]]; [by left|right; by left|right; right].
    cbn [fst snd] in *. subst o'. by eapply G4.
Qed.
Lemma C77_magic_lem {E P A Q} `{Countable E} `{Countable P} `{Countable A} `{Countable Q} (qadd : Q -> Q -> Q) (qneg : Q -> Q) (q0 : Q) (Hz : Q -> R) (reject : Q -> bool)
    (S : sys E P (key A Q)) e fri fro bki bko wpd init popE popP fuel s :
  frequencies qadd qneg q0 Hz ->
  placed S e [fri; fro; bki; bko; wpd] (magic_pd_ports qadd qneg reject fri fro bki bko wpd) -> pops popE -> pops popP ->
  port_needs S popE popP fuel init = Ok s -> bounded qneg q0 reject (cplgs s) [fri; fro; bki; bko; wpd] ->
  carrier_at q0 (cplgs s) fri ->
  let ks := lights (cplgs s fri) in let ws := signals (cplgs s wpd) in
  both (modes (cplgs s fri)) ks /\ signal_keys qneg ws /\
  (forall o f g, (o, f) ∈ modes (cplgs s fri) -> (o, g) ∈ modes (cplgs s fri) -> reject (qadd g (qneg f)) = false -> qadd g (qneg f) ∈ ws) /\
  exists r, magic_pd qadd qneg reject fri fro bki bko wpd ks (lights (cplgs s bki)) ws = Ok r /\ known (cplgs s) r.
Proof.
  intros HF Hpl HE HP Hrun HB Hc.
  destruct (magic_keys qadd qneg q0 Hz reject HF S e fri fro bki bko init popE popP fuel s HE HP Hrun wpd Hpl HB Hc) as (G1 & G2 & G3 & G4 & G5).
  cbv zeta. split; [done|]. split; [done|]. split; [done|].
  edestruct (magic_total qadd qneg reject fri fro bki bko wpd (lights (cplgs s fri)) (lights (cplgs s bki)) (signals (cplgs s wpd))) as [r Er]; [apply G2|].
  exists r. split; [done|]. by apply G5.
Qed.
(** C77 is false of a photodiode whose back-action port is driven: its setup fails *)
Lemma C77_driven_refuted_lem {P A Q} `{Countable P} `{Countable A} `{Countable Q} (qadd : Q -> Q -> Q) (qneg : Q -> Q) (reject : Q -> bool) (fr ba wpd : P) (u c : P -> gset (key A Q)) : fr <> ba ->
  (pd_ports qadd qneg reject fr ba wpd u c = Err UnboundLocalError <->
   exists l o f F, (opt l o f ∈ u fr \/ opt l o f ∈ c fr) /\ (cls F ∈ u ba \/ cls F ∈ c ba) /\ (opt l o f ∈ u fr \/ cls F ∈ u ba) /\
     reject (moved qadd qneg l f F) = false) /\
  (pd_ports qadd qneg reject fr ba wpd u c <> Err UnboundLocalError -> exists r, pd_ports qadd qneg reject fr ba wpd u c = Ok r).
Proof. apply pd_driven. Qed.
(** C78: with light of a single polarization and carrier, modulators do not make the key sets depend on the order of events *)
Lemma C78_order_lem {E P A Q} `{Countable E} `{Countable P} `{Countable A} `{Countable Q} (qadd : Q -> Q -> Q) (qneg : Q -> Q) (reject : Q -> bool)
    (S : sys E P (key A Q)) (D : demand) init1 init2 popE1 popE2 popP1 popP2 f1 f2 s1 s2 e p :
  (forall o o' : A, o = o') -> sys_ok S -> demand_ok S D ->
  (forall e, exhaustive S D e \/ (incremental S D e /\ no_virtual_request S D e) \/
     exists fri fro bki bko drv ba, placed S e [fri; fro; bki; bko; drv; ba] (mod_ports qadd qneg reject fri fro bki bko drv ba) /\
       forall X p k, D e X p k <-> mod_asks qadd qneg reject fri fro bki bko drv ba X p k) ->
  pops popE1 -> pops popE2 -> pops popP1 -> pops popP2 -> (forall pk, pk ∈ init1 <-> pk ∈ init2) ->
  port_needs S popE1 popP1 f1 init1 = Ok s1 -> port_needs S popE2 popP2 f2 init2 = Ok s2 ->
  sees S e p -> active S e -> cplgs s1 p = cplgs s2 p.
Proof. intros H3 H4 H5 H6 H7 H8 H9 H10 H11 H12 H13. by apply (mod_order qadd qneg reject S D init1 init2 popE1 popE2 popP1 popP2 f1 f2). Qed.
(** C78: the keys that drive a modulator depend on the order in which set.pop hands out the elements, when there is light
    of two polarizations or carriers *)
Lemma C78_order_refuted_lem : exists (S : sys N N (key bool Z)) init popE popE' popP fuel s s',
  placed S 0%N [0; 1; 2; 3; 4; 5]%N (mod_ports Z.add Z.opp (fun F => bool_decide (1 < Z.abs F)%Z) 0%N 1%N 2%N 3%N 4%N 5%N) /\
  pops popE /\ pops popE' /\ pops popP /\
  port_needs S popE popP fuel init = Ok s /\ port_needs S popE' popP fuel init = Ok s' /\
  cls 1%Z ∈ cplgs s 4%N /\ cls 1%Z ∉ cplgs s' 4%N.
Proof. exact order_run. Qed.
(** a carrier with a modulator driven at 1, and all orders up to 2 *)
Lemma C77_example_lem : exists (S : sys N N (key unit Z)) init popE popP fuel s,
  frequencies Z.add Z.opp 0%Z IZR /\
  placed S 0%N [0; 1; 2; 3; 4; 5]%N (mod_ports Z.add Z.opp (fun F => bool_decide (2 < Z.abs F)%Z) 0%N 1%N 2%N 3%N 4%N 5%N) /\
  pops popE /\ pops popP /\ port_needs S popE popP fuel init = Ok s /\
  bounded Z.opp 0%Z (fun F => bool_decide (2 < Z.abs F)%Z) (cplgs s) [0; 1; 2; 3; 4; 5]%N /\
  carrier_at 0%Z (cplgs s) 0%N /\ opt true () 1%Z ∈ cplgs s 3%N /\ cls (-1)%Z ∈ cplgs s 4%N.
Proof. exact mod_run. Qed.
Lemma C77_example_pd_lem : exists (S : sys N N (key unit Z)) init popE popP fuel s,
  placed S 0%N [0; 1; 2]%N (pd_ports Z.add Z.opp (fun F => bool_decide (2 < Z.abs F)%Z) 0%N 1%N 2%N) /\
  pops popE /\ pops popP /\ port_needs S popE popP fuel init = Ok s /\
  bounded Z.opp 0%Z (fun F => bool_decide (2 < Z.abs F)%Z) (cplgs s) [0; 1; 2]%N /\ cplgs s 1%N = ∅ /\
  carrier_at 0%Z (cplgs s) 0%N /\ cls (-1)%Z ∈ cplgs s 2%N.
Proof. exact pd_run. Qed.
Lemma C78_example_lem (rej : Z -> bool) :
  demand_ok (ring_sys unit rej) (ring_demand rej) /\
  (forall e, exhaustive (ring_sys unit rej) (ring_demand rej) e \/ (incremental (ring_sys unit rej) (ring_demand rej) e /\ no_virtual_request (ring_sys unit rej) (ring_demand rej) e) \/
     exists fri fro bki bko drv ba, placed (ring_sys unit rej) e [fri; fro; bki; bko; drv; ba] (mod_ports Z.add Z.opp rej fri fro bki bko drv ba) /\
       forall X p k, ring_demand rej e X p k <-> mod_asks Z.add Z.opp rej fri fro bki bko drv ba X p k).
Proof. apply ring_order_ok. Qed.
