(** C86: the acousto-optic modulator. *)
From Coq Require Import Reals Lra.
From stdpp Require Import base tactics list numbers gmap.
From stdpp Require Import list.
From Verif Require Import Py Fld Herm SigModel OdeModel OdeSpec AomModel AomSpec AomProofs AomProofs2.
Local Open Scope fld_scope.

(** C86: whatever keys there are, the ODE coupling is well formed (so C84 holds of it) *)
Theorem C86_setup (B C : Type) (Be : EqDecision B) (Bc : Countable B) (Ce : EqDecision C) (Cc : Countable C)
    (cadd csub : C -> C -> C) (center : C -> R) (rejected : C -> bool) (split : R) (dir : bool -> R) (kappa : R)
    (ks : bool -> list (bool * (B * C))) (Ds : list C) (N : nat) (pks : list akey) :
  let ts := aom_terms cadd csub center rejected split dir kappa ks Ds in
  pks ≡ₚ elements (pks_grab (aom_dict ts)) -> well_formed (aom_ode N pks ts) (pair false).
Proof. exact (aom_wf cadd csub center rejected split dir kappa ks Ds N pks). Qed.
Print Assumptions C86_setup.

(** on closed sets of keys every field grows at the rate of the modes that the sound moves to it *)
Theorem C86_rate (B C : Type) (Be : EqDecision B) (Bc : Countable B) (Ce : EqDecision C) (Cc : Countable C)
    (cadd csub : C -> C -> C) (cneg : C -> C) (center : C -> R) (rejected : C -> bool) (split : R) (dir : bool -> R) (kappa : R)
    (ks : bool -> list (bool * (B * C))) (Ds : list C) (S : list (bool * (B * C))) :
  at_ports S ks -> closed cadd cneg center rejected split dir S Ds ->
  (forall a b, csub a b = cadd a (cneg b)) -> (forall F, center (cneg F) = (- center F)%R) ->
  let ts := aom_terms cadd csub center rejected split dir kappa ks Ds in
  (forall x l m, m ∈ S -> poly_at x (default [] (aom_dict ts !! inl (m.1, (l, m.2)))) = aom_rate cadd cneg center split dir kappa S Ds l m x) /\
  (forall N pks p l m, pks ≡ₚ elements (pks_grab (aom_dict ts)) -> inl (p, (l, m)) ∈ od_pks (aom_ode N pks ts) -> (p, m) ∈ S).
Proof.
  exact (fun Hk Hc Hs He => conj (rate_lem cadd csub cneg center rejected split dir kappa ks Ds S Hk Hc Hs He)
    (keys_in cadd csub cneg center rejected split dir kappa ks Ds S Hk Hc Hs He)).
Qed.
Print Assumptions C86_rate.

(** the energy in the light is kept, and conjugate fields stay conjugate *)
Theorem C86_energy (B C : Type) (Be : EqDecision B) (Bc : Countable B) (Ce : EqDecision C) (Cc : Countable C)
    (cadd csub : C -> C -> C) (cneg : C -> C) (center : C -> R) (rejected : C -> bool) (split : R) (dir : bool -> R) (kappa : R)
    (ks : bool -> list (bool * (B * C))) (Ds : list C) (S : list (bool * (B * C))) :
  at_ports S ks -> closed cadd cneg center rejected split dir S Ds ->
  (forall a b, csub a b = cadd a (cneg b)) -> (forall F, center (cneg F) = (- center F)%R) ->
  (forall F, cneg (cneg F) = F) -> (forall c F, cadd (cadd c F) (cneg F) = c) -> (forall p, dir (negb p) = (- dir p)%R) ->
  forall x, physical cneg S Ds x ->
  aom_power S (fun k => default [] (aom_dict (aom_terms cadd csub center rejected split dir kappa ks Ds) !! k)) x = 0.
Proof. exact (power_lem cadd csub cneg center rejected split dir kappa ks Ds S). Qed.
Print Assumptions C86_energy.
Theorem C86_conjugate (B C : Type) (Be : EqDecision B) (Bc : Countable B) (Ce : EqDecision C) (Cc : Countable C)
    (cadd : C -> C -> C) (cneg : C -> C) (center : C -> R) (rejected : C -> bool) (split : R) (dir : bool -> R) (kappa : R)
    (Ds : list C) (S : list (bool * (B * C))) :
  closed cadd cneg center rejected split dir S Ds -> (forall F, cneg (cneg F) = F) ->
  forall x, physical cneg S Ds x -> forall m,
  aom_rate cadd cneg center split dir kappa S Ds false m x = cconj (aom_rate cadd cneg center split dir kappa S Ds true m x).
Proof. exact (conj_lem cadd cneg center rejected split dir kappa Ds S). Qed.
Print Assumptions C86_conjugate.

(** light of the two keys of a process goes through at first, at both ports... *)
Theorem C86_first (B C : Type) (Be : EqDecision B) (Bc : Countable B) (Ce : EqDecision C) (Cc : Countable C)
    (cadd csub : C -> C -> C) (center : C -> R) (rejected : C -> bool) (split : R) (dir : bool -> R) (kappa : R)
    (ks : bool -> list (bool * (B * C))) (Ds : list C) (N : nat) (pks : list akey) (port l : bool) (b : B) (cf drv : C) (p : bool) (k : bool * (B * C)) :
  (l, (b, cf)) ∈ ks port -> drv ∈ Ds -> rejected (if l then cadd cf drv else csub cf drv) = false ->
  (split < (if l then 1 else -1) * center drv * dir port)%R ->
  k = (l, (b, cf)) \/ k = (l, (b, if l then cadd cf drv else csub cf drv)) ->
  edge_of (obj_init (aom_ode N pks (aom_terms cadd csub center rejected split dir kappa ks Ds))) (false, inl (p, k)) (true, inl (p, k)) = 1.
Proof. exact (passes_lem cadd csub center rejected split dir kappa ks Ds N pks port l b cf drv p k). Qed.
Print Assumptions C86_first.
(** ... but when the element has been set up anew, only that of the equations' own keys does *)
Theorem C86_dropped (B C : Type) (Be : EqDecision B) (Bc : Countable B) (Ce : EqDecision C) (Cc : Countable C)
    (cadd csub : C -> C -> C) (center : C -> R) (rejected : C -> bool) (split : R) (dir : bool -> R) (kappa : R)
    (ks : bool -> list (bool * (B * C))) (Ds : list C) (N : nat) (pks : list akey) moved vs ob (k : okey) :
  let c := aom_ode N pks (aom_terms cadd csub center rejected split dir kappa ks Ds) in
  ode_updates c moved vs = Ok ob -> inl k ∉ pks ->
  ob = obj_init c \/ (inj_of ob (true, inl k) = 0 /\ forall i, edge_of ob i (true, inl k) = 0 /\ edge_of ob (false, inl k) i = 0).
Proof. exact (dropped_lem cadd csub center rejected split dir kappa ks Ds N pks moved vs ob k). Qed.
Print Assumptions C86_dropped.
Theorem C86_passes_refuted : exists (sv : gmap (bool * @akey unit Z) C_fld) ob,
  let c := aom_ode 1 (elements (pks_grab (aom_dict ex_terms))) ex_terms in
  let k := inl (true, (true, ((), 1%Z))) in
  edge_of (obj_init c) (false, k) (true, k) = 1 /\ ode_updates c c_moved [sv] = Ok ob /\
  edge_of ob (false, k) (true, k) = 0 /\ inj_of ob (true, k) = 0.
Proof. exact passes_refuted_lem. Qed.
Print Assumptions C86_passes_refuted.

(** the hypotheses hold for sound at 80 with the split at 40 and light at orders 0 and 1, and light is moved *)
Example C86_meets : at_ports ex_modes ex_ks /\ closed Z.add Z.opp ex_center ex_rejected 40 ex_dir ex_modes ex_ds /\
  (forall F, ex_center (- F) = (- ex_center F)%R) /\ (forall p, ex_dir (negb p) = (- ex_dir p)%R) /\
  exists e, e ∈ ex_terms /\ e.1 = inl (false, (true, ((), 1%Z))).
Proof. exact aom_meets_lem. Qed.
