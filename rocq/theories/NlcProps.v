(** C85: the nonlinear crystal. *)
From Coq Require Import Reals Lra.
From stdpp Require Import base tactics list numbers gmap.
From stdpp Require Import list.
From Verif Require Import Py Fld Herm SigModel OdeModel OdeSpec NlcModel NlcSpec NlcProofs3 NlcProofs4.
Local Open Scope fld_scope.

(** C85: once the keys at the crystal's two sides are settled, the equations are made without
    raising, each field grows at the rate of the three-wave mixing, the ODE coupling is well
    formed, and it has the keys of the modes that take part in a process *)
Theorem C85_setup (B Q F : Type) (Be : EqDecision B) (Bc : Countable B) (Qe : EqDecision Q) (Qc : Countable Q)
    (qadd qsub : Q -> Q -> Q) (F_items : Q -> list (F * Z)) (n : Q -> Z) (g : R) (S : list (B * Q)) (ks outs : list nkey) :
  both S ks -> both S outs -> NoDup S -> (forall s, s ∈ S -> base_multiple F_items s.2 = Ok (n s.2)) ->
  (forall a b, qadd a b = qadd b a) -> (forall a b c, qsub a b = c <-> a = qadd c b) ->
  exists ts, crystal_terms qadd qsub F_items g ks outs = Ok ts /\
  (forall x l s, s ∈ S -> poly_at x (default [] (terms_dict ts !! (l, s))) = field_rate qadd n g S l s x) /\
  (forall N pks, pks ≡ₚ elements (pks_grab (terms_dict ts)) ->
    well_formed (crystal_ode N pks ts) (pair false) /\ forall l s, (l, s) ∈ pks <-> takes_part qadd S s).
Proof. exact (setup_lem qadd qsub F_items n g S ks outs). Qed.
Print Assumptions C85_setup.

(** how fast the energy in the fields grows *)
Theorem C85_energy (B Q F : Type) (Be : EqDecision B) (Bc : Countable B) (Qe : EqDecision Q) (Qc : Countable Q)
    (qadd qsub : Q -> Q -> Q) (F_items : Q -> list (F * Z)) (n : Q -> Z) (g : R) (S : list (B * Q)) (ks outs : list nkey) :
  both S ks -> both S outs -> NoDup S -> (forall s, s ∈ S -> base_multiple F_items s.2 = Ok (n s.2)) ->
  (forall a b, qadd a b = qadd b a) -> (forall a b c, qsub a b = c <-> a = qadd c b) ->
  (forall s1 s2 s3, s1 ∈ S -> s2 ∈ S -> s3 ∈ S -> sums_to qadd s1 s2 s3 -> n s3.2 = (n s1.2 + n s2.2)%Z) ->
  forall ts x, crystal_terms qadd qsub F_items g ks outs = Ok ts -> conj_fields S x ->
  power_rate S (fun k => default [] (terms_dict ts !! k)) x =
  (ci * cre g * mixing qadd n different S x + cconj (ci * cre g * mixing qadd n different S x)) / (1 + 1).
Proof. exact (energy_lem qadd qsub F_items n g S ks outs). Qed.
Print Assumptions C85_energy.

(** energy is kept exactly when no two different modes have a sum frequency among the modes *)
Theorem C85_balanced (B Q F : Type) (Be : EqDecision B) (Bc : Countable B) (Qe : EqDecision Q) (Qc : Countable Q)
    (qadd qsub : Q -> Q -> Q) (F_items : Q -> list (F * Z)) (n : Q -> Z) (g : R) (S : list (B * Q)) (ks outs : list nkey) :
  both S ks -> both S outs -> NoDup S -> (forall s, s ∈ S -> base_multiple F_items s.2 = Ok (n s.2)) ->
  (forall a b, qadd a b = qadd b a) -> (forall a b c, qsub a b = c <-> a = qadd c b) ->
  (forall s1 s2 s3, s1 ∈ S -> s2 ∈ S -> s3 ∈ S -> sums_to qadd s1 s2 s3 -> n s3.2 = (n s1.2 + n s2.2)%Z) ->
  g <> 0%R -> (forall s, s ∈ S -> (0 < n s.2)%Z) ->
  forall ts, crystal_terms qadd qsub F_items g ks outs = Ok ts ->
  (forall x, conj_fields S x -> power_rate S (fun k => default [] (terms_dict ts !! k)) x = 0) <->
  (forall s1 s2 s3, s1 ∈ S -> s2 ∈ S -> s3 ∈ S -> sums_to qadd s1 s2 s3 -> s1 = s2).
Proof. exact (iff_lem qadd qsub F_items n g S ks outs). Qed.
Print Assumptions C85_balanced.
(** with frequencies 1, 2 and 3 it is not *)
Theorem C85_energy_refuted : exists ts (x : @nkey unit Z -> C_fld),
  crystal_terms Z.add Z.sub ex_items 1 (ex_keys ex_three) (ex_keys ex_three) = Ok ts /\ conj_fields ex_three x /\
  power_rate ex_three (fun k => default [] (terms_dict ts !! k)) x <> 0.
Proof. exact energy_refuted_lem. Qed.
Print Assumptions C85_energy_refuted.

(** the equations of the raising fields are the conjugates of those of the lowering ones... *)
Theorem C85_conjugate (B Q : Type) (Be : EqDecision B) (Bc : Countable B) (Qe : EqDecision Q) (Qc : Countable Q)
    (qadd : Q -> Q -> Q) (n : Q -> Z) (g : R) (S : list (B * Q)) (x : nkey -> C_fld) (s : B * Q) :
  conj_fields S x -> field_rate qadd n g S false s x = cconj (field_rate qadd n g S true s x).
Proof. exact (conjugate_lem qadd n g S x s). Qed.
Print Assumptions C85_conjugate.
(** ... but the fields that come out need not be: the components are advanced in turn, and the
    raising fields (later in the order of pks) with the lowering fields already advanced *)
Theorem C85_flow_refuted : exists ts, crystal_terms Z.add Z.sub ex_items 1 (ex_keys ex_two) (ex_keys ex_two) = Ok ts /\
  ex_order ≡ₚ elements (pks_grab (terms_dict ts)) /\
  let y := flow (crystal_ode 1 ex_order ts) (fun _ => 1) in ~ conj_fields ex_two y.
Proof. exact flow_refuted_lem. Qed.
Print Assumptions C85_flow_refuted.

(** a mode in no process is blocked: after any updates nothing is sent to it, and its light goes nowhere *)
Theorem C85_blocked (B Q F : Type) (Be : EqDecision B) (Bc : Countable B) (Qe : EqDecision Q) (Qc : Countable Q)
    (qadd qsub : Q -> Q -> Q) (F_items : Q -> list (F * Z)) (n : Q -> Z) (g : R) (S : list (B * Q)) (ks outs : list nkey) :
  both S ks -> both S outs -> NoDup S -> (forall s, s ∈ S -> base_multiple F_items s.2 = Ok (n s.2)) ->
  (forall a b, qadd a b = qadd b a) -> (forall a b c, qsub a b = c <-> a = qadd c b) ->
  forall N pks ts moved vs ob l s, crystal_terms qadd qsub F_items g ks outs = Ok ts ->
  ode_updates (crystal_ode N pks ts) moved vs = Ok ob -> ~ takes_part qadd S s ->
  inj_of ob (true, (l, s)) = 0 /\ forall i, edge_of ob i (true, (l, s)) = 0 /\ edge_of ob (false, (l, s)) i = 0.
Proof. exact (blocked_lem qadd qsub F_items n g S ks outs). Qed.
Print Assumptions C85_blocked.
(** a product whose wavelength is not a multiple of one base wavelength raises RuntimeError *)
Theorem C85_composite (B Q F : Type) (Be : EqDecision B) (Bc : Countable B) (Qe : EqDecision Q) (Qc : Countable Q)
    (qadd qsub : Q -> Q -> Q) (F_items : Q -> list (F * Z)) (g : R) (ks outs : list (@nkey B Q)) (k1 k2 : nkey) :
  k1 ∈ ks -> k2 ∈ ks -> k1.2.1 = k2.2.1 -> key_to qadd qsub k1 k2 ∈ outs ->
  (forall k, k ∈ outs -> F_items k.2.2 <> []) -> (1 < length (F_items (key_to qadd qsub k1 k2).2.2))%nat ->
  crystal_terms qadd qsub F_items g ks outs = Err RuntimeError.
Proof. exact (raises_lem qadd qsub F_items g ks outs k1 k2). Qed.
Print Assumptions C85_composite.

(** the hypotheses hold for light at 1, 2 and 3 times one frequency; light at 7 times it takes no part *)
Example C85_meets : both ex_three (ex_keys ex_three) /\ NoDup ex_three /\
  (forall s, s ∈ ex_three -> base_multiple ex_items s.2 = Ok s.2) /\ (forall a b c : Z, (a - b)%Z = c <-> a = (c + b)%Z) /\
  takes_part Z.add ex_three ((), 3%Z) /\ ~ takes_part Z.add (((), 7%Z) :: ex_three) ((), 7%Z).
Proof. exact nlc_meets_lem. Qed.
(** two lasers of unrelated wavelengths, and their sum *)
Example C85_composite_meets : let F_items := fun q : Z * Z => (if decide (q.1 = 0%Z) then [] else [(true, q.1)]) ++ (if decide (q.2 = 0%Z) then [] else [(false, q.2)]) in
  let qadd := fun a b : Z * Z => ((a.1 + b.1)%Z, (a.2 + b.2)%Z) in let qsub := fun a b : Z * Z => ((a.1 - b.1)%Z, (a.2 - b.2)%Z) in
  let ks := [(true, ((), (1%Z, 0%Z))); (true, ((), (0%Z, 1%Z)))] in
  crystal_terms qadd qsub F_items 1 ks ks = Ok [] /\
  crystal_terms qadd qsub F_items 1 ks ((true, ((), (1%Z, 1%Z))) :: ks) = Err RuntimeError.
Proof. split; reflexivity. Qed.
