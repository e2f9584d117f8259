(** C83: expressions as lists and tuples; C84: the ODE coupling. *)
From Coq Require Import Reals Lra Sorting.Sorted.
From stdpp Require Import base tactics list numbers gmap.
From stdpp Require Import list.
From Verif Require Import Py Fld Herm SigModel OdeModel OdeSpec OdeProofs OdeFinal OdeExamples.
Local Open Scope fld_scope.

(** C83: the product of two expressions, whatever they nest, has the product of their values *)
Theorem C83_product (K : fld) (X : Type) (x : X -> K) (a b : ltup K X) : poly_at x (lt_mult a b) = expr_at x a * expr_at x b.
Proof. exact (lt_mult_lem x a b). Qed.
Print Assumptions C83_product.
(** collecting like terms keeps the value *)
Theorem C83_collect (K : fld) (x : nat -> K) (l : list (mono K nat)) : poly_at x (lt_sort_collect l) = poly_at x l.
Proof. exact (sort_collect_val x l). Qed.
Print Assumptions C83_collect.
(** and leaves every product once, its keys in order, the products in order; no new products *)
Theorem C83_collected (K : fld) (l : list (mono K nat)) :
  StronglySorted (fun a b => tup_le a b = true /\ a <> b) (map snd (lt_sort_collect l)) /\
  Forall (StronglySorted le) (map snd (lt_sort_collect l)) /\
  (forall k, k ∈ map snd (lt_sort_collect l) -> exists t, t ∈ l /\ k ≡ₚ t.2).
Proof. exact (sort_collect_keys l). Qed.
Print Assumptions C83_collected.
Example C83_meets : let q := fun n : Z => Qcanon.Q2Qc (QArith_base.inject_Z n) : Qc_fld in
  lt_sort_collect [(q 1%Z, [2; 0]%nat); (q 2%Z, [1]%nat); (q 3%Z, [0; 2]%nat)] = [(q 4%Z, [0; 2]%nat); (q 2%Z, [1]%nat)] /\
  lt_mult (Lst [Tup (q 1%Z, [0]%nat); Lst [Tup (q 2%Z, [])]]) (Tup (q 3%Z, [1]%nat)) = [(q 3%Z, [0; 1]%nat); (q 6%Z, [1]%nat)].
Proof. intros q. split; vm_compute; reflexivity. Qed.

(** C84: when a field has changed, the element is set up anew: with those fields at its
    inputs it sends the solution of the ODE... *)
Theorem C84_step (K : fld) (P PK : Type) (Pe : EqDecision P) (Pc : Countable P) (Ke : EqDecision PK) (Kc : Countable PK)
    (c : ode_spec (K := K) (P := P) (PK := PK)) (ink : P -> PK) (moved : K -> K -> bool) (ob : ode_obj (K := K) (PK := PK)) (sv : gmap PK K) :
  well_formed c ink ->
  (exists pk, pk ∈ od_pks c /\ moved (fields_of ink sv pk) (fields_of ink (b_prev ob) pk) = true) ->
  exists ob', generate_solution c moved ob sv = Ok ob' /\
  forall pk o, pk ∈ od_pks c -> od_out c !! pk = Some (Some o) -> sends c ink ob' (fields_of ink sv) o = flow c (fields_of ink sv) pk.
Proof. exact (step_lem c ink moved ob sv). Qed.
Print Assumptions C84_step.
(** ... and its couplings are the derivative of that solution. After any updates it is so about
    fields that are the last ones up to the tolerance, or is as it was at first when all of the last fields are 0 *)
Theorem C84_history (P PK : Type) (Pe : EqDecision P) (Pc : Countable P) (Ke : EqDecision PK) (Kc : Countable PK)
    (c : ode_spec (K := C_fld) (P := P) (PK := PK)) (ink : P -> PK) (vs : list (gmap PK C_fld)) (sv : gmap PK C_fld) :
  well_formed c ink ->
  exists ob, ode_updates c c_moved (vs ++ [sv]) = Ok ob /\
  ((ob = obj_init c /\ forall pk, pk ∈ od_pks c -> fields_of ink sv pk = 0) \/
   exists Y, linearised c ink ob Y /\ forall pk, pk ∈ od_pks c -> c_moved (fields_of ink sv pk) (Y pk) = false).
Proof. exact (fun Hw => history_lem c ink Hw vs sv). Qed.
Print Assumptions C84_history.
(** about 0 the couplings need not be the derivative: they stay the identity *)
Theorem C84_zero_refuted : exists (c : ode_spec (K := C_fld) (P := nat) (PK := nat)) (ink : nat -> nat) ob,
  well_formed c ink /\ ode_updates c c_moved [∅] = Ok ob /\ ~ linearised c ink ob (fields_of ink ∅).
Proof. exact zero_refuted_lem. Qed.
Print Assumptions C84_zero_refuted.
(** a key without an entry in out_map makes the first update with light raise KeyError *)
Theorem C84_key_error (K : fld) (P PK : Type) (Pe : EqDecision P) (Pc : Countable P) (Ke : EqDecision PK) (Kc : Countable PK)
    (c : ode_spec (K := K) (P := P) (PK := PK)) (ink : P -> PK) (moved : K -> K -> bool) (ob : ode_obj (K := K) (PK := PK)) (sv : gmap PK K) (pk0 : P) :
  (forall pk, pk ∈ od_pks c -> od_in c !! pk = Some (ink pk)) ->
  (exists pk, pk ∈ od_pks c /\ moved (fields_of ink sv pk) (fields_of ink (b_prev ob) pk) = true) ->
  pk0 ∈ od_pks c -> od_out c !! pk0 = None -> generate_solution c moved ob sv = Err KeyError.
Proof. exact (key_error_lem c ink moved ob sv pk0). Qed.
Print Assumptions C84_key_error.
(** second harmonic generation: da/dz = i b a, db/dz = i a a; the ODE is set up and the fields move *)
Example C84_meets : exists (c : ode_spec (K := C_fld) (P := nat) (PK := nat)) (ink : nat -> nat) (sv : gmap nat C_fld),
  well_formed c ink /\ (length (od_pks c) = 2)%nat /\
  exists pk o, pk ∈ od_pks c /\ od_out c !! pk = Some (Some o) /\ c_moved (fields_of ink sv pk) (fields_of ink (b_prev (obj_init c)) pk) = true.
Proof. exact ode_meets_lem. Qed.
