(** What the ODE coupling should do, in terms of the keys of the fields. *)
From Coq Require Import Reals.
From stdpp Require Import base tactics list numbers gmap.
From Verif Require Import Fld Herm OdeModel.

Section spec.
  Context {K : fld} {X : Type}.
  Local Open Scope fld_scope.
  (** the value of a product, of a sum of products, of an expression at a vector [x] *)
  Fixpoint fprod (l : list K) : K := match l with [] => 1 | a :: l => a * fprod l end.
  Definition prod_at (x : X -> K) (t : mono K X) : K := t.1 * fprod (map x t.2).
  Definition poly_at (x : X -> K) (l : list (mono K X)) : K := fsum (prod_at x) l.
  Fixpoint expr_at (x : X -> K) (e : ltup K X) : K :=
    match e with Tup t => prod_at x t | Lst l => fsum (fun v => v) (map (expr_at x) l) end.
  (** dx/dz = f(x) over a length 1 in N steps: in each, every component in turn is advanced by
      1/N times its right-hand side at the vector as it then is *)
  Context `{EqDecision X}.
  Definition set_at (x : X -> K) (k : X) (v : K) : X -> K := fun j => if decide (j = k) then v else x j.
  Definition advance (h : K) (f : X -> list (mono K X)) (x : X -> K) (k : X) : X -> K :=
    set_at x k (x k + h * poly_at x (f k)).
  Definition sweep (h : K) f (order : list X) (x : X -> K) : X -> K := foldl (advance h f) x order.
  Definition integrate (N : nat) f (order : list X) (x : X -> K) : X -> K :=
    Nat.iter N (sweep (1 / ofnat' N) f order) x.
End spec.

(** the complex derivative at 0 of a curve *)
Definition cderiv (f : R -> C_fld) (l : C_fld) : Prop :=
  derivable_pt_lim (fun t => (f t).1) 0 l.1 /\ derivable_pt_lim (fun t => (f t).2) 0 l.2.
(** x + t v *)
Definition line_at {X} (x v : X -> C_fld) (t : R) : X -> C_fld := fun k => (x k + ((t, 0%R) : C_fld) * v k)%F.

Section linear.
  Context {K : fld} {P PK : Type} `{Countable P} `{Countable PK}.
  Local Open Scope fld_scope.
  (** the couplings and sources of the element in the linear system *)
  Definition edge_of (ob : ode_obj (K := K) (PK := PK)) (i o : PK) : K := default 0 (b_solution ob !! (i, o)).
  Definition inj_of (ob : ode_obj (K := K) (PK := PK)) (o : PK) : K := sol_get (b_inj ob) o.
  (** what the element sends to [o] when the fields at its inputs are Y *)
  Definition sends (c : ode_spec (K := K) (P := P) (PK := PK)) (ink : P -> PK) ob (Y : P -> K) (o : PK) : K :=
    fsum (fun k => edge_of ob (ink k) o * Y k) (od_pks c) + inj_of ob o.
  (** the solution of the ODE *)
  Definition flow (c : ode_spec (K := K) (P := P) (PK := PK)) : (P -> K) -> P -> K :=
    integrate (od_N c) (fun pk => default [] (od_dLt c !! pk)) (od_pks c).
  (** the fields of a solution vector *)
  Definition fields_of (ink : P -> PK) (sv : gmap PK K) (pk : P) : K := default 0 (sv !! ink pk).
  (** pks lists the keys of the right-hand sides; each has its own input and a place in
      out_map; outputs are not shared *)
  Definition well_formed (c : ode_spec (K := K) (P := P) (PK := PK)) (ink : P -> PK) : Prop :=
    od_pks c ≡ₚ elements (pks_grab (od_dLt c)) /\
    (forall pk, pk ∈ od_pks c -> od_in c !! pk = Some (ink pk) /\ is_Some (od_out c !! pk)) /\
    (forall p q, p ∈ od_pks c -> q ∈ od_pks c -> ink p = ink q -> p = q) /\
    (forall p q o, p ∈ od_pks c -> q ∈ od_pks c -> od_out c !! p = Some (Some o) -> od_out c !! q = Some (Some o) -> p = q).
End linear.
(** the element is linearised about the fields X: it sends the solution of the ODE when the
    fields are X, and changes of the fields as the derivative of the solution does *)
Definition linearised {P PK} `{Countable P} `{Countable PK} (c : ode_spec (K := C_fld) (P := P) (PK := PK)) (ink : P -> PK) ob (X : P -> C_fld) : Prop :=
  forall pk o, pk ∈ od_pks c -> od_out c !! pk = Some (Some o) ->
  sends c ink ob X o = flow c X pk /\
  forall V, cderiv (fun t => flow c (line_at X V t) pk) (fsum (fun k => edge_of ob (ink k) o * V k)%F (od_pks c)).
