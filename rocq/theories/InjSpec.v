(** What the coupling injections mean. *)
From stdpp Require Import base tactics list numbers gmap fin_sets.
From Verif Require Import Fld Py InjModel.
Local Open Scope fld_scope.

Section spec.
  Context {K : fld} {P Q : Type} `{Countable P} `{Countable Q}.
  Notation N := (P * Q)%type.
  Notation sol := (gmap N K).
  Context (big : K).

  (** where an injection adds to the field *)
  Definition target (j : inj K P Q) : N :=
    match j with
    | ConstantEdge _ t _ | MultiplicativeEdge _ t _ _ => t
    | ConstantSource t _ | MultiplicativeSource t _ _ => t
    | Triplet _ _ t _ | TripletNorm _ _ t _ _ _ | TripletNorms _ _ t _ _ _ => t
    end.
  (** what it adds when the fields are [x], its norms being read off [w] *)
  Definition amount (x : N -> K) (w : sol) (j : inj K P Q) : K :=
    match j with
    | ConstantEdge a _ c => c * x a
    | ConstantSource _ c => c
    | MultiplicativeEdge a _ c l => c * foldr (fun n v => x n * v) 1 l * x a
    | MultiplicativeSource _ c l => c * foldr (fun n v => x n * v) 1 l
    | Triplet p1 p2 _ c => c * x p1 * x p2
    | TripletNorm p1 p2 _ pn c f => c * x p1 * x p2 / f (sget w pn big)
    | TripletNorms p1 p2 _ pns c f => c * x p1 * x p2 / f ((fun n => sget w n big) <$> pns)
    end.
  (** the part of the change of [amount] that is of second order in the change of fields *)
  Definition second_order (d : N -> K) (w : sol) (j : inj K P Q) : K :=
    match j with
    | Triplet p1 p2 _ c => c * d p1 * d p2
    | TripletNorm p1 p2 _ pn c f => c * d p1 * d p2 / f (sget w pn big)
    | TripletNorms p1 p2 _ pns c f => c * d p1 * d p2 / f ((fun n => sget w n big) <$> pns)
    | _ => 0
    end.
  (** everything that arrives at [t] *)
  Definition total (js : list (inj K P Q)) (bonds : gset (N * N)) (nodes : list N) (x : N -> K) (w : sol) (t : N) : K :=
    fsum (fun j => if decide (target j = t) then amount x w j else 0) js +
    fsum (fun a => if decide ((a, t) ∈ bonds) then x a else 0) nodes.
  Definition total_second (js : list (inj K P Q)) (d : N -> K) (w : sol) (t : N) : K :=
    fsum (fun j => if decide (target j = t) then second_order d w j else 0) js.

  (** applying a coupling matrix *)
  Definition entry (M : gmap (N * N) K) (a b : N) : K := default 0 (M !! (a, b)).
  Definition apply (M : gmap (N * N) K) (nodes : list N) (x : N -> K) (t : N) : K :=
    fsum (fun a => entry M a t * x a) nodes.

  (** the triplets that multiply two different fields *)
  Definition bilinear (j : inj K P Q) : Prop :=
    match j with
    | ConstantEdge _ _ _ | ConstantSource _ _ => True
    | MultiplicativeEdge _ _ _ _ => False
    | MultiplicativeSource _ _ l => l = []
    | Triplet p1 p2 _ _ | TripletNorm p1 p2 _ _ _ _ | TripletNorms p1 p2 _ _ _ _ => p1 <> p2
    end.

  (** The norm takes the same value with and without the 1e-30 added to it. *)
  Definition same_norm (eps : K) (x : sol) (j : inj K P Q) : Prop :=
    match j with
    | TripletNorm p1 p2 _ pn c f => p1 = p2 \/ f (sget x pn big + eps) = f (sget x pn big)
    | _ => True
    end.

  (** The links and inputs handed to the generators leave out only terms one of whose
      factors vanishes; the bonds are all there; [nodes] contains the linked nodes. *)
  Record covers (eps : K) (js : list (inj K P Q)) (bonds : gset (N * N)) (links : list (N * N)) (inputs nodes : list N)
      (x : sol) : Prop := {
    cv_links : NoDup links;
    cv_inputs : NoDup inputs;
    cv_nodes : NoDup nodes;
    cv_bonds : forall l, l ∈ bonds -> l ∈ links;
    cv_edges : forall j l f NZ, j ∈ js -> (l, (f, NZ)) ∈ inj_edges big j ->
      (forall n, n ∈ NZ -> sget x n 0 <> 0) -> l ∈ links;
    cv_sources : forall j s f NZ, j ∈ js -> (s, (f, NZ)) ∈ inj_sources big eps j ->
      (forall n, n ∈ NZ -> sget x n 0 <> 0) -> s ∈ inputs;
    cv_from : forall a b, (a, b) ∈ links -> a ∈ nodes;
  }.
End spec.
