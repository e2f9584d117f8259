(** Specification of the port requests: which keys a port ends up with. *)
From stdpp Require Import base tactics list numbers gmap fin_sets relations.
From Verif Require Import Py PortModel.

Section spec.
  Context {E P K : Type} `{Countable E} `{Countable P} `{Countable K}.
  Implicit Types (S : sys E P K).

  (** two ports joined by a bond, in either direction *)
  Definition bonded S (p q : P) : Prop := (p, q) ∈ bonds S \/ (q, p) ∈ bonds S.
  Definition owned S (p : P) : Prop := is_Some (owner S p).
  (** an element sees a port when it owns it, really or virtually *)
  Definition sees S (e : E) (p : P) : Prop := owner S p = Some e \/ (owned S p /\ e ∈ vowners S p).
  Definition active S (e : E) : Prop := is_Some (rule S e).

  (** what the elements ask for: [derive e X p k] when element [e], finding the keys [X]
      at its ports, wants key [k] at port [p] *)
  Definition demand := E -> (P -> K -> Prop) -> P -> K -> Prop.
  Record demand_ok S (D : demand) : Prop := {
    dm_mono e (X Y : P -> K -> Prop) p k : (forall q j, X q j -> Y q j) -> D e X p k -> D e Y p k;
    dm_local e (X : P -> K -> Prop) p k : D e X p k -> D e (fun q j => sees S e q /\ X q j) p k;
    dm_strict e (X : P -> K -> Prop) p k : D e X p k -> exists q j, X q j;
  }.
  Definition at_ports (c : P -> gset K) : P -> K -> Prop := fun p k => k ∈ c p.

  (** an element's method, when run with at least one key at its ports, asks for nothing
      outside its demand, and for everything that its new keys bring about *)
  Definition incremental S (D : demand) (e : E) : Prop :=
    forall r, rule S e = Some r -> forall t (u c : P -> gset K),
      (exists q j, sees S e q /\ (j ∈ u q \/ j ∈ c q)) ->
      (forall p k, (p, k) ∈ r t u c -> D e (fun q j => j ∈ u q \/ j ∈ c q) p k) /\
      (forall p k, D e (fun q j => j ∈ u q \/ j ∈ c q) p k ->
         (p, k) ∈ r t u c \/ D e (fun q j => j ∈ c q /\ j ∉ u q) p k).
  (** ... or for all of its demand each time *)
  Definition exhaustive S (D : demand) (e : E) : Prop :=
    forall r, rule S e = Some r -> forall t (u c : P -> gset K),
      (exists q j, sees S e q /\ (j ∈ u q \/ j ∈ c q)) -> forall p k,
      (p, k) ∈ r t u c <-> D e (fun q j => j ∈ u q \/ j ∈ c q) p k.
  (** an element asking only for what is new must not ask for a port it owns virtually *)
  Definition no_virtual_request S (D : demand) (e : E) : Prop :=
    forall X p k q, D e X p k -> rtc (bonded S) p q -> e ∉ vowners S q.

  (** requests are handed to every port in reach of a bond; closed sets of keys *)
  Definition spread S (Y : P -> K -> Prop) (p : P) (k : K) : Prop :=
    forall q, rtc (bonded S) p q -> owned S q -> Y q k.
  Definition closed S (D : demand) (init : list (P * K)) (Y : P -> K -> Prop) : Prop :=
    (forall p k, (p, k) ∈ init -> spread S Y p k) /\
    (forall e p k, active S e -> D e Y p k -> spread S Y p k).
  (** the least closed set *)
  Definition needed S D init (p : P) (k : K) : Prop :=
    owned S p /\ forall Y, closed S D init Y -> Y p k.

  (** the system's tables agree with each other; nobody owns a port both ways *)
  Record sys_ok S : Prop := {
    ok_oports e p : p ∈ oports S e <-> owner S p = Some e;
    ok_vports e p : p ∈ vports S e <-> e ∈ vowners S p;
    ok_vowned p e : e ∈ vowners S p -> owned S p;
    ok_disjoint p e : owner S p = Some e -> e ∉ vowners S p;
    ok_oports_nodup e : NoDup (oports S e);
  }.
  (** every element's method implements its demand *)
  Definition rules_ok S (D : demand) : Prop :=
    forall e, exhaustive S D e \/ (incremental S D e /\ no_virtual_request S D e).

  (** one element by itself: what it wants, given the keys at its ports, and that its
      method asks for everything its new keys bring about, and never for a port it owns
      virtually, as long as it finds no other keys than [Z] at its ports.  It may ask for
      more, depending on the order of events. *)
  Record one_demand_ok S (e : E) (W : (P -> K -> Prop) -> P -> K -> Prop) : Prop := {
    od_mono (X Y : P -> K -> Prop) p k : (forall q j, X q j -> Y q j) -> W X p k -> W Y p k;
    od_local (X : P -> K -> Prop) p k : W X p k -> W (fun q j => sees S e q /\ X q j) p k;
    od_strict (X : P -> K -> Prop) p k : W X p k -> exists q j, X q j;
  }.
  Definition meets S (e : E) (W : (P -> K -> Prop) -> P -> K -> Prop) (Z : P -> K -> Prop) : Prop :=
    forall r, rule S e = Some r -> forall t (u c : P -> gset K),
      (exists q j, sees S e q /\ (j ∈ u q \/ j ∈ c q)) ->
      (forall q j, sees S e q -> j ∈ u q \/ j ∈ c q -> Z q j) ->
      (forall p k, W (fun q j => j ∈ u q \/ j ∈ c q) p k ->
         (p, k) ∈ r t u c \/ W (fun q j => j ∈ c q /\ j ∉ u q) p k) /\
      (forall p k q, (p, k) ∈ r t u c -> rtc (bonded S) p q -> e ∉ vowners S q).
End spec.

Section symm.
  Context {P K : Type} `{EqDecision P} `{Countable K}.
  Implicit Types (u c : P -> gset K).
  (** rounds: in each the update sets are handed out, then merged *)
  Fixpoint symm_rounds (p1 p2 : P) (rounds : list (P -> gset K)) c : res (list (K * K)) :=
    match rounds with
    | [] => Ok []
    | u :: rounds =>
        l ← symmetric_update u c (Some (POne p1)) (Some (POne p2)) None None;
        l' ← symm_rounds p1 p2 rounds (fun p => u p ∪ c p);
        Ok (l ++ l')
    end.
End symm.

(** an element whose method asks, for each pair handed out by symmetric_update, for a
    list of requests depending only on the pair *)
Definition pair_rule {P K} `{EqDecision P} `{Countable K} (p1 p2 : P) (f : K -> K -> list (P * K))
    (t : nat) (u c : P -> gset K) : list (P * K) :=
  match symmetric_update u c (Some (POne p1)) (Some (POne p2)) None None with
  | Ok l => ab ← l; f ab.1 ab.2
  | Err _ => []
  end.
