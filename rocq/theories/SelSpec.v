(** What the selectors should do. *)
From stdpp Require Import base tactics numbers gmap list fin_maps.
From Verif Require Import Fld Py Herm InjModel InjSpec OptModel SigModel SigSpec SelModel.
Local Open Scope fld_scope.

Section spec.
  Context {P A V : Type} `{Countable P} `{Countable A} `{Countable V}.
  Notation key := (gmap A V).

  (** two keys agree on an entry that both have *)
  Definition shares (a k : key) : Prop := exists e v, a !! e = Some v /\ k !! e = Some v.
  (** [b] is the one port whose selection shares an entry with [k] *)
  Definition selected (bs : list (back (P := P) (A := A) (V := V))) (k : key) (b : back) : Prop :=
    b ∈ bs /\ shares (b_key b) k /\ forall b', b' ∈ bs -> shares (b_key b') k -> b' = b.
  (** the ports are different ports *)
  Definition distinct (fr_i fr_o : P) (bs : list (back (P := P) (A := A) (V := V))) : Prop :=
    NoDup (fr_i :: fr_o :: (b_i <$> bs) ++ (b_o <$> bs)).
  (** only the keys of a port carry light there *)
  Definition within (have : P -> list key) (x : P * key -> C_fld) : Prop :=
    (forall p, NoDup (have p)) /\ forall p k, k ∉ have p -> x (p, k) = 0.
End spec.
#[global] Instance shares_dec {A V} `{Countable A} `{Countable V} (a k : gmap A V) : Decision (shares a k).
Proof.
  refine (cast_if (decide (Exists (fun kv => k !! kv.1 = Some kv.2) (map_to_list a)))).
  - abstract (apply Exists_exists in e as ([e' v] & Hi & Hk); exists e', v; by rewrite <- elem_of_map_to_list).
  - abstract (intros (e & v & Ha & Hk); apply n, Exists_exists; exists (e, v); by rewrite elem_of_map_to_list).
Defined.
(** the part of the light that a selection is for *)
Definition part_for {A V} `{Countable A} `{Countable V} (a : gmap A V) (f : gmap A V -> C_fld) (k : gmap A V) : C_fld :=
  if decide (shares a k) then f k else 0.

Section stack.
  Context {E N A V : Type} `{Countable E} `{Countable N} `{Countable A} `{Countable V}.
  Notation key := (gmap A V).
  (** the ports of the selectors of a stack: incoming (true) or outgoing, stack port, element (None is the front) *)
  Notation sport := (bool * (N * option E))%type.
  Definition sel_of (bk : list (E * key)) (p : N) : list (back (P := sport) (A := A) (V := V)) :=
    (fun '(e, s) => Back (true, (p, Some e)) (false, (p, Some e)) s) <$> bk.
  (** A solution of the fields in a stack.  [fin] and [fout] are the fields entering and leaving at its
      ports, [ein] and [eout] those of the elements, [el] what an element makes of the light *)
  Record stacked (check : bool) (bk : list (E * key)) (ports : list N) (have : sport -> list key) (el : E -> (N -> key -> C_fld) -> N -> key -> C_fld)
      (fin fout : N -> key -> C_fld) (ein eout : E -> N -> key -> C_fld) : Prop := {
    st_selector : forall p, p ∈ ports -> exists js x,
      selector check (true, (p, None)) (false, (p, None)) (sel_of bk p) have = Ok js /\ within have x /\
      (forall k, x ((true, (p, None)), k) = fin p k) /\
      (forall k, arrives js x ((false, (p, None)), k) = fout p k) /\
      (forall e s k, (e, s) ∈ bk -> x ((true, (p, Some e)), k) = eout e p k) /\
      (forall e s k, (e, s) ∈ bk -> arrives js x ((false, (p, Some e)), k) = ein e p k);
    st_element : forall e p k, p ∈ ports -> eout e p k = el e (ein e) p k;
    (** an element looks at its own ports only *)
    st_ports : forall e f g, (forall p k, p ∈ ports -> f p k = g p k) -> forall p k, el e f p k = el e g p k;
  }.
End stack.
