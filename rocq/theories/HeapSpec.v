(** Abstract priority queue: a bag (list up to reordering). *)
From Coq Require Import Sorting.
From stdpp Require Import base tactics list numbers.
From Verif Require Import Py HeapModel.

Section spec.
  Context {A : Type} (lt : A -> A -> bool).

  (** [<] is a strict weak order: asymmetric and "not less" is transitive *)
  Definition weak_order : Prop :=
    (forall x y, lt x y = true -> lt y x = false) /\
    (forall x y z, lt x y = false -> lt y z = false -> lt x z = false).

  (** nothing in the bag is smaller than [x] *)
  Definition least (x : A) (bag : list A) : Prop := forall y, y ∈ bag -> lt y x = false.

  (** what one operation may answer and leave behind *)
  Definition pq_spec (bag : list A) (o : pq_op) (out : pq_out) (bag' : list A) : Prop :=
    match o with
    | Push x => out = Nothing /\ bag' ≡ₚ x :: bag
    | Pop =>
        (bag = [] /\ out = Raised EmptyError /\ bag' = []) \/
        (exists x, out = Item x /\ bag ≡ₚ x :: bag' /\ least x bag)
    | Replace y =>
        (bag = [] /\ out = Raised IndexError /\ bag' = []) \/
        (exists x rest, out = Item x /\ bag ≡ₚ x :: rest /\ least x bag /\ bag' ≡ₚ y :: rest)
    | PushPop y => exists x, out = Item x /\ y :: bag ≡ₚ x :: bag' /\ least x (y :: bag)
    | Peek =>
        (bag = [] /\ out = Raised EmptyError /\ bag' = []) \/
        (exists x, out = Item x /\ x ∈ bag /\ least x bag /\ bag' ≡ₚ bag)
    | IsEmpty => out = Truth (bool_decide (bag = [])) /\ bag' ≡ₚ bag
    | Bool => out = Truth (bool_decide (bag <> [])) /\ bag' ≡ₚ bag
    | Len => out = Size (length bag) /\ bag' ≡ₚ bag
    end.

  (** a whole history *)
  Inductive pq_history : list A -> list pq_op -> list pq_out -> list A -> Prop :=
  | hist_nil bag bag' : bag ≡ₚ bag' -> pq_history bag [] [] bag'
  | hist_cons bag o out mid ops outs bag' :
      pq_spec bag o out mid -> pq_history mid ops outs bag' ->
      pq_history bag (o :: ops) (out :: outs) bag'.

  (** in order: no later item is smaller than an earlier one *)
  Definition in_order (l : list A) : Prop := StronglySorted (fun x y => lt y x = false) l.
End spec.
