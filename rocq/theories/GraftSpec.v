(** Vocabulary of GraftProps.v. *)
From stdpp Require Import base tactics numbers list.
From Verif Require Import Py NoiModel GraftModel.

(** names that can be written in a path *)
Definition plain (n : name) : Prop := 46 ∉ n.
(** the class of the element at a path *)
Definition class_at (e : elem) (p : list name) : option nat := e_cls <$> at_path p e.
(** the identity of the element at a path *)
Definition uid_at (e : elem) (p : list name) : option nat := e_uid <$> at_path p e.
(** the bonds of the element at a path: the optical partner, and the electrical partners *)
Definition bond_at (e : elem) (p : list name) : option (list name) := at_path p e ≫= e_bond.
Definition ebonds_at (e : elem) (p : list name) : list (list name) := default [] ((fun x => (e_ebonds x).*1) <$> at_path p e).
(** a class whose parts have different plain names, all the way down *)
Inductive good_ctor : ctor -> Prop :=
| good cls own : NoDup own.*1 -> Forall plain own.*1 -> (forall n c, (n, c) ∈ own -> good_ctor c) -> good_ctor (Ctor cls own).
(** the states reached from a root by any calls *)
Definition reached (s : st) : Prop := exists c old os, s = run os (start c old).1.
(** how deep a tree is *)
Fixpoint height (e : elem) : nat :=
  let '(Elem _ _ cs _ _ _ _ _ _) := e in
  S ((fix go (cs : list (name * elem)) : nat := match cs with [] => 0 | (_, c) :: cs => Nat.max (height c) (go cs) end) cs).
(** regenerating the root and completing it *)
Definition regenerate (fuel : nat) (c : ctor) (s : st) : st * option exn :=
  match start c (Some (s_root s)) with
  | (s', Some x) => (s', Some x)
  | (s', None) => complete_root fuel s'
  end.
(** histories, with any regenerations, in which elements are only added: good classes under new
    plain names, outside building *)
Inductive grown (c : ctor) : st -> Prop :=
| grown_start : grown c (start c None).1
| grown_insert s p n c' : grown c s -> good_ctor c' -> plain n -> is_Some (at_path p (s_root s)) ->
    at_path (p ++ [n]) (s_root s) = None -> grown c (insert_at p n c' s).1
| grown_get s x : grown c s -> grown c (getitem x s).1
| grown_complete s fuel : grown c s -> grown c (complete_root fuel s).1
| grown_bond s p q : grown c s -> grown c (bond_inform p q s).1
| grown_ebond s p q : grown c s -> grown c (ebond_inform p q s).1
| grown_regenerate s fuel : grown c s -> (regenerate fuel c s).2 = None -> grown c (regenerate fuel c s).1.

(** the additions an element remembers, which regeneration makes again *)
Definition recorded (s : st) (p : list name) : list (name * ctor) := default [] (e_inserted <$> at_path p (s_root s)).
(** histories in which every with-block of building that is entered is left *)
Inductive nested : list op -> Prop :=
| nested_nil : nested []
| nested_op o os : o <> Enter -> o <> Leave -> nested os -> nested (o :: os)
| nested_block os os' : nested os -> nested os' -> nested (Enter :: os ++ Leave :: os').

(** ** examples *)
Notation ex_a := [97]. Notation ex_b := [98]. Notation ex_dot := [97; 46; 98].
(** a class 1 with a part a of class 2 that has a part b of class 3 *)
Definition ex_c : ctor := Ctor 1 [(ex_a, Ctor 2 [(ex_b, Ctor 3 [])])].
Definition ex_start : st := (start ex_c None).1.
(** an element b added to a.b, another b to the root, and the two bonded *)
Definition ex_ops : list op :=
  [Insert [ex_a; ex_b] ex_b (Ctor 4 [(ex_a, Ctor 5 [])]); Insert [] ex_b (Ctor 6 []); Bond [ex_b] [ex_a; ex_b]; EBond [ex_b] [ex_a]].
Definition ex_s : st := run ex_ops ex_start.
