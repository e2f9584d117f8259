(** What cutting a system at two boundaries should do. *)
From stdpp Require Import base tactics list numbers.
From Coq Require Import Reals.
From Verif Require Import Fld Py AlmModel.
Local Open Scope R_scope.

(** in order of place and not overlapping *)
Fixpoint ordered (l : list (R * tree)) : Prop :=
  match l with
  | [] => True
  | (x, c) :: l' => 0 <= width c /\ match l' with [] => True | (y, _) :: _ => x + width c <= y end /\ ordered l'
  end.
(** the components between the boundaries; no boundary is none *)
Definition behind_left {A} (bl : option R) (x : R * A) : bool :=
  match bl with Some b => if Rle_dec b (fst x) then true else false | None => true end.
Definition before_right {A} (br : option R) (x : R * A) : bool :=
  match br with Some b => if Rle_dec (fst x) b then true else false | None => true end.
Definition kept {A} (bl br : option R) (l : list (R * A)) : list (R * A) :=
  List.filter (fun x => behind_left bl x && before_right br x) l.
(** no component lies across the boundary or ends at it; none without length stands at the right one *)
Definition clear_left (bl : option R) (l : list (R * tree)) : Prop :=
  match bl with Some b => forall x, x ∈ l -> b <= fst x \/ fst x + width (snd x) < b | None => True end.
Definition clear_right (br : option R) (l : list (R * tree)) : Prop :=
  match br with Some b => forall x, x ∈ l -> b < fst x \/ fst x + width (snd x) < b | None => True end.
(** a target at a boundary *)
Definition mark (b : option R) : list (R * comp) := match b with Some b => [(b, CTarget)] | None => [] end.
Definition marked (b : option R) : list tree := match b with Some _ => [Tgt] | None => [] end.
(** the first boundary is not behind the second *)
Definition le_opt (a b : option R) : Prop := match a, b with Some a, Some b => a <= b | _, _ => True end.
(** the components of a system that runs one way or the other *)
Definition placed (n0 : R) (env : bool) (l : list (R * comp)) : list (R * tree) := map (fun x => (fst x, build n0 env (snd x))) l.
