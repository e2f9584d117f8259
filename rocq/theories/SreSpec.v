(** Specification vocabulary for the sparse matrices and the index ranges. *)
From Coq Require Import Sorting.
From stdpp Require Import base tactics list numbers gmap fin_sets option.
From Verif Require Import Fld Py GraphModel.
Local Open Scope fld_scope.

Section spec.
  Context {K : fld} {N : Type} `{Countable N}.
  Notation sre := (graph K N).

  (** a well formed sparse matrix: successor and predecessor sets agree and
      every adjacent pair has a value *)
  Definition sre_wf (s : sre) : Prop :=
    (forall a b, b ∈ ds_get (g_seq s) a <-> a ∈ ds_get (g_req s) b) /\
    (forall a b, b ∈ ds_get (g_seq s) a -> is_Some (g_em s !! (a, b))).

  (** the edge [a -> b] is present *)
  Definition adj (s : sre) (a b : N) : Prop := b ∈ ds_get (g_seq s) a.

  (** the matrix represented: the value of the edge [a -> b] when adjacent,
      zero otherwise *)
  Definition entry (s : sre) (a b : N) : K :=
    if decide (b ∈ ds_get (g_seq s) a) then default 0 (g_em s !! (a, b)) else 0.

  (** every middle node that has successors in the second factor is a key of the
      first factor's predecessor dict (or that dict supplies empty sets itself) *)
  Definition mult_defined (dflt : bool) (s1 s2 : sre) : Prop :=
    dflt = true \/ forall mid, ds_get (g_seq s2) mid <> ∅ -> mid ∈ dom (g_req s1).
End spec.

(** lexicographic order on index tuples of the same length *)
Inductive lex_lt : list nat -> list nat -> Prop :=
| lex_here a b s t : (a < b)%nat -> length s = length t -> lex_lt (a :: s) (b :: t)
| lex_there a s t : lex_lt s t -> lex_lt (a :: s) (a :: t).
