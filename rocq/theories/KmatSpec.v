(** Specification of key spaces, vectors and matrices. *)
From Coq Require Import Sorting.Sorted.
From stdpp Require Import base tactics list numbers gmap.
From Verif Require Import Fld Py KeysModel KmatModel.

(** the keys handed to [keys_add] before the first access that needs a numbering *)
Fixpoint given {K} (ops : list (kvop (K := K))) : list K :=
  match ops with
  | KAdd ks :: ops => ks ++ given ops
  | (KContains _ | KLen) :: ops => given ops
  | (KFreeze | KMap _ | KIdx _) :: _ | [] => []
  end.
(** whether there is such an access *)
Fixpoint accessed {K} (ops : list (kvop (K := K))) : bool :=
  match ops with
  | (KFreeze | KMap _ | KIdx _) :: _ => true
  | _ :: ops => accessed ops
  | [] => false
  end.

(** ascending for the keys' own [<] *)
Definition ascending {K} (lt : K -> K -> bool) (l : list K) : Prop :=
  StronglySorted (fun x y => lt x y = true) l.

(** the entry at a key, absent meaning zero *)
Definition val {K} `{EqDecision K} {F : fld} (d : dict K F) (k : K) : F := default f0 (d_get d k).
(** the stored form of a value when zeros are not stored *)
Definition nz {F : fld} (v : F) : option F := if decide (v = f0) then None else Some v.
