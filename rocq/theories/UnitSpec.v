(** Vocabulary of UnitProps.v. *)
From stdpp Require Import base tactics numbers gmap strings list.
From Verif Require Import Fld UnitModel.
Local Open Scope fld_scope.

Section spec.
  Context {K : fld}.
  (** the amount in root units, through the values or through the references *)
  Fixpoint amount (ref : bool) (a : pv K) : K :=
    match a with Num x => x | Grp v r u => scale u * amount ref (if ref then r else v) end.
  (** the exponent of the root unit [s] *)
  Definition expo (d : dim) (s : string) : Z := default 0%Z (d !! s).
  Fixpoint power (ref : bool) (a : pv K) (s : string) : Z :=
    match a with Num _ => 0%Z | Grp v r u => (expo (dims u) s + power ref (if ref then r else v) s)%Z end.
  (** units are not zero, and no exponent is stored as zero *)
  Definition unit_ok (u : unit_ K) : Prop := scale u <> 0 /\ map_Forall (fun _ z => z <> 0%Z) (dims u).
  Fixpoint ok (a : pv K) : Prop := match a with Num _ => True | Grp v r u => unit_ok u /\ ok v /\ ok r end.
  (** an ordinary group *)
  Definition flat (v r : K) (u : unit_ K) : pv K := Grp (Num v) (Num r) u.
End spec.
