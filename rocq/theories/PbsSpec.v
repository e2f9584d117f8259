(** What a polarizing beamsplitter and an isolator should do. *)
From stdpp Require Import base tactics list numbers.
From Coq Require Import QArith Qreals Reals.
From Verif Require Import Fld Herm ElecModel ElecSpec OptModel OptSpec PbsModel.

(** the port opposite, and the one beside *)
Definition through (p : p4) : p4 := match p with FrA => BkA | BkA => FrA | FrB => BkB | BkB => FrB end.
Definition beside (p : p4) : p4 := match p with FrA => FrB | FrB => FrA | BkA => BkB | BkB => BkA end.
Section spec.
  Context {K : fld} (h : herm K).
  Local Open Scope fld_scope.
  (** no light at the loss ports; light only at p *)
  Definition dark (w : nd (mport * pol) -> K) : Prop := forall q l, w (I (Ls q, l)) = 0.
  Definition lit_only (w : nd (mport * pol) -> K) (p : p4) : Prop := forall q l, q <> p -> w (I (Pt q, l)) = 0.
  (** the power shares are sensible: nothing is lost of light that is not there *)
  Definition pbs_ok (a : pbs_args (K := K)) : Prop :=
    h_nn h (select_loss a) /\ h_nn h (reject_loss a) /\
    h_nn h (1 - selection_defect a - select_loss a) /\ h_nn h (selection_defect a - reject_loss a) /\
    h_nn h (rejection_defect a - select_loss a) /\ h_nn h (1 - rejection_defect a - reject_loss a).
  Definition four_ports : list p4 := [FrA; BkA; FrB; BkB].
  (** the share of the power that goes through, and beside *)
  Definition passed (pass l : pol) (a : pbs_args (K := K)) : K :=
    if decide (l = pass) then 1 - selection_defect a - select_loss a else rejection_defect a - select_loss a.
  Definition reflected (pass l : pol) (a : pbs_args (K := K)) : K :=
    if decide (l = pass) then selection_defect a - reject_loss a else 1 - rejection_defect a - reject_loss a.
  (** reflection inverts the field on the back *)
  Definition side (p : p4) (x : K) : K := match p with FrA | FrB => x | BkA | BkB => - x end.
End spec.
(** a half-wave plate inverts the second polarization *)
Definition psign (l : pol) : C_fld := match l with PolS => 1%F | PolP => (- (1))%F end.
