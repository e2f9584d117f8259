(** Model of /repo/phasor/optics/AOM.py 183-281: the equations AOM hands to the ODE coupling,
    for one of its two directions (202-205).
    The two ports of the direction are booleans (A is true), a key at one of them is the quantum
    key (lowering or not), the rest without the classical frequency (polarization and optical
    frequency), and the classical frequency key. A key at Drv is its classical frequency key. *)
From Coq Require Import Reals.
From stdpp Require Import base tactics list numbers gmap.
From Verif Require Import Py Fld Herm SigModel OdeModel.

Section aom.
  Context {B C : Type} `{Countable B} `{Countable C}.
  Local Open Scope fld_scope.
  Context (cadd csub : C -> C -> C).
  (** system.classical_frequency_extract_center and system.reject_classical_frequency_order *)
  Context (center : C -> R) (rejected : C -> bool).
  (** freq_split_Hz, and the directions of the two ports: 202-205 *)
  Context (split : R) (dir : bool -> R).
  (** pi / 2 / drive_PWR_nominal**.5 *)
  Context (kappa : R).
  Definition okey : Type := bool * (bool * (B * C)).
  Definition akey : Type := okey + C.
  (** 218-221 *)
  Definition aom_gain (lower : bool) : C_fld := if lower then - ci * cre kappa else ci * cre kappa.
  (** 223-231 *)
  Definition aom_shift (lower : bool) (c drv : C) : C := if lower then cadd c drv else csub c drv.
  (** 223-262: one pair; the key that grows, the gain and the two keys of the product *)
  Definition aom_pair (port : bool) (k : bool * (B * C)) (drv : C) : list (akey * mono C_fld akey) :=
    let '(lower, (b, c)) := k in
    let c' := aom_shift lower c drv in
    if rejected c' then [] else
    if Rlt_dec split ((if lower then 1 else -1) * center drv * dir port)
    then [(inl (negb port, (lower, (b, c'))), (aom_gain lower, [inl (port, (lower, (b, c))); inr drv]))] else [].
  (** 210-262; [ks] are the key sets of the two ports, [drvs] that of Drv.i *)
  Definition aom_terms (ks : bool -> list (bool * (B * C))) (drvs : list C) : list (akey * mono C_fld akey) :=
    port ← [true; false]; k ← ks port; drv ← drvs; aom_pair port k drv.
  (** dLt: a defaultdict(list) *)
  Definition aom_dict (ts : list (akey * mono C_fld akey)) : gmap akey (list (mono C_fld akey)) :=
    foldl (fun d e => <[e.1 := default [] (d !! e.1) ++ [e.2]]> d) ∅ ts.
  (** 263-272: the keys that are put into in_map and out_map for a term *)
  Definition aom_mapped (e : akey * mono C_fld akey) : list akey :=
    match e.1, e.2.2 with
    | inl (portO, kto), [inl (port, kfrom); inr drv] => [inl (port, kto); inl (port, kfrom); inl (portO, kto); inl (portO, kfrom); inr drv]
    | _, _ => []
    end.
  (** a key at port.i is (false, k); one at omap[port].o is (true, k) *)
  Definition aom_in (ts : list (akey * mono C_fld akey)) : gmap akey (bool * akey) :=
    list_to_map ((fun k => (k, (false, k))) <$> (ts ≫= aom_mapped)).
  Definition aom_out (ts : list (akey * mono C_fld akey)) : gmap akey (option (bool * akey)) :=
    list_to_map ((fun k : akey => (k, match k with inl _ => Some (true, k) | inr _ => None end)) <$> (ts ≫= aom_mapped)).
  (** 275-281 *)
  Definition aom_ode (N : nat) (pks : list akey) (ts : list (akey * mono C_fld akey)) : ode_spec (K := C_fld) (P := akey) (PK := bool * akey) :=
    OdeSpec (aom_dict ts) (aom_in ts) (aom_out ts) N pks.
End aom.
