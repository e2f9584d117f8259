(** Model of /repo/phasor/optics/nonlinear_crystal.py 147-252: the equations NonlinearCrystal
    hands to the ODE coupling, for one of its two directions (147-153).
    A key is the quantum key (lowering or not), the rest without the frequencies (polarization),
    and the pair of optical and classical frequency keys: any countable type with addition and
    subtraction. [ks] is the key set of port.i, [outs] that of tmap[port].o, in iteration order. *)
From Coq Require Import Reals.
From stdpp Require Import base tactics list numbers gmap.
From Verif Require Import Py Fld Herm SigModel OdeModel.

Section crystal.
  Context {B Q F : Type} `{Countable B} `{Countable Q}.
  Local Open Scope fld_scope.
  Context (qadd qsub : Q -> Q -> Q).
  (** okey.F_dict.items() *)
  Context (F_items : Q -> list (F * Z)).
  Definition nkey : Type := bool * (B * Q).
  Definition cZ (n : Z) : C_fld := cre (IZR n).
  (** 201-204: the multiple of the one base frequency *)
  Definition base_multiple (q : Q) : res Z :=
    match F_items q with [] => Err IndexError | [(_, n)] => Ok n | _ => Err RuntimeError end.
  (** 165-168; [g] is nlg * length_mm *)
  Definition Ggain (g : R) (lower : bool) : C_fld := if lower then ci * cre g else - ci * cre g.
  (** 181-194 *)
  Definition key_to (kfrom kfrom2 : nkey) : nkey :=
    (kfrom.1, (kfrom.2.1, if decide (kfrom2.1 = kfrom.1) then qadd kfrom.2.2 kfrom2.2.2 else qsub kfrom.2.2 kfrom2.2.2)).
  (** 170-217: one pair; what is appended to dLt, with its key *)
  Definition pair_terms (g : R) (outs : list nkey) (acc : list (nkey * mono C_fld nkey)) (kk : nkey * nkey) : res (list (nkey * mono C_fld nkey)) :=
    let '(kfrom, kfrom2) := kk in
    if decide (kfrom.2.1 <> kfrom2.2.1) then Ok acc else
    let kto := key_to kfrom kfrom2 in
    if decide (kto ∈ outs) then
      match base_multiple kto.2.2 with
      | Err e => Err e
      | Ok n =>
          let gain := if decide (kfrom = kfrom2) then cZ n * Ggain g kfrom.1 / (1 + 1) else cZ n * Ggain g kfrom.1 in
          Ok (acc ++ [(kto, (gain, [kfrom2; kfrom]))])
      end
    else Ok acc.
  Definition crystal_terms (g : R) (ks outs : list nkey) : res (list (nkey * mono C_fld nkey)) :=
    mfor (pair_terms g outs) (kfrom ← ks; kfrom2 ← ks; [(kfrom, kfrom2)]) [].
  (** dLt: a defaultdict(list) *)
  Definition terms_dict (ts : list (nkey * mono C_fld nkey)) : gmap nkey (list (mono C_fld nkey)) :=
    foldl (fun d e => <[e.1 := default [] (d !! e.1) ++ [e.2]]> d) ∅ ts.
  (** 215-216: in_map of the kfrom (second key of the product), out_map of the kto.
      A key at port.i is (false, k), one at portO.o is (true, k) *)
  Definition terms_in (ts : list (nkey * mono C_fld nkey)) : gmap nkey (bool * nkey) :=
    list_to_map (e ← ts; match e.2.2 with [_; kfrom] => [(kfrom, (false, kfrom))] | _ => [] end).
  Definition terms_out (ts : list (nkey * mono C_fld nkey)) : gmap nkey (option (bool * nkey)) :=
    list_to_map ((fun e : nkey * mono C_fld nkey => (e.1, Some (true, e.1))) <$> ts).
  (** 244-251; the order of pks, which ODE_solver.py 165-178 sorts, is an argument *)
  Definition crystal_ode (N : nat) (pks : list nkey) (ts : list (nkey * mono C_fld nkey)) : ode_spec (K := C_fld) (P := nkey) (PK := bool * nkey) :=
    OdeSpec (terms_dict ts) (terms_in ts) (terms_out ts) N pks.
End crystal.
