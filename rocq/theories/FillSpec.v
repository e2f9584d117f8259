(** Which keys the elements where light meets signals need at their ports. *)
From stdpp Require Import base tactics list numbers gmap fin_sets.
From Verif Require Import Fld Py Herm InjModel PortModel PortSpec PdModel FillModel.
Local Open Scope fld_scope.

Section wants.
  Context {P A Q : Type} `{Countable P} `{Countable A} `{Countable Q}.
  Context (qadd : Q -> Q -> Q) (qneg : Q -> Q) (reject : Q -> bool).
  Notation K := (key A Q).

  (** the frequency of light after a signal of frequency [F] acted on it *)
  Definition moved (l : bool) (f F : Q) : Q := if l then qadd f F else qadd f (qneg F).

  (** light comes in at the ports [ins] and goes on to the ports that [pmap] tells; it is driven by
      the signal port [inp] and drives the signal port [outp].  [outs] are ports from which
      the way back is followed. *)
  Inductive fill_wants (ins outs : list P) (pmap : P -> list P) (inp outp : option P) (X : P -> K -> Prop) : P -> K -> Prop :=
  (** light passes *)
  | fw_through i p k : i ∈ ins -> p ∈ pmap i -> X i k -> fill_wants ins outs pmap inp outp X p k
  (** driven light has sidebands *)
  | fw_drive i p q l o f F : i ∈ ins -> p ∈ pmap i -> inp = Some q -> X i (opt l o f) -> X q (cls F) ->
      reject (moved l f F) = false -> fill_wants ins outs pmap inp outp X p (opt l o (moved l f F))
  (** a signal that is read comes from light beating with some other light *)
  | fw_pair i q l o f F : i ∈ ins -> outp = Some q -> X i (opt l o f) -> X q (cls F) ->
      reject (moved (negb l) f F) = false -> fill_wants ins outs pmap inp outp X i (opt (negb l) o (moved (negb l) f F))
  (** light beats with light *)
  | fw_beat i q o f g : i ∈ ins -> outp = Some q -> X i (opt true o f) -> X i (opt false o g) ->
      reject (qadd f (qneg g)) = false -> fill_wants ins outs pmap inp outp X q (cls (qadd f (qneg g)))
  (** light that leaves may come from light that enters by some drive *)
  | fw_change i p q l o f g : i ∈ ins -> p ∈ pmap i -> inp = Some q -> X i (opt l o f) -> X p (opt l o g) ->
      reject (if l then qadd g (qneg f) else qadd f (qneg g)) = false ->
      fill_wants ins outs pmap inp outp X q (cls (if l then qadd g (qneg f) else qadd f (qneg g)))
  | fw_back t p q l o f F : t ∈ outs -> p ∈ pmap t -> outp = Some q -> X t (opt l o f) -> X q (cls F) ->
      reject (moved (negb l) f F) = false -> fill_wants ins outs pmap inp outp X p (opt l o (moved (negb l) f F)).

  (** all that a modulator asks for; driven light and its drive are asked for again *)
  Definition mod_asks (fri fro bki bko drv ba : P) (X : P -> K -> Prop) (p : P) (k : K) : Prop :=
    fill_wants [fri; bki] [fro; bko] (pmap2 fri fro bki bko) (Some drv) (Some ba) X p k \/
    (exists p0, p0 ∈ [fri; fro; bki; bko] /\ p ∈ pmap2 fri fro bki bko p0 /\ X p0 k) \/
    (exists i l o f F, i ∈ [fri; bki] /\ X i (opt l o f) /\ X drv (cls F) /\ reject (moved l f F) = false /\
       ((p, k) = (i, opt l o f) \/ (p, k) = (drv, cls F))).
End wants.

Section keys.
  Context {P A Q : Type} `{Countable P} `{Countable A} `{Countable Q}.
  Notation K := (key A Q).
  (** the keys of light, the modes of light and the frequencies in the key set of a port, in iteration order *)
  Definition lights (X : gset K) : list (bool * A * Q) := omap light_of (elements X).
  Definition modes (X : gset K) : list (A * Q) :=
    omap (fun k => match k with (Some (true, o), f) => Some (o, f) | _ => None end) (elements X).
  Definition signals (X : gset K) : list Q := omap signal_of (elements X).
  (** the coupling matrix takes an injection only between keys of its ports *)
  Definition known (C : P -> gset K) (js : list (inj C_fld P K)) : Prop :=
    forall j, j ∈ js -> forall n, n ∈ inj_edges 0 j -> n.1.1.2 ∈ C n.1.1.1 /\ n.1.2.2 ∈ C n.1.2.1.
  (** the orders of frequencies that are left out: the same both ways, never the carrier, and no such key was handed out *)
  Record bounded (qneg : Q -> Q) (q0 : Q) (reject : Q -> bool) (C : P -> gset K) (ports : list P) : Prop := {
    bd_zero : reject q0 = false;
    bd_neg : forall F, reject F = false -> reject (qneg F) = false;
    bd_keys : forall p k, p ∈ ports -> k ∈ C p -> reject k.2 = false;
  }.
  (** an element of a system: its method, its ports, none of them anyone else's *)
  Record placed {E} `{Countable E} (S : sys E P K) (e : E) (ports : list P) (m : (P -> gset K) -> (P -> gset K) -> res (list (P * K))) : Prop := {
    pl_ok : sys_ok S;
    pl_rule : rule S e = Some (as_rule m);
    pl_own : forall p, p ∈ ports -> owner S p = Some e;
    pl_virtual : vports S e = [];
    pl_nodup : NoDup ports;
  }.
  (** set.pop gives some member of the set *)
  Definition pops {B} `{Countable B} (pop : nat -> gset B -> B) : Prop := forall t X, X <> ∅ -> pop t X ∈ X.
  (** a carrier, with its conjugate *)
  Definition carrier_at (q0 : Q) (C : P -> gset K) (p : P) : Prop := exists o, opt true o q0 ∈ C p /\ opt false o q0 ∈ C p.
End keys.
