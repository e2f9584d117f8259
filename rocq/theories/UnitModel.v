(** Model of unitful values: phasor/base/simple_units.py, and the way an attribute is set and
    read in phasor/base/multi_unit_args.py.

    A pint unit or quantity used as a unit is its size in root units with the exponents of the
    root units (no zero exponents).  Writing a unit to the configuration tree as a string and
    parsing it again is taken to give the same unit. *)
From stdpp Require Import base tactics numbers gmap strings list.
From Verif Require Import Fld Py.
Local Open Scope fld_scope.

(** exponents of the root units *)
Notation dim := (gmap string Z).
Definition nz (z : Z) : option Z := if decide (z = 0)%Z then None else Some z.
Definition dim_op (f : Z -> Z -> Z) (d e : dim) : dim :=
  merge (fun x y => match x, y with None, None => None | _, _ => nz (f (default 0%Z x) (default 0%Z y)) end) d e.
Definition dim_add := dim_op Z.add.
Definition dim_sub := dim_op Z.sub.
Record unit_ (K : fld) := U { scale : K; dims : dim }.
Arguments U {K} _ _. Arguments scale {K} _. Arguments dims {K} _.

Section units.
  Context {K : fld}.
  (** units_from / units_to, as a quantity *)
  Definition udiv (u v : unit_ K) : unit_ K := U (scale u / scale v) (dim_sub (dims u) (dims v)).
  (** [assert rescale.unitless] and [.to(dimensionless).magnitude]: simple_units.py 39-43, 52-56,
      107-114, 169-173 *)
  Definition rescale (from to_ : unit_ K) : res K :=
    let r := udiv from to_ in
    if decide (dims r = ∅) then Ok (scale r) else Err AssertionError.

  (** A number or a SimpleUnitfulGroup, whose [val] and [ref] are again numbers or groups *)
  Inductive pv := Num (x : K) | Grp (v r : pv) (u : unit_ K).
  (** simple_units.py 78-83 __rmul__ *)
  Fixpoint rmul (x : K) (a : pv) : pv :=
    match a with Num y => Num (x * y) | Grp v r u => Grp (rmul x v) (rmul x r) u end.
  (** 64-69 __mul__; a number on the left falls back on __rmul__ *)
  Fixpoint pmul (a b : pv) : pv :=
    match a with
    | Num x => rmul x b
    | Grp v r u => Grp (pmul v b) (pmul r b) u
    end.
  (** 71-76 __neg__ *)
  Fixpoint pneg (a : pv) : pv :=
    match a with Num x => Num (- x) | Grp v r u => Grp (pneg v) (pneg r) u end.
  (** 38-49 __add__ and 51-62 __sub__; there is no __radd__, and a number has no units *)
  Fixpoint padd (neg : bool) (a b : pv) : res pv :=
    match a, b with
    | Num x, Num y => Ok (Num (if neg then x - y else x + y))
    | Num _, Grp _ _ _ => Err TypeError
    | Grp _ _ _, Num _ => Err AttributeError
    | Grp v r u, Grp v' r' u' =>
        s ← rescale u' u;
        v'' ← padd neg v (pmul v' (Num s));
        r'' ← padd neg r (pmul r' (Num s));
        Ok (Grp v'' r'' u)
    end.

  (** An entry of the configuration tree: [ref] may be missing, [val] and [ref] may be None *)
  Record node := Nd { n_val : option K; n_ref : option (option K); n_units : unit_ K }.
  Definition times (s : K) (x : option K) : option K := (fun x => x * s) <$> x.
  (** simple_units.py 105-133 ctree_units_scale, ref and val of ElementRefValue with [units] *)
  Definition read (n : node) (units : unit_ K) : res (option K * option K) :=
    match n_val n, n_ref n with
    | None, None | None, Some None => Ok (None, None)
    | v, r =>
        s ← rescale (n_units n) units;
        let v' := times s v in
        Ok (v', match r with None => v' | Some r => times s r end)
    end.
  (** 147-152 fitter_inject, 154-159 fitter_reinject *)
  Definition inject (units : unit_ K) (value ivalue : K) : node := Nd (Some value) (Some (Some ivalue)) units.
  Definition reinject (units : unit_ K) (value : K) : node := Nd (Some value) (Some (Some value)) units.
  (** 161-173 fitter_initial; None times a number raises *)
  Definition initial (units : unit_ K) (n : node) : res K :=
    s ← rescale (n_units n) units;
    match match n_ref n with None => n_val n | Some r => r end with
    | Some x => Ok (x * s)
    | None => Err TypeError
    end.

  (** multi_unit_args.py 37-107 SETUP without prototype on an empty entry: the arguments given
      are [sources]; the preferred name takes a group (or None), the names with a unit a number.
      The group is flat.  [principle] is the principal unit.  [same] says whether val and ref of
      the group are the same object. *)
  Inductive source := Preferred (g : option (K * K * unit_ K)) (same : bool) | WithUnit (u : unit_ K) (x : K).
  Definition setup (principle : unit_ K) (sources : list source) (default_ : option source) : res node :=
    s ← match sources with
        | _ :: _ :: _ => Err RuntimeError
        | [s] => Ok s
        | [] => match default_ with Some s => Ok s | None => Err RuntimeError end
        end;
    Ok match s with
       | Preferred (Some (v, r, u)) same => Nd (Some v) (if same : bool then None else Some (Some r)) u
       | Preferred None _ => Nd None None principle
       | WithUnit u x => Nd (Some x) None u
       end.
End units.
Arguments pv : clear implicits. Arguments node : clear implicits. Arguments source : clear implicits.
