(** Model of boundary_left and boundary_right of a System: /repo/phasor/alm/system.py 85-221
    component_pos_pairings with all its branches.  The components are given as [(loc, tree)]
    sorted by place, as System.components returns them; [tree] and [build] are those of
    AlmModel.v.  The .ref and the .val of a place are the same number here, and numbers are real,
    without rounding. *)
From stdpp Require Import base tactics list numbers.
From Coq Require Import Reals.
From Verif Require Import Fld Py AlmModel.
Local Open Scope R_scope.

Section cut.
  Context (n0 : R).
  (** 98-108: the first component at or behind the left boundary.  Past the last one the result is
      idx + 1 *)
  Fixpoint lscan (bl : R) (l : list (R * tree)) : res nat :=
    match l with
    | [] => Ok 0%nat
    | (loc, c) :: l =>
        if Rle_dec bl loc then Ok 0%nat
        else if Rle_dec bl (loc + width c) then Err NotImplemented
        else i ← lscan bl l; Ok (S i)
    end.
  (** 97-110; without components [idx] has no value in line 108 *)
  Definition lslice (bl : option R) (l : list (R * tree)) : res (option nat) :=
    match bl with
    | None => Ok None
    | Some bl => if decide (length l = 0%nat) then Err UnboundLocalError else i ← lscan bl l; Ok (Some i)
    end.
  (** 113-120 over reversed(components); [k] is len(components) - idx.  122 is the other end *)
  Fixpoint rscan (br : R) (l : list (R * tree)) (k : nat) : res nat :=
    match l with
    | [] => Ok 0%nat
    | (loc, c) :: l =>
        if Rle_dec loc br then if Rle_dec br (loc + width c) then Err NotImplemented else Ok k
        else rscan br l (k - 1)
    end.
  (** 112-124 *)
  Definition rslice (br : option R) (l : list (R * tree)) : res (option nat) :=
    match br with
    | None => Ok None
    | Some br => k ← rscan br (rev l) (length l); Ok (Some k)
    end.
  (** components[slice(i, j)] of 127 and 129 *)
  Definition pyslice (i j : option nat) (l : list (R * tree)) : list (R * tree) :=
    drop (default 0%nat i) (take (default (length l) j) l).
  (** 131-188, all but the first turn: pos_list, components_filled and the last loc_m_prev *)
  Fixpoint turns (prev : R) (l : list (R * tree)) : list R * list tree * R :=
    match l with
    | [] => ([], [], prev)
    | (loc, c) :: l =>
        let '(ps, cs, e) := turns (loc + width c) l in
        (prev :: loc :: ps, Sp (loc - prev) n0 :: c :: cs, e)
    end.
  (** the first turn: 156-177 put a space in front when there is an edge *)
  Definition turn0 (edge : option R) (loc : R) (c : tree) (l : list (R * tree)) : list R * list tree * R :=
    let '(ps, cs, e) := turns (loc + width c) l in
    match edge with
    | Some x => (x :: loc :: ps, Sp (loc - x) n0 :: c :: cs, e)
    | None => (loc :: ps, c :: cs, e)
    end.
  (** 214 *)
  Definition from_zero (ps : list R) : list R := map (fun p => p - hd 0 ps) ps.
  (** 126-129 and 141-144: the components in order and their places *)
  Definition comp_iter (env : bool) (l : list (R * tree)) : list (R * tree) :=
    if env then map (fun x => (- width (snd x) - fst x, snd x)) (rev l) else l.
  (** 156-166 and 190-200: the two edges as loc_m counts *)
  Definition first_edge (env : bool) (bl br : option R) : option R := if env then option_map Ropp br else bl.
  Definition last_edge (env : bool) (bl br : option R) : option R := if env then option_map Ropp bl else br.
  (** 85-221.  With no component left and a last edge, loc_m_prev is None in line 206 *)
  Definition pairings (env : bool) (bl br : option R) (l : list (R * tree)) : res (list R * list tree) :=
    i ← lslice bl l;
    j ← rslice br l;
    match comp_iter env (pyslice i j l) with
    | [] =>
        match last_edge env bl br with
        | Some _ => if decide (length l = 0%nat) then Err UnboundLocalError else Err TypeError
        | None => Ok ([0], [])
        end
    | (loc, c) :: it =>
        let '(ps, cs, e) := turn0 (first_edge env bl br) loc c it in
        match last_edge env bl br with
        | Some x => Ok (from_zero (ps ++ [e; x]), cs ++ [Sp (x - e) n0])
        | None => Ok (from_zero (ps ++ [e]), cs)
        end
    end.
  (** the system that the user builds: bases.py 62-70 for the direction *)
  Definition cut (env r : bool) (bl br : option R) (l : list (R * comp)) : res tree :=
    let e := xorb env r in
    p ← pairings e bl br (map (fun x => (fst x, build n0 e (snd x))) l);
    Ok (Node (snd p)).
End cut.
