(** Model of /repo/phasor/matrix/metis_reorder.py: the graph of a system written for METIS.  Nodes are
    numbers.  [nlist] is the list of the keys of seq after sortkeys_inplace, each once.  The edges are
    those of edge_map in their order, with the number of values of the edge (1 or the number of
    frequencies, a symbolic edge not modelled).  Dictionaries are lists in order of insertion.  The text of the file is the
    header with two numbers and one list of (neighbour, weight) for each line.  Not modelled: the
    files, calling ndmetis (its answer is an argument) and its failure. *)
From stdpp Require Import base tactics list numbers.
From Verif Require Import Py.

(** dictionaries *)
Fixpoint aget {A} (k : nat) (l : list (nat * A)) : option A :=
  match l with [] => None | (k', v) :: l => if Nat.eqb k k' then Some v else aget k l end.
Fixpoint aset {A} (k : nat) (v : A) (l : list (nat * A)) : list (nat * A) :=
  match l with [] => [(k, v)] | (k', v') :: l => if Nat.eqb k k' then (k', v) :: l else (k', v') :: aset k v l end.
Definition ddict := list (nat * list (nat * nat)).
(** m[r] of a defaultdict(dict), and m[r][s] = w *)
Definition row (m : ddict) (r : nat) : list (nat * nat) := match aget r m with Some d => d | None => [] end.
Definition ddset (r s w : nat) (m : ddict) : ddict := aset r (aset s w (row m r)) m.

(** 24-26 nlist_inv *)
Fixpoint number (i : nat) (l : list nat) : list (nat * nat) :=
  match l with [] => [] | x :: l => (x, i) :: number (S i) l end.
(** 30-54 one edge.  edge_weights has numbers as keys, so that edge_weights.get((ridx, sidx), 0) is 0 *)
Definition edge_step (inv : list (nat * nat)) (st : ddict * ddict) (e : (nat * nat) * nat) : ddict * ddict :=
  let '((r_node, s_node), edge_w) := e in
  match aget r_node inv, aget s_node inv with
  | Some ridx, Some sidx =>
      let '(ridx, sidx) := if Nat.ltb sidx ridx then (sidx, ridx) else (ridx, sidx) in
      if Nat.eqb ridx sidx then st
      else let w := Nat.max edge_w 0 in (ddset ridx sidx w (fst st), ddset sidx ridx w (snd st))
  | _, _ => st
  end.
Definition weights (nlist : list nat) (edge_map : list ((nat * nat) * nat)) : ddict * ddict :=
  foldl (edge_step (number 0 nlist)) ([], []) edge_map.
(** 60-90 what is written *)
Record metis := Metis { vertices : nat; edges : nat; rows : list (list (nat * nat)) }.
Definition write_row (st : ddict * ddict) (idx : nat) : list (nat * nat) :=
  map (fun e => (fst e + 1, snd e)%nat) (row (fst st) idx) ++
  map (fun e => (fst e + 1, snd e)%nat) (List.filter (fun e => negb (Nat.eqb (fst e) idx)) (row (snd st) idx)).
Definition srabe2metis (nlist : list nat) (edge_map : list ((nat * nat) * nat)) : metis :=
  let st := weights nlist edge_map in
  Metis (length nlist) (foldl (fun n e => n + length (snd e))%nat 0%nat (fst st)) (map (write_row st) (seq 0 (length nlist))).
(** 93-147 METIS_reorder; [iperm] is the answer of ndmetis, [argsort] orders its indices *)
Definition metis_reorder (argsort : list nat -> list nat) (nlist : list nat) (iperm : list nat) : list nat :=
  let nlist_reorder := omap (fun idx => nlist !! idx) (argsort iperm) in
  let _ := nlist_reorder in nlist.
