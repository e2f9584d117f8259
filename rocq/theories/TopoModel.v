(** Model of topological_sort in
    phasor/math/key_matrix/keymatrix_reduce_tarjan.py. *)
From Coq Require Import ZArith.
From stdpp Require Import base tactics list numbers gmap.
From Verif Require Import Py.
Local Open Scope Z_scope.

Section model.
  Context {N : Type} `{Countable N}.
  (** [successor_func]; an iterator is modelled by the list still to come *)
  Context (succ : N -> list N) (single : bool).

  (** a yielded value: a bare node ([single]) or a tuple of nodes *)
  Inductive yielded := YNode (n : N) | YTuple (l : list N).

  (** the closure variables; stacks are kept top first *)
  Record tstate := TState {
    t_counter : Z;
    t_low : gmap N Z;
    t_index : gmap N Z;
    t_stack : list N;
    t_iters : list (list N);
    t_out : list yielded;
  }.

  (** how the generator ends: exhausted, SCCError with its component, or
      another exception *)
  Inductive tres := TDone (s : tstate) | TScc (s : tstate) (comp : list N) | TRaise (e : exn).

  (** 54-61 insert_node *)
  Definition insert_node (s : tstate) (n : N) : tstate :=
    TState (t_counter s + 1) (<[n := t_counter s]> (t_low s)) (<[n := t_counter s]> (t_index s))
           (n :: t_stack s) (succ n :: t_iters s) (t_out s).

  Definition ynode (n : N) : yielded := if single then YNode n else YTuple [n].

  (** 100-107, the loop popping a component; [inl] when left by break, [inr] when
      the stack ran out *)
  Fixpoint pop_scc (stack : list N) (low index : gmap N Z) (comp : list N)
      : res (bool * list N * gmap N Z * list N) :=
    match stack with
    | [] => Ok (false, [], low, comp)
    | nd :: stack =>
      match low !! nd, index !! nd with
      | Some ll, Some ix =>
        if decide (0 < ll) then
          if decide (ll = ix) then Ok (true, stack, <[nd := - ll]> low, comp ++ [nd])
          else pop_scc stack (<[nd := - ll]> low) index (comp ++ [nd])
        else Err AssertionError
      | _, _ => Err KeyError
      end
    end.

  (** 66-127, one round of the while loop or one element of the inner for loop
      per unit of fuel *)
  Fixpoint topo_loop (fuel : nat) (s : tstate) : tres :=
    match fuel with
    | O => TRaise OutOfFuel
    | S fuel =>
      match t_stack s, t_iters s with
      | node :: stack, (successor :: it) :: iters =>
        (* 68-76 *)
        let s' := TState (t_counter s) (t_low s) (t_index s) (t_stack s) (it :: iters) (t_out s) in
        match t_low s !! successor with
        | None => topo_loop fuel (insert_node s' successor)
        | Some sll =>
          if decide (sll < 0) then topo_loop fuel s'
          else
            match t_low s !! node with
            | Some ll => topo_loop fuel (TState (t_counter s) (<[node := Z.min ll sll]> (t_low s)) (t_index s)
                                                (t_stack s) (it :: iters) (t_out s))
            | None => TRaise KeyError
            end
        end
      | node :: stack, [] :: iters =>
        (* 79-127; child_node and node are both the popped node *)
        match t_low s !! node, t_index s !! node with
        | Some ll, Some ix =>
          let low := <[node := Z.min ll ll]> (t_low s) in
          let ll := Z.min ll ll in
          match stack with
          | [] =>
            (* 87-94 *)
            if decide (0 < ll) then
              TDone (TState (t_counter s) (<[node := - ll]> low) (t_index s) stack iters (t_out s ++ [ynode node]))
            else TRaise AssertionError
          | _ =>
            if decide (ll < ix) then
              (* 97-118 *)
              if decide (0 < ll) then
                match pop_scc stack (<[node := - ll]> low) (t_index s) [node] with
                | Err e => TRaise e
                | Ok (true, stack, low, comp) =>
                  let s' := TState (t_counter s) low (t_index s) stack iters in
                  if single then TScc (s' (t_out s)) comp
                  else topo_loop fuel (s' (t_out s ++ [YTuple comp]))
                | Ok (false, stack, low, comp) =>
                  TDone (TState (t_counter s) low (t_index s) stack iters (t_out s ++ [YTuple comp]))
                end
              else TRaise AssertionError
            else if decide (ll = ix) then
              (* 120-126 *)
              if decide (0 < ll) then
                topo_loop fuel (TState (t_counter s) (<[node := - ll]> low) (t_index s) stack iters (t_out s ++ [ynode node]))
              else TRaise AssertionError
            else
              topo_loop fuel (TState (t_counter s) low (t_index s) stack iters (t_out s))
          end
        | _, _ => TRaise KeyError
        end
      | _, _ => TRaise IndexError
      end
    end.

  (** 50-127 strongconnect *)
  Definition strongconnect (fuel : nat) (s : tstate) (node : N) : tres :=
    match t_low s !! node with
    | Some _ => TDone s
    | None => topo_loop fuel (insert_node s node)
    end.

  (** 128-131; the state survives between the starting nodes *)
  Fixpoint topo_nodes (fuel : nat) (s : tstate) (nodes : list N) : tres :=
    match nodes with
    | [] => TDone s
    | n :: nodes =>
      match strongconnect fuel s n with
      | TDone s => topo_nodes fuel s nodes
      | r => r
      end
    end.

  (** 32-131 topological_sort: everything yielded, and how it ended *)
  Definition topo_init : tstate := TState 1 ∅ ∅ [] [] [].
  Definition topological_sort (fuel : nat) (nodes : list N) : res (list yielded * option (list N)) :=
    match topo_nodes fuel topo_init nodes with
    | TDone s => Ok (t_out s, None)
    | TScc s comp => Ok (t_out s, Some comp)
    | TRaise e => Err e
    end.
End model.
Arguments YNode {N} _. Arguments YTuple {N} _.
