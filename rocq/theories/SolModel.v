(** Model of the bookkeeping of solutions in /repo/phasor/system/solver_algorithm.py:
    the initial state 75-90, _perturbation_iterate 318-399 (what it reads and stores),
    driven_solution_get 427-510, coupling_solution_get 512-576, solve 578-613.
    A perturbative solution is computed from the previous one by [step], the solution of
    another readout set by [full], a coupling matrix by [couple]; [conv] is the test
    delta_v < max_epsilon.  These stand for the matrix generation and inversion (GraphModel
    and InjModel) and are assumed not to raise; the warning print is not modelled. *)
From stdpp Require Import base tactics list numbers gmap fin_sets.
From Verif Require Import Py.
Local Open Scope Z_scope.

Section sol.
  Context {S T C R D : Type} `{Countable R} `{Countable D}.
  Context (init : S) (step : S -> S) (conv : S -> bool) (full : R -> S -> T) (couple : D -> R -> S -> C).
  (** system.max_N, system.exact_order *)
  Context (max_N : Z) (exact_order : option Z).

  (** one dict of driven_solution_bunches: the entry 'perturbative' and the others *)
  Record ent := Ent { e_pert : option S; e_read : gmap R T }.
  (** what was computed, in order: not in the code, used to state that nothing is
      computed twice *)
  Inductive event := EvP (i : nat) | EvR (r : R) (i : nat) | EvC (d : D) (r : R) (k : Z).
  Record st := St { bun : list ent; coup : gmap Z (gmap (D * R) C); log : list event }.
  Definition st0 : st := St [Ent (Some init) ∅] ∅ [].
  Definition len (s : st) : Z := Z.of_nat (length (bun s)).

  (** list[N]: negative indices count from the end *)
  Definition idx (s : st) (N : Z) : res nat :=
    if decide (0 <= N < len s) then Ok (Z.to_nat N)
    else if decide (- len s <= N < 0) then Ok (Z.to_nat (len s + N))
    else Err IndexError.
  Definition push (s : st) : st := St (bun s ++ [Ent None ∅]) (coup s) (log s).
  Definition set_pert (s : st) (i : nat) (v : S) : st :=
    St (alter (fun e => Ent (Some v) (e_read e)) i (bun s)) (coup s) (log s ++ [EvP i]).
  Definition set_read (s : st) (i : nat) (r : R) (v : T) : st :=
    St (alter (fun e => Ent (e_pert e) (<[r := v]> (e_read e))) i (bun s)) (coup s) (log s ++ [EvR r i]).

  Section rec.
    (** _perturbation_iterate, given driven_solution_get('perturbative', .) *)
    Context (get : st -> Z -> res (st * S)).
    Definition iterate (s : st) (N : Z) : res (st * S) :=
      '(s, prev) ← get s (N - 1);
      let v := step prev in
      i ← idx s N;
      Ok (set_pert s i v, v).
    (** the while loops of 581-583 and 593-607 *)
    Fixpoint sloop (fuel : nat) (to_order : Z) (may_stop : bool) (s : st) : res st :=
      match fuel with
      | O => Err OutOfFuel
      | Datatypes.S fuel =>
          if decide (len s <= to_order) then
            let s := push s in
            '(s, v) ← iterate s (len s - 1);
            if may_stop && conv v then Ok s else sloop fuel to_order may_stop s
          else Ok s
      end.
    Definition solve_with (fuel : nat) (s : st) (order : option Z) : res st :=
      match exact_order with
      | Some x => s ← sloop fuel x false s; Ok (push s)
      | None =>
          let to_order := match order with Some o => o | None => max_N end in
          s ← sloop fuel to_order (match order with None => true | Some _ => false end) s;
          Ok (if decide (len s = to_order) then push s else s)
      end.
    (** the first lines of driven_solution_get 428-441: which dict is meant *)
    Definition locate (fuel : nat) (s : st) (N : option Z) : res (st * Z * nat) :=
      '(s, N) ← match N with
                | None => s ← (if decide (len s = 1) then solve_with fuel s None else Ok s); Ok (s, len s - 1)
                | Some N => Ok (s, if decide (N < 0) then len s + N else N)
                end;
      s ← (if decide (N < len s) then Ok s else solve_with fuel s (Some N));
      i ← idx s N;
      Ok (s, N, i).
  End rec.

  (** driven_solution_get with readout_set = 'perturbative' *)
  Fixpoint pget (fuel : nat) (s : st) (N : option Z) : res (st * S) :=
    match fuel with
    | O => Err OutOfFuel
    | Datatypes.S fuel =>
        let get := fun s N => pget fuel s (Some N) in
        '(s, N, i) ← locate get fuel s N;
        match bun s !! i with
        | Some (Ent (Some v) _) => Ok (s, v)
        | _ => iterate get s N
        end
    end.
  (** driven_solution_get with another readout set *)
  Definition dget (fuel : nat) (s : st) (r : R) (N : option Z) : res (st * T) :=
    let get := fun s N => pget fuel s (Some N) in
    '(s, N, i) ← locate get fuel s N;
    match (e_read <$> bun s !! i) ≫= (.!! r) with
    | Some v => Ok (s, v)
    | None => '(s, prev) ← get s (N - 1); Ok (set_read s i r (full r prev), full r prev)
    end.
  Definition solve (fuel : nat) (s : st) (order : option Z) : res st :=
    solve_with (fun s N => pget fuel s (Some N)) fuel s order.
  (** coupling_solution_get *)
  Definition cget (fuel : nat) (s : st) (d : D) (r : R) (N : option Z) : res (st * C) :=
    '(s, N) ← match N with
              | None => s ← (if decide (len s = 1) then solve fuel s None else Ok s); Ok (s, len s - 1)
              | Some N => Ok (s, if decide (N <= 0) then len s + N else N)
              end;
    match default ∅ (coup s !! N) !! (d, r) with
    | Some c => Ok (s, c)
    | None =>
        '(s, prev) ← pget fuel s (Some (N - 1));
        let c := couple d r prev in
        Ok (St (bun s) (<[N := <[(d, r) := c]> (default ∅ (coup s !! N))]> (coup s)) (log s ++ [EvC d r N]), c)
    end.

  (** a program using the solver; an exception ends it *)
  Inductive op := Solve (order : option Z) | Pert (N : option Z) | Driven (r : R) (N : option Z)
    | Coupling (d : D) (r : R) (N : option Z).
  Inductive answer := ADone | APert (v : S) | ADriven (v : T) | ACoupling (v : C).
  Definition exec (fuel : nat) (s : st) (o : op) : res (st * answer) :=
    match o with
    | Solve order => s ← solve fuel s order; Ok (s, ADone)
    | Pert N => '(s, v) ← pget fuel s N; Ok (s, APert v)
    | Driven r N => '(s, v) ← dget fuel s r N; Ok (s, ADriven v)
    | Coupling d r N => '(s, v) ← cget fuel s d r N; Ok (s, ACoupling v)
    end.
  Definition run (fuel : nat) (os : list op) (s : st) : res st :=
    mfor (fun s o => '(s, _) ← exec fuel s o; Ok s) os s.
End sol.
