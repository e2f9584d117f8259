(** Model of phasor/matrix/SRE_matrix_algorithms.py (sparse matrices held as a
    triple of successor sets, predecessor sets and edge values) and of
    stackrange in phasor/matrix/linalg.py. *)
From stdpp Require Import base tactics list numbers gmap fin_sets option.
From Verif Require Import Fld Py GraphModel.
Local Open Scope fld_scope.

Section model.
  Context {K : fld} {N : Type} `{Countable N}.
  Notation sre := (graph K N).
  (** the order in which Python iterates a set or the keys of a dict *)
  Context (enum : gset N -> list N).

  (** [d[k]] where [d] is a defaultdict(set) or a plain dict of sets *)
  Definition dd_get (dflt : bool) (m : gmap N (gset N)) (k : N) : res (gset N) :=
    match m !! k with
    | Some s => Ok s
    | None => if dflt then Ok ∅ else Err KeyError
    end.

  (** [d.setdefault(k, set())] *)
  Definition ds_setdefault (m : gmap N (gset N)) (k : N) : gmap N (gset N) :=
    <[k := ds_get m k]> m.

  (** SRE_matrix_algorithms.py:44-52 check_sre.  The operands of the lookups in
      [seq]/[req] are the plain dicts of the result of matrix_mult_sre. *)
  Definition check_sre (g : sre) : res unit :=
    _ ← mfor (fun _ node =>
                mfor (fun _ rnode =>
                        s ← dd_get false (g_seq g) rnode;
                        if decide (node ∈ s) then Ok tt else Err AssertionError)
                     (enum (ds_get (g_req g) node)) tt)
             (enum (dom (g_req g))) tt;
    mfor (fun _ node =>
            mfor (fun _ snode =>
                    s ← dd_get false (g_req g) snode;
                    if decide (node ∈ s) then
                      _ ← d_get (g_em g) (node, snode); Ok tt
                    else Err AssertionError)
                 (enum (ds_get (g_seq g) node)) tt)
         (enum (dom (g_seq g))) tt.

  (** SRE_matrix_algorithms.py:30-39, the innermost loop body.  The test on line
      31 compares with the very set being iterated. *)
  Definition mult_to (s2 : sre) (k_mid k_from : N) (e1 : K) (g : sre) (k_to : N) : res sre :=
    if decide (k_to ∈ ds_get (g_seq s2) k_mid) then
      e2 ← d_get (g_em s2) (k_mid, k_to);
      if decide (k_to ∈ ds_get (g_seq g) k_from) then
        old ← d_get (g_em g) (k_from, k_to);
        Ok (Graph (g_seq g) (g_req g) (<[(k_from, k_to) := old + e2 * e1]> (g_em g)))
      else
        Ok (Graph (ds_add (g_seq g) k_from k_to) (ds_add (g_req g) k_to k_from)
                  (<[(k_from, k_to) := e2 * e1]> (g_em g)))
    else Ok g.

  (** SRE_matrix_algorithms.py:27-39 *)
  Definition mult_from (s1 s2 : sre) (k_mid : N) (g : sre) (k_from : N) : res sre :=
    e1 ← d_get (g_em s1) (k_from, k_mid);
    mfor (mult_to s2 k_mid k_from e1) (enum (ds_get (g_seq s2) k_mid))
         (Graph (ds_setdefault (g_seq g) k_from) (g_req g) (g_em g)).

  (** SRE_matrix_algorithms.py:24-39 *)
  Definition mult_mid (dflt : bool) (s1 s2 : sre) (g : sre) (k_mid : N) : res sre :=
    if decide (ds_get (g_seq s2) k_mid = ∅) then Ok g
    else
      r ← dd_get dflt (g_req s1) k_mid;
      mfor (mult_from s1 s2 k_mid) (enum r) g.

  (** SRE_matrix_algorithms.py:16-42 matrix_mult_sre.  [dflt]: whether the first
      operand's [req] is a defaultdict(set) (copy_sre, the solvers) or a plain
      dict (adjoint_sre, matrix_mult_sre itself).  The empty entry that a lookup
      in a defaultdict leaves behind in the operand is not modelled. *)
  Definition matrix_mult (dflt : bool) (s1 s2 : sre) : res sre :=
    g ← mfor (mult_mid dflt s1 s2) (enum (dom (g_seq s2))) (Graph ∅ ∅ ∅);
    _ ← check_sre g;
    Ok g.

  (** SRE_matrix_algorithms.py:54-63 copy_sre *)
  Definition copy_sre (s : sre) : sre := Graph (g_seq s) (g_req s) (g_em s).

  (** SRE_matrix_algorithms.py:140-151 adjoint_sre; [conj] is [.conjugate()] *)
  Definition adjoint_sre (conj : K -> K) (s : sre) : sre :=
    Graph (g_req s) (g_seq s)
          (kmap (fun k : N * N => (k.2, k.1)) (conj <$> g_em s)).
End model.

(** ** linalg.py:10-39 stackrange.
    The generator holds a stack of iterators and a stack of tuple prefixes; an
    iterator is modelled by the list of the values it has still to give, so the
    stacks are kept innermost first.  [rest] holds the ranges after the
    innermost one on the stack, i.e. rangestack[len(iterstack):].  Every pass of
    the loops either consumes a value or pops an iterator; [fuel] bounds the
    passes.  Integer arguments have already been turned into lists (10-18). *)
Section stackrange.
  Context {A : Type}.
  Fixpoint sr_loop (fuel : nat) (rs : list (list A)) (its : list (list A)) (tups : list (list A))
      (out : list (list A)) : res (list (list A)) :=
    match fuel with
    | O => Err OutOfFuel
    | S fuel =>
      match its with
      | [] => Ok out                                    (* 34-35 *)
      | it :: its' =>
        match drop (length its) rs with
        | nxt :: _ =>                                   (* 24: len(iterstack) < len(rangestack) *)
          match it with
          | [] => sr_loop fuel rs its' (tail tups) out    (* 31-33 *)
          | v :: it' =>
            match tups with
            | [] => Err IndexError
            | tup :: _ => sr_loop fuel rs (nxt :: it' :: its') ((tup ++ [v]) :: tups) out
            end
          end
        | [] =>                                         (* 37-39 *)
          match tups with
          | [] => Err IndexError
          | tup :: tups' => sr_loop fuel rs its' tups' (out ++ ((fun v => tup ++ [v]) <$> it))
          end
        end
      end
    end.

  (** linalg.py:21-22: [rangestack[0]] raises IndexError on an empty argument *)
  Definition stackrange (fuel : nat) (rs : list (list A)) : res (list (list A)) :=
    match rs with
    | [] => Err IndexError
    | r :: _ => sr_loop fuel rs [r] [[]] []
    end.
End stackrange.
