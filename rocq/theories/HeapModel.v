(** Model of phasor/utilities/priority_queue/heap_priority_queue.py together with
    the CPython standard library algorithms it calls (Lib/heapq.py: heappush,
    heappop, heapreplace, heappushpop, heapify, _siftdown, _siftup, transcribed
    from the pure-Python version; the C accelerator does the same swaps). *)
From stdpp Require Import base tactics list numbers.
From Verif Require Import Fld Py.

Section model.
  Context {A : Type}.
  (** Python's [<] on the queued items *)
  Context (lt : A -> A -> bool).

  (** [l[i]] *)
  Definition l_get (h : list A) (i : nat) : res A :=
    match h !! i with Some x => Ok x | None => Err IndexError end.

  (** heapq._siftdown(heap, startpos, pos) after [newitem = heap[pos]]: while pos >
      startpos, move the parent down if newitem < parent. [fuel] bounds the
      iterations (pos strictly decreases). *)
  Fixpoint siftdown_loop (fuel startpos pos : nat) (new : A) (h : list A) : res (list A) :=
    match fuel with
    | O => Err OutOfFuel
    | S fuel =>
      if decide (startpos < pos) then
        let parentpos := (pos - 1) / 2 in
        parent ← l_get h parentpos;
        if lt new parent then siftdown_loop fuel startpos parentpos new (<[pos := parent]> h)
        else Ok (<[pos := new]> h)
      else Ok (<[pos := new]> h)
    end.
  Definition siftdown (startpos pos : nat) (h : list A) : res (list A) :=
    new ← l_get h pos;
    siftdown_loop (S pos) startpos pos new h.

  (** heapq._siftup(heap, pos): bubble the smaller child up until hitting a leaf,
      then sift the item down from there. *)
  Fixpoint siftup_loop (fuel pos : nat) (new : A) (h : list A) : res (nat * list A) :=
    match fuel with
    | O => Err OutOfFuel
    | S fuel =>
      let childpos := 2 * pos + 1 in
      if decide (childpos < length h) then
        let rightpos := childpos + 1 in
        c ← l_get h childpos;
        cc ← (if decide (rightpos < length h) then
                r ← l_get h rightpos;
                Ok (if lt c r then (childpos, c) else (rightpos, r))
              else Ok (childpos, c));
        siftup_loop fuel cc.1 new (<[pos := cc.2]> h)
      else Ok (pos, <[pos := new]> h)
    end.
  Definition siftup (pos : nat) (h : list A) : res (list A) :=
    new ← l_get h pos;
    ph ← siftup_loop (S (length h)) pos new h;
    siftdown pos ph.1 ph.2.

  (** heapq.heappush *)
  Definition heappush (h : list A) (x : A) : res (list A) :=
    siftdown 0 (length h) (h ++ [x]).
  (** [heap.pop()] on a list *)
  Fixpoint split_last (h : list A) : option (list A * A) :=
    match h with
    | [] => None
    | x :: h => match split_last h with None => Some ([], x) | Some (i, l) => Some (x :: i, l) end
    end.
  (** heapq.heappop *)
  Definition heappop (h : list A) : res (A * list A) :=
    match split_last h with
    | None => Err IndexError
    | Some (h, lastelt) =>
      match h with
      | [] => Ok (lastelt, [])
      | ret :: _ => h ← siftup 0 (<[0 := lastelt]> h); Ok (ret, h)
      end
    end.
  (** heapq.heapreplace *)
  Definition heapreplace (h : list A) (x : A) : res (A * list A) :=
    ret ← l_get h 0;
    h ← siftup 0 (<[0 := x]> h);
    Ok (ret, h).
  (** heapq.heappushpop *)
  Definition heappushpop (h : list A) (x : A) : res (A * list A) :=
    match h with
    | [] => Ok (x, h)
    | top :: _ =>
      if lt top x then h ← siftup 0 (<[0 := x]> h); Ok (top, h)
      else Ok (x, h)
    end.
  (** heapq.heapify: [for i in reversed(range(n//2)): _siftup(x, i)] *)
  Definition heapify (h : list A) : res (list A) :=
    mfor (fun h i => siftup i h) (rev (seq 0 (length h / 2))) h.

  (** ** the queue objects *)
  Inductive pq_op := Push (x : A) | Pop | Replace (x : A) | PushPop (x : A) | Peek | IsEmpty | Bool | Len.
  Inductive pq_out := Item (x : A) | Nothing | Truth (b : bool) | Size (n : nat) | Raised (e : exn).

  (** an operation that raises leaves the heap as it was: heapq raises its
      IndexErrors before touching the list *)
  Definition out_item (h : list A) (r : res (A * list A)) : pq_out * list A :=
    match r with Ok (x, h') => (Item x, h') | Err e => (Raised e, h) end.
  Definition out_unit (h : list A) (r : res (list A)) : pq_out * list A :=
    match r with Ok h' => (Nothing, h') | Err e => (Raised e, h) end.
  (** [except IndexError: raise Empty()] *)
  Definition to_empty {B} (r : res B) : res B :=
    match r with Err IndexError => Err EmptyError | _ => r end.

  (** heap_priority_queue.py:44-96 HeapPriorityQueue *)
  Definition pq_step (h : list A) (o : pq_op) : pq_out * list A :=
    match o with
    | Push x => out_unit h (heappush h x)
    | Pop => out_item h (to_empty (heappop h))
    | Replace x => out_item h (heapreplace h x)
    | PushPop x => out_item h (heappushpop h x)
    | Peek => match to_empty (l_get h 0) with Ok x => (Item x, h) | Err e => (Raised e, h) end
    | IsEmpty => (Truth (bool_decide (h = []) ), h)
    | Bool => (Truth (bool_decide (h <> [])), h)
    | Len => (Size (length h), h)
    end.

  (** heap_priority_queue.py:134-180 HeapPriorityQueueThreadsafe, one thread at a
      time: line 179 calls heapq.pushpop, which does not exist; the class has
      neither __bool__ (objects are then true) nor __len__ (len() raises). *)
  Definition tpq_step (h : list A) (o : pq_op) : pq_out * list A :=
    match o with
    | Push x => out_unit h (heappush h x)
    | Pop => out_item h (to_empty (heappop h))
    | Replace x => out_item h (heapreplace h x)
    | PushPop x => (Raised AttributeError, h)
    | Peek => match to_empty (l_get h 0) with Ok x => (Item x, h) | Err e => (Raised e, h) end
    | IsEmpty => (Truth (bool_decide (h = [])), h)
    | Bool => (Truth true, h)
    | Len => (Raised TypeError, h)
    end.

  (** a history of operations, outputs collected in order *)
  Fixpoint pq_run (step : list A -> pq_op -> pq_out * list A) (h : list A) (ops : list pq_op)
      : list pq_out * list A :=
    match ops with
    | [] => ([], h)
    | o :: ops => let '(out, h) := step h o in
                  let '(outs, h) := pq_run step h ops in (out :: outs, h)
    end.

  (** heap_priority_queue.py:36-42 / 118-125 *)
  Definition pq_init (iterable : list A) : res (list A) := heapify iterable.
End model.
Arguments Push {A} _. Arguments Pop {A}. Arguments Replace {A} _. Arguments PushPop {A} _.
Arguments Peek {A}. Arguments IsEmpty {A}. Arguments Bool {A}. Arguments Len {A}.
Arguments Item {A} _. Arguments Nothing {A}. Arguments Truth {A} _. Arguments Size {A} _. Arguments Raised {A} _.
