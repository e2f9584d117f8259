(** Model of /repo/phasor/base/dictionary_keys.py (DictKey 8-139, FrequencyKey
    142-236) and of the frequency-order tests and frequency extraction in
    /repo/phasor/system/system.py 227-277.

    A Python dict is its list of items in insertion order, with distinct keys
    (the well-formedness [d_wf]).  Names of DictKey entries are strings (the
    keyword-argument constructors accept nothing else), here any type with a
    strict total order; values any type with decidable equality. *)
From stdpp Require Import base tactics list numbers.
From Verif Require Import Py.

Section dicts.
  Context {K V : Type} `{EqDecision K} `{EqDecision V}.

  Definition dict := list (K * V).

  Definition d_wf (d : dict) : Prop := NoDup d.*1.

  (** [d.get(k)] / [k in d] *)
  Fixpoint d_get (d : dict) (k : K) : option V :=
    match d with
    | [] => None
    | (k', v) :: d => if decide (k = k') then Some v else d_get d k
    end.

  (** [d[k]] *)
  Definition d_item (d : dict) (k : K) : res V :=
    match d_get d k with Some v => Ok v | None => Err KeyError end.

  (** [d[k] = v]: overwrites in place or appends *)
  Fixpoint d_set (d : dict) (k : K) (v : V) : dict :=
    match d with
    | [] => [(k, v)]
    | (k', v') :: d => if decide (k = k') then (k', v) :: d else (k', v') :: d_set d k v
    end.

  (** [del d[k]] *)
  Fixpoint d_del (d : dict) (k : K) : res dict :=
    match d with
    | [] => Err KeyError
    | (k', v') :: d => if decide (k = k') then Ok d else d ← d_del d k; Ok ((k', v') :: d)
    end.

  (** [d.update(e)] *)
  Definition d_update (d e : dict) : dict := foldl (fun d kv => d_set d kv.1 kv.2) d e.

  (** [d == e] on dicts: same length and every item of [d] found in [e] *)
  Definition d_eq (d e : dict) : bool :=
    bool_decide (length d = length e) && forallb (fun kv => bool_decide (d_get e kv.1 = Some kv.2)) d.

  (** DictKey.__init__ 10-13: keyword arguments, then update by the positional one *)
  Definition dk_new (kwargs : dict) (arg : option dict) : dict :=
    match arg with Some a => d_update kwargs a | None => kwargs end.

  (** copy_update 15-18 *)
  Definition dk_copy_update (d kwargs : dict) : dict := dk_new (d_update d kwargs) None.

  (** get 36-39 without / with a default *)
  Definition dk_get (d : dict) (k : K) : res V := d_item d k.
  Definition dk_get_default (d : dict) (k : K) (v : V) : V := default v (d_get d k).

  (** __eq__ 44-47 (both operands DictKeys) *)
  Definition dk_eq (a b : dict) : bool := d_eq a b.

  (** __or__ 65-68 *)
  Definition dk_or (a b : dict) : dict := dk_new [] (Some (d_update a b)).

  (** kv_contains 73-75 *)
  Definition dk_kv_contains (d : dict) (k : K) (v : V) : bool := bool_decide (d_get d k = Some v).

  (** __and__ 77-88 *)
  Definition dk_and (a b : dict) : dict :=
    let '(larger, smaller) := if decide (length b < length a) then (a, b) else (b, a) in
    dk_new (foldl (fun nd kv => if dk_kv_contains larger kv.1 kv.2 then d_set nd kv.1 kv.2 else nd) [] smaller) None.

  (** contains 90-94 *)
  Definition dk_contains (d other : dict) : bool :=
    forallb (fun kv => dk_kv_contains d kv.1 kv.2) other.

  (** without_keys 96-100 *)
  Definition dk_without_keys (d : dict) (ks : list K) : res dict :=
    d ← mfor d_del ks d; Ok (dk_new d None).

  (** purge_keys 102-109 *)
  Definition dk_purge_keys (d : dict) (ks : list K) : dict :=
    dk_new (foldl (fun cp k => match d_del cp k with Ok cp => cp | Err _ => cp end) d ks) None.

  (** replace_keys 111-119 *)
  Definition dk_replace_keys (d key_dict : dict) (more : list dict) : dict :=
    dk_new (foldl d_update (d_update d key_dict) more) None.

  (** subkey_has 121-129 *)
  Definition dk_subkey_has (d other : dict) : bool :=
    forallb (fun kv => match d_get d kv.1 with Some v2 => bool_decide (kv.2 = v2) | None => false end) other.

  (** __sub__ 131-136 *)
  Definition dk_sub (a b : dict) : res dict :=
    d ← mfor (fun cp kv =>
           v ← d_item cp kv.1;
           if decide (v = kv.2) then d_del cp kv.1 else Err AssertionError) b a;
    Ok (dk_new [] (Some d)).
End dicts.
Arguments dict : clear implicits.

(** [sorted]: Python's sort is a stable comparison sort that only uses [<];
    modelled as insertion sort. *)
Section sorting.
  Context {A : Type} (lt : A -> A -> bool).
  Fixpoint insert_sorted (x : A) (l : list A) : list A :=
    match l with
    | [] => [x]
    | y :: l => if lt y x then y :: insert_sorted x l else x :: y :: l
    end.
  Definition sorted (l : list A) : list A := foldr insert_sorted [] l.
  (** tuple comparison [l1 < l2] *)
  Fixpoint tuple_lt `{EqDecision A} (l1 l2 : list A) : bool :=
    match l1, l2 with
    | _, [] => false
    | [], _ :: _ => true
    | x :: l1, y :: l2 => if decide (x = y) then tuple_lt l1 l2 else lt x y
    end.
End sorting.

Section hashing.
  Context {K V : Type} `{EqDecision K} `{EqDecision V}.
  Context (klt : K -> K -> bool) (vlt : V -> V -> bool).

  (** comparison of the pairs (k, v) *)
  Definition item_lt (x y : K * V) : bool :=
    if decide (x.1 = y.1) then (if decide (x.2 = y.2) then false else vlt x.2 y.2) else klt x.1 y.1.

  (** the tuple hashed by __hash__ 26 *)
  Definition dk_hash_tuple (d : dict K V) : list (K * V) := sorted item_lt d.

  (** the object with its prev_hash slot; __hash__ 21-28 for a hash function on tuples *)
  Record dkobj := DKObj { dk_dict : dict K V; dk_prev_hash : option Z }.
  Definition dk_hash (hash : list (K * V) -> Z) (o : dkobj) : Z * dkobj :=
    match dk_prev_hash o with
    | Some h => (h, o)
    | None => let h := hash (dk_hash_tuple (dk_dict o)) in (h, DKObj (dk_dict o) (Some h))
    end.

  (** __lt__ 49-55: both tuples are computed from [self] *)
  Definition dk_lt (a b : dict K V) : bool :=
    let l1 := sorted item_lt a in
    let o1 := sorted item_lt a in
    tuple_lt item_lt l1 o1.
End hashing.

Section frequency.
  (** base frequency objects, ordered by [id] (bases.py 114-118) *)
  Context {F : Type} `{EqDecision F} (flt : F -> F -> bool).

  Notation fkey := (dict F Z).

  (** DC_is 147-148 *)
  Definition fk_DC_is (k : fkey) : bool := match k with [] => true | _ => false end.
  (** hash_tuple 162-168 (the prev_tup cache is not modelled) *)
  Definition fk_hash_tuple (k : fkey) : list (F * Z) :=
    sorted (item_lt flt Z.ltb) (filter (fun fn => fn.2 <> 0%Z) k).
  (** __eq__ 170-173 *)
  Definition fk_eq (a b : fkey) : bool := d_eq a b.
  (** __getitem__ 175-176 *)
  Definition fk_item (k : fkey) (f : F) : res Z := d_item k f.

  (** frequency 178-184: values in Hz are integers here only up to scaling; the
      carrier is any commutative sum given by [madd], [mscale], [mzero] *)
  Definition fk_frequency {M} (mzero : M) (madd : M -> M -> M) (mscale : M -> Z -> M)
      (Hz : F -> M) (k : fkey) : M :=
    foldl (fun s fn => if decide (fn.2 <> 0%Z) then madd s (mscale (Hz fn.1) fn.2) else s) mzero k.

  (** system.py classical_frequency_extract 272-277 *)
  Definition classical_frequency_extract {M} (mzero : M) (madd : M -> M -> M) (mscale : M -> Z -> M)
      (Hz : F -> M) (k : fkey) : M :=
    foldl (fun s fn => madd s (mscale (Hz fn.1) fn.2)) mzero k.

  Definition fk_combine (op : Z -> Z -> Z) (a b : fkey) : fkey :=
    foldl (fun d fn =>
      let current_idx := default 0%Z (d_get a fn.1) in
      let new_idx := op current_idx fn.2 in
      if decide (new_idx = 0%Z /\ is_Some (d_get d fn.1)) then
        match d_del d fn.1 with Ok d => d | Err _ => d end
      else d_set d fn.1 new_idx) a b.
  (** __add__ 205-214, __sub__ 216-225 *)
  Definition fk_add (a b : fkey) : fkey := fk_combine Z.add a b.
  Definition fk_sub (a b : fkey) : fkey := fk_combine Z.sub a b.
  (** __rmul__ 227-231 *)
  Definition fk_rmul (n : Z) (k : fkey) : fkey := foldl (fun d fn => d_set d fn.1 (n * fn.2)%Z) [] k.
  (** __neg__ 233-238 *)
  Definition fk_neg (k : fkey) : fkey :=
    foldl (fun d fn => d_set d fn.1 (- default 0 (d_get k fn.1))%Z) [] k.

  (** system.py reject_classical_frequency_order 227-245; [order F] is F.order,
      [dflt] freq_order_max_default.  The group loop runs over an empty dict. *)
  Fixpoint reject_classical (order : F -> option Z) (dflt : Z) (k : fkey) : bool :=
    match k with
    | [] => false
    | (f, n) :: k =>
        let limit := default dflt (order f) in
        if decide (limit < Z.abs n)%Z then true else reject_classical order dflt k
    end.

  (** system.py reject_optical_frequency_order 247-270 *)
  Fixpoint reject_optical_loop (order : F -> option Z) (k : fkey) : bool :=
    match k with
    | [] => false
    | (f, n) :: k =>
        let limit := default 2%Z (order f) in
        if decide (limit < n)%Z then true else
        if decide (n < 1)%Z then true else reject_optical_loop order k
    end.
  Definition reject_optical (order : F -> option Z) (k : fkey) : bool :=
    match k with [] => true | _ => reject_optical_loop order k end.
End frequency.
