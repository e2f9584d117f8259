(** Model of /repo/phasor/math/key_matrix/keymatrix.py: KVSpace 14-110, the data
    maps of KeyVectorBase 152-206 and KeyMatrixBase 209-291, the array views of
    KeyVector 294-338 and KeyMatrix 341-451, addition 453-467, subtraction 469-483
    and key_matrix_eye 486-492.  dtype, names, contravariance and the broadcasting
    of array-valued entries (_maxshape 131-149) are not modelled: entries are
    scalars of a field. *)
From stdpp Require Import base tactics list numbers gmap.
From Verif Require Import Fld Py KeysModel.

Section kvspace.
  Context {K : Type} `{Countable K}.
  (** [list(set)] followed by [sort] with the keys' own '<': the resulting order is a
      parameter, any listing of the set *)
  Context (listing : gset K -> list K).

  (** _key_set and _key_map_inverse (None while not frozen); _key_map is the map
      from the entries of the latter to their index *)
  Record kvspace := KVS { ks_set : gset K; ks_list : option (list K) }.

  (** freeze 64-80 *)
  Definition kvs_freeze (s : kvspace) : kvspace :=
    match ks_list s with
    | Some _ => s
    | None => KVS (ks_set s) (Some (listing (ks_set s)))
    end.

  (** __init__ 19-37 *)
  Definition kvs_new (keys : list K) (frozen : bool) : kvspace :=
    let s := KVS (list_to_set keys) None in if frozen then kvs_freeze s else s.

  (** keys_add 85-92: [None] is success *)
  Definition kvs_keys_add (s : kvspace) (args : list K) : res kvspace :=
    match ks_list s with
    | Some _ => mfor (fun s key => if decide (key ∈ ks_set s) then Ok s else Err RuntimeError) args s
    | None => Ok (KVS (ks_set s ∪ list_to_set args) None)
    end.

  (** position in the list: the dict built by enumerate 68-70 *)
  Fixpoint index_of (l : list K) (k : K) : option nat :=
    match l with
    | [] => None
    | k' :: l => if decide (k = k') then Some 0 else S <$> index_of l k
    end.

  (** key_map 101-103 *)
  Definition kvs_key_map (s : kvspace) (k : K) : res nat * kvspace :=
    let s := kvs_freeze s in
    (match ks_list s with
     | Some l => match index_of l k with Some i => Ok i | None => Err KeyError end
     | None => Err AttributeError end, s).

  (** idx_map 105-107, with NumPy's negative indices *)
  Definition np_index {A} (l : list A) (i : Z) : res A :=
    let n := Z.of_nat (length l) in
    let j := if decide (i < 0)%Z then (i + n)%Z else i in
    if decide (j < 0)%Z then Err IndexError else
    match l !! Z.to_nat j with Some a => Ok a | None => Err IndexError end.
  Definition kvs_idx_map (s : kvspace) (i : Z) : res K * kvspace :=
    let s := kvs_freeze s in
    (match ks_list s with Some l => np_index l i | None => Err AttributeError end, s).

  (** copy 39-44, inverse 46-58 (when not yet cached) *)
  Definition kvs_copy (s : kvspace) : kvspace := KVS (ks_set s) None.
  Definition kvs_inverse (s : kvspace) : kvspace * kvspace :=
    let s := kvs_freeze s in (kvs_freeze (KVS (ks_set s) None), s).

  Inductive kvop := KAdd (ks : list K) | KFreeze | KMap (k : K) | KIdx (i : Z) | KContains (k : K) | KLen.
  Inductive kvout := ONone | OIdx (i : nat) | OKey (k : K) | OBool (b : bool) | OErr (e : exn).
  Definition kvs_step (s : kvspace) (op : kvop) : kvout * kvspace :=
    match op with
    | KAdd ks => match kvs_keys_add s ks with Ok s' => (ONone, s') | Err e => (OErr e, s) end
    | KFreeze => (ONone, kvs_freeze s)
    | KMap k => match kvs_key_map s k with (Ok i, s) => (OIdx i, s) | (Err e, s) => (OErr e, s) end
    | KIdx i => match kvs_idx_map s i with (Ok k, s) => (OKey k, s) | (Err e, s) => (OErr e, s) end
    | KContains k => (OBool (bool_decide (k ∈ ks_set s)), s)
    | KLen => (OIdx (size (ks_set s)), s)
    end.
  Definition kvs_run (s : kvspace) (ops : list kvop) : kvspace :=
    foldl (fun s op => (kvs_step s op).2) s ops.
End kvspace.

(** Arrays: a shape and its entries *)
Record arr1 (V : Type) := Arr1 { a_len : nat; a_at : nat -> V }.
Record arr2 (V : Type) := Arr2 { a_rows : nat; a_cols : nat; a_get : nat -> nat -> V }.
Arguments Arr1 {V} _ _. Arguments a_len {V} _. Arguments a_at {V} _ _.
Arguments Arr2 {V} _ _ _. Arguments a_rows {V} _. Arguments a_cols {V} _. Arguments a_get {V} _ _ _.

Section arrays.
  Context {K1 K2 : Type} `{Countable K1} `{Countable K2} {F : fld}.
  Local Open Scope fld_scope.
  Implicit Types (Lf : list K1) (Lt : list K2).

  (** [vspace.key_map] on a frozen space given by its key list *)
  Definition pos {K} `{Countable K} (L : list K) (k : K) : res nat :=
    match index_of L k with Some i => Ok i | None => Err KeyError end.

  (** KeyVector.array 304-316 (a fresh build) *)
  Definition kv_array (L : list K1) (data : dict K1 F) : res (arr1 F) :=
    mfor (fun a kv => i ← pos L kv.1; Ok (Arr1 (a_len a) (fun j => if decide (j = i) then kv.2 else a_at a j)))
      data (Arr1 (length L) (fun _ => 0)).

  (** KeyVector.backmap_vector 326-338 *)
  Definition nonzero1 (a : arr1 F) : list nat := filter (fun i => a_at a i <> 0) (seq 0 (a_len a)).
  Definition kv_backmap (L : list K1) (a : arr1 F) : res (dict K1 F) :=
    mfor (fun m idx => k ← np_index L (Z.of_nat idx); Ok (d_set m k (a_at a idx))) (nonzero1 a) [].

  (** KeyMatrix.array 371-388 *)
  Definition km_array Lf Lt (data : dict (K1 * K2) F) : res (arr2 F) :=
    mfor (fun a kv =>
       r ← pos Lt kv.1.2; c ← pos Lf kv.1.1;
       Ok (Arr2 (a_rows a) (a_cols a)
             (fun i j => if decide (i = r /\ j = c) then kv.2 else a_get a i j)))
      data (Arr2 (length Lt) (length Lf) (fun _ _ => 0)).
  (** array_T 390-392 *)
  Definition arr2_T (a : arr2 F) : arr2 F := Arr2 (a_cols a) (a_rows a) (fun i j => a_get a j i).

  (** [array.nonzero()] in row-major order *)
  Definition nonzero2 (a : arr2 F) : list (nat * nat) :=
    filter (fun ij => a_get a ij.1 ij.2 <> 0)
      (i ← seq 0 (a_rows a); j ← seq 0 (a_cols a); [(i, j)]).
  (** backmap_array 407-431, two-dimensional arrays *)
  Definition km_backmap Lf Lt (a : arr2 F) : res (dict (K1 * K2) F) :=
    mfor (fun m ij =>
       kf ← np_index Lf (Z.of_nat ij.1); kt ← np_index Lt (Z.of_nat ij.2);
       Ok (d_set m (kf, kt) (a_get a ij.1 ij.2))) (nonzero2 a) [].

  (** __add__ 453-467: [premap = value] overwrites the whole map *)
  Inductive premap := PMap (m : dict (K1 * K2) F) | PVal (v : F).
  Definition km_add (a b : dict (K1 * K2) F) : res premap :=
    mfor (fun pm kv =>
      match pm with
      | PMap m => match d_get m kv.1 with
                  | Some v => Ok (PMap (d_set m kv.1 (v + kv.2)))
                  | None => Ok (PVal kv.2)
                  end
      | PVal _ => Err TypeError
      end) b (PMap a).
  (** __sub__ 469-483 *)
  Definition km_sub (a b : dict (K1 * K2) F) : dict (K1 * K2) F :=
    foldl (fun m kv =>
      match d_get m kv.1 with
      | Some v => d_set m kv.1 (v - kv.2)
      | None => d_set m kv.1 (- kv.2)
      end) a b.

  (** KeyVectorBase.add_by 187-195 on a key already admitted by the space *)
  Definition kv_add_by (m : dict K1 F) (k : K1) (v : F) : dict K1 F :=
    match d_get m k with Some w => d_set m k (w + v) | None => d_set m k v end.
End arrays.

(** key_matrix_eye 486-492 on a frozen space, [it] the set's iteration order *)
Definition km_eye {K} `{Countable K} {F : fld} (it : list K) : dict (K * K) F :=
  foldl (fun m k => d_set m (k, k) (f1 : F)) [] it.

(** The memoised array attribute: _memoize_count is bumped by every mutation
    (178, 188, 198, 236, 245, ...), _memoize_array_count remembers the count the
    cached array was built at.  Generic in the data and the build function. *)
Section memo.
  Context {D A : Type} (build : D -> res A).
  Record memo := Memo { mm_data : D; mm_count : nat; mm_array_count : nat; mm_array : option A }.
  Definition memo_new (d : D) : memo := Memo d 1 0 None.
  Inductive memo_op := MMutate (f : D -> D) | MArray.
  Definition memo_step (s : memo) (op : memo_op) : option (res A) * memo :=
    match op with
    | MMutate f => (None, Memo (f (mm_data s)) (S (mm_count s)) (mm_array_count s) (mm_array s))
    | MArray =>
        if decide (mm_array_count s = mm_count s)
        then (Some (match mm_array s with Some a => Ok a | None => Err AttributeError end), s)
        else match build (mm_data s) with
             | Ok a => (Some (Ok a), Memo (mm_data s) (mm_count s) (mm_count s) (Some a))
             | Err e => (Some (Err e), s)
             end
    end.
  Definition memo_run (s : memo) (ops : list memo_op) : memo := foldl (fun s op => (memo_step s op).2) s ops.
End memo.
