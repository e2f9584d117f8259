(** Theorems about key spaces, key vectors and key matrices.  C28 - C30. *)
From stdpp Require Import base tactics list numbers gmap.
From Verif Require Import Fld Py KeysModel KeysSpec KmatModel KmatSpec KmatProofs.

(** C28: the keys of a space are those given before the numbering was first needed,
    and the space is frozen from then on. *)
Theorem C28_keys {K} `{Countable K} (listing : gset K -> list K) :
  (forall X, listing X ≡ₚ elements X) ->
  forall (X : gset K) ops,
  ks_set (kvs_run listing (KVS X None) ops) = X ∪ list_to_set (given ops) /\
  (is_Some (ks_list (kvs_run listing (KVS X None) ops)) <-> accessed ops = true).
Proof. exact (run_keys listing). Qed.
Print Assumptions C28_keys.

(** C28: in every history, a frozen space numbers its keys 0 .. n-1 one to one,
    key_map and idx_map are inverse (idx_map also takes Python's negative indices),
    an unknown key is a KeyError, adding one is a RuntimeError, and no later operation
    changes anything. *)
Theorem C28_frozen {K} `{Countable K} (listing : gset K -> list K) :
  (forall X, listing X ≡ₚ elements X) ->
  forall keys frozen ops L,
  let s := kvs_run listing (kvs_new listing keys frozen) ops in
  ks_list s = Some L ->
  NoDup L /\ (forall k, k ∈ L <-> k ∈ ks_set s) /\ length L = size (ks_set s) /\
  (forall k i, (kvs_step listing s (KMap k)).1 = OIdx i <-> L !! i = Some k) /\
  (forall k, (kvs_step listing s (KMap k)).1 = OErr KeyError <-> k ∉ L) /\
  (forall i k, (kvs_step listing s (KIdx i)).1 = OKey k <->
     exists j : nat, L !! j = Some k /\ (i = Z.of_nat j \/ i = Z.of_nat j - Z.of_nat (length L))%Z) /\
  (forall ks, (kvs_step listing s (KAdd ks)).1 =
     if decide (Forall (fun k => k ∈ L) ks) then ONone else OErr RuntimeError) /\
  (forall more, kvs_run listing s more = s).
Proof. exact (frozen_bijection listing). Qed.
Print Assumptions C28_frozen.

(** C28: when the keys' [<] is a strict total order, the numbering depends on the key
    set alone: a space, its copy and its inverse agree. *)
Theorem C28_inverse_same {K} `{Countable K} (lt : K -> K -> bool) (listing1 listing2 : gset K -> list K) :
  strict_total lt ->
  (forall X, listing1 X ≡ₚ elements X /\ ascending lt (listing1 X)) ->
  (forall X, listing2 X ≡ₚ elements X /\ ascending lt (listing2 X)) ->
  forall X : gset K, ks_list (kvs_freeze listing1 (KVS X None)) = ks_list (kvs_inverse listing2 (KVS X None)).1.
Proof. exact (C28_inverse_same_lem lt listing1 listing2). Qed.
Print Assumptions C28_inverse_same.

(** C28: in every history, a copy of a space has its keys and takes new ones, even when the space is frozen. *)
Theorem C28_copy {K} `{Countable K} (listing : gset K -> list K) keys frozen ops args :
  let s := kvs_run listing (kvs_new listing keys frozen) ops in
  exists s', kvs_keys_add (kvs_copy s) args = Ok s' /\ ks_list s' = None /\ forall k, k ∈ ks_set s' <-> k ∈ ks_set s \/ k ∈ args.
Proof. exact (C28_copy_lem listing keys frozen ops args). Qed.
Print Assumptions C28_copy.

Example C28_example :
  let s := kvs_run (K := N) elements (kvs_new elements [3%N; 5%N] false) [KAdd [7%N; 3%N]; KMap 5%N; KAdd [9%N]] in
  exists L, ks_list s = Some L /\ length L = 3 /\ kvs_step elements s (KAdd [9%N]) = (OErr RuntimeError, s) /\
    kvs_step elements s (KMap 9%N) = (OErr KeyError, s) /\ (kvs_step elements s (KIdx (-1)%Z)).1 <> OErr IndexError.
Proof. eexists. split; [vm_compute; reflexivity|]. vm_compute. split_and!; try done. Qed.

(** C29: subtraction is entrywise, over the union of the keys. *)
Theorem C29_sub {K1 K2} `{Countable K1} `{Countable K2} {F : fld} (a b : dict (K1 * K2) F) :
  d_wf a -> d_wf b ->
  d_wf (km_sub a b) /\ (forall k, val (km_sub a b) k = fsub (val a k) (val b k)) /\
  (forall k, k ∈ (km_sub a b).*1 <-> k ∈ a.*1 \/ k ∈ b.*1).
Proof. exact (km_sub_spec a b). Qed.
Print Assumptions C29_sub.

(** C29: addition is entrywise when the right operand has no key the left one lacks,
    and never returns a map otherwise. *)
Theorem C29_add_partial {K1 K2} `{Countable K1} `{Countable K2} {F : fld} (a b : dict (K1 * K2) F) :
  d_wf a -> d_wf b ->
  ((forall k, k ∈ b.*1 -> k ∈ a.*1) ->
    exists m, km_add a b = Ok (PMap m) /\ d_wf m /\ (forall k, k ∈ m.*1 <-> k ∈ a.*1) /\
      forall k, val m k = fadd (val a k) (val b k)) /\
  (forall m, km_add a b = Ok (PMap m) -> forall k, k ∈ b.*1 -> k ∈ a.*1).
Proof. exact (km_add_spec a b). Qed.
Print Assumptions C29_add_partial.

(** C29 is false of addition: two matrices whose sum is a bare number, and two
    whose sum raises TypeError. *)
Theorem C29_add_refuted :
  exists a b c : dict (N * N) Qc_fld, d_wf a /\ d_wf b /\ d_wf c /\
    (exists v, km_add a b = Ok (PVal v)) /\ km_add a c = Err TypeError.
Proof. exact C29_add_refuted_lem. Qed.
Print Assumptions C29_add_refuted.

(** C29: add_by adds to one entry and leaves the others. *)
Theorem C29_add_by {K} `{Countable K} {F : fld} (m : dict K F) k v : d_wf m ->
  d_wf (kv_add_by m k v) /\
  forall k', val (kv_add_by m k v) k' = fadd (val m k') (if decide (k' = k) then v else f0).
Proof. exact (kv_add_by_spec m k v). Qed.
Print Assumptions C29_add_by.

Example C29_example :
  let a : dict (N * N) Qc_fld := [((0, 1), f1); ((1, 1), f1)]%N in
  let b : dict (N * N) Qc_fld := [((0, 1), f1)]%N in
  d_wf a /\ d_wf b /\ forall k, k ∈ b.*1 -> k ∈ a.*1.
Proof. split_and!; [vm_decide|vm_decide|]. intros k Hk. set_solver. Qed.

(** C30: the array of a vector holds each entry at its key's number, and mapping it
    back gives exactly the non-zero entries. *)
Theorem C30_vector {K} `{Countable K} {F : fld} (L : list K) (data : dict K F) :
  NoDup L -> d_wf data -> (forall k, k ∈ data.*1 -> k ∈ L) ->
  exists a d, kv_array L data = Ok a /\ a_len a = length L /\
    (forall i k, L !! i = Some k -> a_at a i = val data k) /\
    kv_backmap L a = Ok d /\ d_wf d /\ forall k, d_get d k = nz (val data k).
Proof. exact (C30_vector_lem L data). Qed.
Print Assumptions C30_vector.

(** C30: the array of a matrix has the to-keys as rows and the from-keys as columns;
    mapping its transpose back gives exactly the non-zero entries. *)
Theorem C30_matrix_partial {K1 K2} `{Countable K1} `{Countable K2} {F : fld}
    (Lf : list K1) (Lt : list K2) (data : dict (K1 * K2) F) :
  NoDup Lf -> NoDup Lt -> d_wf data -> (forall kf kt, (kf, kt) ∈ data.*1 -> kf ∈ Lf /\ kt ∈ Lt) ->
  exists a d, km_array Lf Lt data = Ok a /\ a_rows a = length Lt /\ a_cols a = length Lf /\
    (forall r c kt kf, Lt !! r = Some kt -> Lf !! c = Some kf -> a_get a r c = val data (kf, kt)) /\
    km_backmap Lf Lt (arr2_T a) = Ok d /\ d_wf d /\
    forall kf kt, d_get d (kf, kt) = nz (val data (kf, kt)).
Proof. exact (C30_matrix_lem Lf Lt data). Qed.
Print Assumptions C30_matrix_partial.

(** C30 is false as stated for matrices: mapping the array itself back transposes. *)
Theorem C30_matrix_transposes {K} `{Countable K} {F : fld} (L : list K) (data : dict (K * K) F) :
  NoDup L -> d_wf data -> (forall kf kt, (kf, kt) ∈ data.*1 -> kf ∈ L /\ kt ∈ L) ->
  exists a d, km_array L L data = Ok a /\ km_backmap L L a = Ok d /\ d_wf d /\
    forall kf kt, d_get d (kf, kt) = nz (val data (kt, kf)).
Proof. exact (km_backmap_transposes L data). Qed.
Print Assumptions C30_matrix_transposes.
Theorem C30_matrix_refuted :
  exists (L : list N) (data : dict (N * N) Qc_fld) a d, NoDup L /\ d_wf data /\
    km_array L L data = Ok a /\ km_backmap L L a = Ok d /\
    d_get data (0, 1)%N = Some f1 /\ d_get d (0, 1)%N = None.
Proof. exact C30_matrix_refuted_lem. Qed.
Print Assumptions C30_matrix_refuted.

(** C30: whatever the history of mutations and array reads, an array read returns
    the array of the current data. *)
Theorem C30_fresh {D A} (build : D -> res A) d (ops : list (memo_op (D := D))) :
  let s := memo_run build (memo_new d) ops in
  (memo_step build s MArray).1 = Some (build (mm_data s)) /\
  mm_data s = foldl (fun d op => match op with MMutate f => f d | MArray => d end) d ops.
Proof. exact (memo_correct build d ops). Qed.
Print Assumptions C30_fresh.

(** C30: the identity matrix's array is the identity. *)
Theorem C30_eye {K} `{Countable K} {F : fld} (L it : list K) : NoDup L -> it ≡ₚ L ->
  exists a : arr2 F, km_array L L (km_eye it) = Ok a /\ a_rows a = length L /\ a_cols a = length L /\
    forall r c, r < length L -> c < length L -> a_get a r c = if decide (r = c) then f1 else f0.
Proof. exact (km_eye_array L it). Qed.
Print Assumptions C30_eye.

Example C30_example :
  let L := [4; 2; 9]%N in
  let data : dict (N * N) Qc_fld := [((4, 2), f1); ((9, 9), fadd f1 f1)]%N in
  NoDup L /\ d_wf data /\ forall kf kt, (kf, kt) ∈ data.*1 -> kf ∈ L /\ kt ∈ L.
Proof. split_and!; [vm_decide|vm_decide|]. intros kf kt Hk. set_solver. Qed.
