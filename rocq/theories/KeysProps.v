(** Theorems about dictionary keys, frequency keys and the frequency-order tests.
    C19 - C23, C37. *)
From stdpp Require Import base tactics list numbers.
From Verif Require Import Fld Py KeysModel KeysSpec KeysProofs.

(** C19: [a == b] exactly when the same names map to the same values. *)
Theorem C19_equality {K V} `{EqDecision K} `{EqDecision V} (a b : dict K V) :
  d_wf a -> d_wf b -> (dk_eq a b = true <-> forall k, d_get a k = d_get b k).
Proof. exact (d_eq_spec a b). Qed.
Print Assumptions C19_equality.

(** C19: [a | b] maps every name to b's value, else to a's. *)
Theorem C19_union {K V} `{EqDecision K} `{EqDecision V} (a b : dict K V) :
  d_wf a -> d_wf b ->
  d_wf (dk_or a b) /\
  forall k, d_get (dk_or a b) k = match d_get b k with Some v => Some v | None => d_get a k end.
Proof. exact (fun Ha Hb => conj (or_wf a b Ha) (fun k => or_get a b k Ha Hb)). Qed.
Print Assumptions C19_union.

(** C19: union is associative and idempotent, and has the empty key as unit. *)
Theorem C19_union_laws {K V} `{EqDecision K} `{EqDecision V} (a b c : dict K V) :
  d_wf a -> d_wf b -> d_wf c ->
  dk_eq (dk_or a (dk_or b c)) (dk_or (dk_or a b) c) = true /\ dk_eq (dk_or a a) a = true /\
  dk_eq (dk_or a []) a = true /\ dk_eq (dk_or [] a) a = true.
Proof. exact (C19_union_laws_lem a b c). Qed.
Print Assumptions C19_union_laws.

(** C19: [a & b] keeps exactly the entries common to both. *)
Theorem C19_intersection {K V} `{EqDecision K} `{EqDecision V} (a b : dict K V) :
  d_wf a -> d_wf b ->
  d_wf (dk_and a b) /\
  forall k, d_get (dk_and a b) k = if decide (d_get a k = d_get b k) then d_get a k else None.
Proof. exact (and_spec a b). Qed.
Print Assumptions C19_intersection.

(** C19: [a - b] removes b's entries when a has all of them, else raises: KeyError
    when a name is missing, AssertionError when a value differs. *)
Theorem C19_difference {K V} `{EqDecision K} `{EqDecision V} (a b : dict K V) :
  d_wf a -> d_wf b ->
  match dk_sub a b with
  | Ok d => (forall k v, d_get b k = Some v -> d_get a k = Some v) /\ d_wf d /\
            forall k, d_get d k = match d_get b k with Some _ => None | None => d_get a k end
  | Err KeyError => exists k v, d_get b k = Some v /\ d_get a k = None
  | Err AssertionError => exists k v w, d_get b k = Some v /\ d_get a k = Some w /\ w <> v
  | Err _ => False
  end.
Proof. exact (sub_spec a b). Qed.
Print Assumptions C19_difference.

(** C19: difference undoes a disjoint union, and union restores a difference. *)
Theorem C19_difference_union {K V} `{EqDecision K} `{EqDecision V} (a b : dict K V) :
  d_wf a -> d_wf b ->
  ((forall k, d_get a k = None \/ d_get b k = None) ->
     exists d, dk_sub (dk_or a b) b = Ok d /\ dk_eq d a = true) /\
  (forall d, dk_sub a b = Ok d -> dk_eq (dk_or d b) a = true) /\
  dk_eq (dk_and (dk_or a b) b) b = true.
Proof. exact (C19_difference_union_lem a b). Qed.
Print Assumptions C19_difference_union.

(** C19: removal.  without_keys succeeds exactly when the named keys are present
    (and named once), purge_keys always; only the named keys disappear. *)
Theorem C19_without {K V} `{EqDecision K} `{EqDecision V} (d : dict K V) (ks : list K) :
  d_wf d ->
  (NoDup ks /\ (forall k, k ∈ ks -> is_Some (d_get d k)) ->
     exists d', dk_without_keys d ks = Ok d' /\ d_wf d' /\
       forall k, d_get d' k = if decide (k ∈ ks) then None else d_get d k) /\
  (~ (NoDup ks /\ (forall k, k ∈ ks -> is_Some (d_get d k))) -> dk_without_keys d ks = Err KeyError).
Proof. exact (without_spec d ks). Qed.
Print Assumptions C19_without.
Theorem C19_purge {K V} `{EqDecision K} `{EqDecision V} (d : dict K V) (ks : list K) :
  d_wf d ->
  d_wf (dk_purge_keys d ks) /\
  forall k, d_get (dk_purge_keys d ks) k = if decide (k ∈ ks) then None else d_get d k.
Proof. exact (purge_spec d ks). Qed.
Print Assumptions C19_purge.

(** C19: replacement.  The last dict naming a key wins, other keys are untouched. *)
Theorem C19_replace {K V} `{EqDecision K} `{EqDecision V} (d e : dict K V) (more : list (dict K V)) :
  d_wf d -> d_wf e -> Forall d_wf more ->
  d_wf (dk_replace_keys d e more) /\
  forall k, d_get (dk_replace_keys d e more) k =
    match foldl (fun acc e => match d_get e k with Some v => Some v | None => acc end) None (e :: more) with
    | Some v => Some v | None => d_get d k end.
Proof. exact (replace_spec d e more). Qed.
Print Assumptions C19_replace.
Theorem C19_copy_update {K V} `{EqDecision K} `{EqDecision V} (d e : dict K V) :
  d_wf d -> d_wf e ->
  d_wf (dk_copy_update d e) /\
  forall k, d_get (dk_copy_update d e) k = match d_get e k with Some v => Some v | None => d_get d k end.
Proof. exact (copy_update_spec d e). Qed.
Print Assumptions C19_copy_update.

(** C19: lookup and containment. *)
Theorem C19_contains {K V} `{EqDecision K} `{EqDecision V} (d other : dict K V) :
  d_wf other ->
  (dk_contains d other = true <-> forall k v, d_get other k = Some v -> d_get d k = Some v) /\
  dk_subkey_has d other = dk_contains d other.
Proof. exact (fun Ho => conj (contains_spec d other Ho) (subkey_contains d other)). Qed.
Print Assumptions C19_contains.
Theorem C19_lookup {K V} `{EqDecision K} `{EqDecision V} (d : dict K V) (k : K) (v : V) :
  d_wf d ->
  (dk_get d k = Ok v <-> (k, v) ∈ d) /\ (dk_get d k = Err KeyError <-> k ∉ d.*1) /\
  dk_get_default d k v = match dk_get d k with Ok w => w | Err _ => v end.
Proof. exact (C19_lookup_lem d k v). Qed.
Print Assumptions C19_lookup.

(** C20: equal keys hash equally, whatever the insertion orders and however often
    either was hashed before; unequal keys have different hash tuples. *)
Theorem C20_hash {K V} `{EqDecision K} `{EqDecision V} (klt : K -> K -> bool) (vlt : V -> V -> bool)
    (hash : list (K * V) -> Z) (a b : dict K V) (n m : nat) :
  strict_total klt -> d_wf a -> d_wf b -> dk_eq a b = true ->
  (dk_hash klt vlt hash (Nat.iter n (fun o => (dk_hash klt vlt hash o).2) (DKObj a None))).1 =
  (dk_hash klt vlt hash (Nat.iter m (fun o => (dk_hash klt vlt hash o).2) (DKObj b None))).1.
Proof. exact (fun Hst => hash_eq klt vlt Hst hash a b n m). Qed.
Print Assumptions C20_hash.
Theorem C20_hash_tuple {K V} `{EqDecision K} `{EqDecision V} (klt : K -> K -> bool) (vlt : V -> V -> bool)
    (a b : dict K V) :
  strict_total klt -> d_wf a -> d_wf b ->
  (dk_eq a b = true <-> dk_hash_tuple klt vlt a = dk_hash_tuple klt vlt b).
Proof. exact (fun Hst Ha Hb => conj (hash_tuple_eq klt vlt Hst a b Ha Hb) (hash_tuple_inj klt vlt a b Ha Hb)). Qed.
Print Assumptions C20_hash_tuple.
Example C20_case : d_wf [(1, 10); (2, 20)] /\ d_wf [(2, 20); (1, 10)] /\
  dk_eq [(1, 10); (2, 20)] [(2, 20); (1, 10)] = true /\ strict_total Nat.ltb.
Proof.
  split_and!; [vm_decide..|]. split; intros *; rewrite ?Nat.ltb_lt, ?Nat.ltb_ge; lia.
Qed.

(** C21 (refutation): '<' answers False for every pair of keys, so no two distinct
    keys are ordered. *)
Theorem C21_order_refuted {K V} `{EqDecision K} `{EqDecision V} (klt : K -> K -> bool) (vlt : V -> V -> bool)
    (a b : dict K V) :
  dk_lt klt vlt a b = false.
Proof. exact (dk_lt_false klt vlt a b). Qed.
Print Assumptions C21_order_refuted.
Example C21_case : dk_eq [(1, 10)] [(1, 20)] = false /\
  dk_lt Nat.ltb Nat.ltb [(1, 10)] [(1, 20)] = false /\ dk_lt Nat.ltb Nat.ltb [(1, 20)] [(1, 10)] = false.
Proof. done. Qed.

(** C22: arithmetic on frequency keys is pointwise integer arithmetic. *)
Theorem C22_arithmetic {F} `{EqDecision F} (a b : dict F Z) (n : Z) (f : F) :
  d_wf a -> d_wf b ->
  mult (fk_add a b) f = (mult a f + mult b f)%Z /\ mult (fk_sub a b) f = (mult a f - mult b f)%Z /\
  mult (fk_neg a) f = (- mult a f)%Z /\ mult (fk_rmul n a) f = (n * mult a f)%Z.
Proof.
  exact (fun Ha Hb => conj (proj1 (proj2 (add_spec a b Ha Hb)) f)
    (conj (proj1 (proj2 (fsub_spec a b Ha Hb)) f) (conj (neg_mult a f Ha) (rmul_mult n a f Ha)))).
Qed.
Print Assumptions C22_arithmetic.

(** C22: abelian group laws, as equalities of canonical keys. *)
Theorem C22_group {F} `{EqDecision F} (a b c : dict F Z) :
  canonical a -> canonical b -> canonical c ->
  fk_eq (fk_add a b) (fk_add b a) = true /\
  fk_eq (fk_add a (fk_add b c)) (fk_add (fk_add a b) c) = true /\
  fk_eq (fk_add a []) a = true /\ fk_eq (fk_add a (fk_neg a)) [] = true /\
  fk_eq (fk_sub a b) (fk_add a (fk_neg b)) = true.
Proof. exact (C22_group_lem a b c). Qed.
Print Assumptions C22_group.

(** C22: the frequency of a sum is the sum of the frequencies (and the solver's
    extraction computes the same number). *)
Theorem C22_frequency {F} `{EqDecision F} (M : zmod) (Hz : F -> M) (a b : dict F Z) :
  d_wf a -> d_wf b ->
  fk_freq M Hz (fk_add a b) = zm_add M (fk_freq M Hz a) (fk_freq M Hz b) /\
  fk_freq M Hz a = zm_add M (fk_freq M Hz (fk_sub a b)) (fk_freq M Hz b) /\
  zm_add M (fk_freq M Hz (fk_neg a)) (fk_freq M Hz a) = zm_zero M /\
  fk_freq M Hz a = extract_freq M Hz a.
Proof. exact (C22_frequency_lem M Hz a b). Qed.
Print Assumptions C22_frequency.

(** C23: every expression built from canonical keys by addition, subtraction,
    negation and non-zero scaling is canonical and means the right combination. *)
Theorem C23_canonical {F} `{EqDecision F} (e : fexpr F) :
  proper e -> canonical (eval e) /\ forall f, mult (eval e) f = meaning e f.
Proof. exact (eval_canonical e). Qed.
Print Assumptions C23_canonical.

(** C23: on canonical keys equality, hash and the DC test depend only on the
    represented combination. *)
Theorem C23_observations {F} `{EqDecision F} (flt : F -> F -> bool) (a b : dict F Z) :
  strict_total flt -> canonical a -> canonical b ->
  (fk_eq a b = true <-> forall f, mult a f = mult b f) /\
  (fk_DC_is a = true <-> forall f, mult a f = 0%Z) /\
  ((forall f, mult a f = mult b f) -> fk_hash_tuple flt a = fk_hash_tuple flt b).
Proof.
  exact (fun Hst Ha Hb => conj (canonical_eq a b Ha Hb) (conj (canonical_DC a Ha)
    (fk_hash_same flt a b Hst (proj1 Ha) (proj1 Hb)))).
Qed.
Print Assumptions C23_observations.
Example C23_case : canonical [(1, 1%Z); (2, (-1)%Z)] /\
  proper (ESub (EKey [(1, 1%Z); (2, (-1)%Z)]) (EScale 3 (EKey [(2, 1%Z)]))).
Proof.
  assert (canonical [(1, 1%Z); (2, (-1)%Z)]) as H.
  { split; [vm_decide|]. intros f. simpl. repeat case_decide; congruence. }
  split; [done|]. simpl. split_and!; [done|lia|]. split; [vm_decide|]. intros f. simpl. case_decide; congruence.
Qed.

(** C23 (refutation): zero times a key keeps its entries: it is neither DC nor equal
    to the DC key, though it hashes the same. *)
Theorem C23_zero_scale_refuted {F} `{EqDecision F} (flt : F -> F -> bool) (k : dict F Z) :
  strict_total flt -> d_wf k -> k <> [] ->
  (forall f, mult (fk_rmul 0 k) f = 0%Z) /\ fk_DC_is (fk_rmul 0 k) = false /\
  fk_eq (fk_rmul 0 k) [] = false /\ fk_hash_tuple flt (fk_rmul 0 k) = fk_hash_tuple flt [].
Proof. exact (C23_zero_scale_refuted_lem flt k). Qed.
Print Assumptions C23_zero_scale_refuted.

(** C37: a classical key is rejected exactly when some base frequency exceeds its
    order limit in absolute value; negation does not matter; raising limits never
    rejects more. *)
Theorem C37_classical {F} `{EqDecision F} (order order' : F -> option Z) (dflt dflt' : Z) (k : dict F Z) :
  d_wf k ->
  (reject_classical order dflt k = true <->
     exists f n, d_get k f = Some n /\ (default dflt (order f) < Z.abs n)%Z) /\
  reject_classical order dflt (fk_neg k) = reject_classical order dflt k /\
  ((forall f, default dflt (order f) <= default dflt' (order' f))%Z ->
     reject_classical order' dflt' k = true -> reject_classical order dflt k = true).
Proof. exact (C37_classical_lem order order' dflt dflt' k). Qed.
Print Assumptions C37_classical.

(** C37: an optical key is rejected exactly when it is DC or some base frequency has
    multiplicity below one or above its limit. *)
Theorem C37_optical {F} `{EqDecision F} (order : F -> option Z) (k : dict F Z) :
  d_wf k ->
  (reject_optical order k = true <->
   k = [] \/ exists f n, d_get k f = Some n /\ (n < 1 \/ default 2%Z (order f) < n)%Z).
Proof. exact (reject_optical_spec order k). Qed.
Print Assumptions C37_optical.

(** C37 (refutation): optical rejection is not symmetric under negation. *)
Theorem C37_optical_symmetry_refuted :
  exists k : dict nat Z, canonical k /\ reject_optical (fun _ => None) k = false /\
    reject_optical (fun _ => None) (fk_neg k) = true.
Proof. exact (C37_optical_symmetry_refuted_lem). Qed.
Print Assumptions C37_optical_symmetry_refuted.
Example C37_case : d_wf [(0, 3%Z); (1, 1%Z)] /\
  reject_classical (fun f => if decide (f = 1) then Some 0%Z else Some 5%Z) 2 [(0, 3%Z); (1, 1%Z)] = true /\
  reject_classical (fun _ => None) 3 [(0, 3%Z); (1, 1%Z)] = false.
Proof. split_and!; [vm_decide|done|done]. Qed.
Example C19_case : d_wf [(1, 10); (2, 20)] /\ d_wf [(2, 20)] /\
  dk_sub [(1, 10); (2, 20)] [(2, 20)] = Ok [(1, 10)] /\ dk_sub [(1, 10)] [(1, 11)] = Err AssertionError /\
  dk_without_keys [(1, 10); (2, 20)] [3] = Err KeyError.
Proof. split_and!; [vm_decide|vm_decide|done..]. Qed.
