(** Orthonormal columns. *)
From stdpp Require Import base tactics list numbers gmap fin_sets.
From Verif Require Import Fld Herm GraphModel.
Local Open Scope fld_scope.

Section spec.
  Context {K : fld} (h : herm K) {N : Type} `{Countable N}.
  (** the entry of column k at row t; the keys of columns and rows *)
  Definition entry (m : gmap (N * N) K) (k t : N) : K := default 0 (m !! (k, t)).
  Definition cols (m : gmap (N * N) K) : gset N := set_map fst (dom m).
  Definition rows (m : gmap (N * N) K) : gset N := set_map snd (dom m).
  Definition inner (D : gset N) (u v : N -> K) : K := fsum (fun t => h_conj h (u t) * v t) (elements D).
  Definition orthonormal (D : gset N) (ks : list N) (u : N -> N -> K) : Prop :=
    forall k k', k ∈ ks -> k' ∈ ks -> inner D (u k) (u k') = if decide (k = k') then 1 else 0.
  (** a positive number *)
  Definition positive (x : K) : Prop := h_nn h x /\ x <> 0.
  (** column k of [a] is a combination of the columns of [u] up to k, column k times [r k] *)
  Definition triangular (ks : list N) (a u : N -> N -> K) (r : N -> K) : Prop :=
    forall pre k post, ks = pre ++ k :: post -> positive (r k) /\
      exists c : N -> K, forall t, a k t = fsum (fun k' => c k' * u k' t) pre + r k * u k t.
  (** column k of [a] is a combination of the columns before it *)
  Definition dependent (ks : list N) (a : N -> N -> K) (k : N) : Prop :=
    exists pre post (c : N -> K), ks = pre ++ k :: post /\ forall t, a k t = fsum (fun k' => c k' * a k' t) pre.
  (** the three parts of the sparse matrix agree *)
  Definition consistent (g : graph K N) : Prop :=
    forall k t, (t ∈ default ∅ (g_seq g !! k) <-> is_Some (g_em g !! (k, t))) /\ (k ∈ default ∅ (g_req g !! t) <-> is_Some (g_em g !! (k, t))).
End spec.
