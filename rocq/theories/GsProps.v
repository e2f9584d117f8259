(** C92.  Orthonormal columns (edge_matrix_to_unitary_sre of phasor/matrix/SRE_matrix_algorithms.py).
    Vocabulary in GsSpec.v.  [enum] and [sort] are the orders in which Python goes through sets, dicts
    and sorted keys; [large] is the test of line 97. *)
From Coq Require Import Reals Lra.
From stdpp Require Import base tactics list numbers gmap fin_sets option.
From Verif Require Import Fld Py Herm OptModel SigModel GraphModel GsModel GsSpec GsFinal GsFinal2.
Local Open Scope fld_scope.

(** if every nonzero number passes the test: the columns found are orthonormal, each column given is a combination of
    those up to it with a positive last coefficient; or a column given depends on the earlier ones *)
Theorem C92_sound {K : fld} (h : herm K) {N : Type} `{Countable N} (enum sort : gset N -> list N) (large : K -> bool) :
  (forall s, enum s ≡ₚ elements s) -> (forall s, sort s ≡ₚ elements s) -> large 0 = false -> forall em : gmap (N * N) K, (forall x, large x = true <-> x <> 0) ->
  (exists g, edge_matrix_to_unitary h enum sort large em = Ok (Some g) /\ consistent g /\ (forall k t, k ∉ cols em \/ t ∉ rows em -> entry (g_em g) k t = 0) /\
    orthonormal h (rows em) (sort (cols em)) (entry (g_em g)) /\ triangular h (sort (cols em)) (entry em) (entry (g_em g)) (fun k => inner h (rows em) (entry (g_em g) k) (entry em k))) \/
  (edge_matrix_to_unitary h enum sort large em = Ok None /\ exists k, dependent (sort (cols em)) (entry em) k).
Proof. exact (C92_sound_lem h enum sort large). Qed.
Print Assumptions C92_sound.
(** whatever the test, a decomposition into such columns is found if its entries pass *)
Theorem C92_complete {K : fld} (h : herm K) {N : Type} `{Countable N} (enum sort : gset N -> list N) (large : K -> bool) :
  (forall s, enum s ≡ₚ elements s) -> (forall s, sort s ≡ₚ elements s) -> large 0 = false -> forall (em : gmap (N * N) K) u r,
  orthonormal h (rows em) (sort (cols em)) u -> triangular h (sort (cols em)) (entry em) u r ->
  (forall k t, k ∉ cols em \/ t ∉ rows em -> u k t = 0) -> (forall k t, k ∈ cols em -> u k t = 0 \/ large (r k * u k t) = true) ->
  exists g, edge_matrix_to_unitary h enum sort large em = Ok (Some g) /\ consistent g /\ forall k t, entry (g_em g) k t = u k t.
Proof. exact (C92_complete_lem h enum sort large). Qed.
Print Assumptions C92_complete.
(** and a column that depends on the earlier ones is noticed *)
Theorem C92_dependent {K : fld} (h : herm K) {N : Type} `{Countable N} (enum sort : gset N -> list N) (large : K -> bool) :
  (forall s, enum s ≡ₚ elements s) -> (forall s, sort s ≡ₚ elements s) -> large 0 = false -> forall (em : gmap (N * N) K) u r pre k post (c : N -> K),
  sort (cols em) = pre ++ k :: post -> orthonormal h (rows em) pre u -> triangular h pre (entry em) u r ->
  (forall k t, k ∈ pre -> t ∉ rows em -> u k t = 0) -> (forall k t, k ∈ pre -> u k t = 0 \/ large (r k * u k t) = true) ->
  (forall t, entry em k t = fsum (fun k' => c k' * u k' t) pre) -> edge_matrix_to_unitary h enum sort large em = Ok None.
Proof. exact (C92_dependent_lem h enum sort large). Qed.
Print Assumptions C92_dependent.
Example C92_complete_case : orthonormal C_herm (rows (one_by_one (cre 2))) (elements (cols (one_by_one (cre 2)))) ex_u /\ triangular C_herm (elements (cols (one_by_one (cre 2)))) (entry (one_by_one (cre 2))) ex_u (fun _ => cre 2) /\
  (forall k t, k ∈ cols (one_by_one (cre 2)) -> ex_u k t = 0 \/ above (1 / 2) (cre 2 * ex_u k t) = true).
Proof. exact ex_case. Qed.
(** the test is on the size of the entries, not of the column: an invertible matrix with small entries is refused *)
Theorem C92_small_refuted (enum sort : gset nat -> list nat) (tiny : R) (x : C_fld) : (forall s, enum s ≡ₚ elements s) -> (forall s, sort s ≡ₚ elements s) ->
  x <> 0 -> (Rabs x.1 + Rabs x.2 <= tiny)%R -> edge_matrix_to_unitary C_herm enum sort (above tiny) (one_by_one x) = Ok None /\ ~ exists k, dependent (sort (cols (one_by_one x))) (entry (one_by_one x)) k.
Proof. exact (C92_small_refuted_lem enum sort tiny x). Qed.
Print Assumptions C92_small_refuted.
(** and the entries dropped still count for the norm: the column found is then shorter than 1 *)
Theorem C92_norm_refuted (enum sort : gset nat -> list nat) (tiny : R) : (forall s, enum s ≡ₚ elements s) -> (forall s, sort s ≡ₚ elements s) -> (0 < tiny < 1)%R ->
  exists g, edge_matrix_to_unitary C_herm enum sort (above tiny) (two_rows (cre tiny)) = Ok (Some g) /\
    inner C_herm (rows (two_rows (cre tiny))) (entry (g_em g) 0%nat) (entry (g_em g) 0%nat) = 1 / (1 + cre tiny * cre tiny) /\ 1 / (1 + cre tiny * cre tiny) <> 1.
Proof. exact (C92_norm_refuted_lem enum sort tiny). Qed.
Print Assumptions C92_norm_refuted.
