(** Theorems about the sparse (seq, req, edge) matrices and index enumeration.
    C12, C13, C14. *)
From Coq Require Import Sorting.
From Verif Require Import Fld Py Herm GraphModel GraphFinal SreModel SreSpec SreProofs.
Local Open Scope fld_scope.

(** C12.  The product of two well formed sparse matrices is computed without
    error, is well formed, is adjacent exactly on the composable pairs and has the
    entries of the matrix product (edge [a -> b] is row [b], column [a]); for all
    matrices over all fields and all iteration orders. *)
Theorem C12_product {K : fld} {N : Type} `{Countable N} (enum : gset N -> list N)
    (dflt : bool) (s1 s2 : graph K N) (V : list N) :
  (forall s, enum s ≡ₚ elements s) ->
  sre_wf s1 -> sre_wf s2 -> mult_defined dflt s1 s2 ->
  NoDup V -> (forall a m b, adj s1 a m -> adj s2 m b -> m ∈ V) ->
  exists g, matrix_mult enum dflt s1 s2 = Ok g /\ sre_wf g /\
    (forall a b, adj g a b <-> exists m, adj s1 a m /\ adj s2 m b) /\
    (forall a b, entry g a b = fsum (fun m => entry s2 m b * entry s1 a m) V) /\
    (forall a b, is_Some (g_em g !! (a, b)) -> adj g a b).
Proof. exact (fun E => matrix_mult_spec enum E dflt s1 s2 V). Qed.
Print Assumptions C12_product.

(** C12 (failure).  With plain dicts, a middle node with successors but no entry in
    the first factor's predecessor dict makes the product raise KeyError. *)
Theorem C12_product_keyerror {K : fld} {N : Type} `{Countable N} (enum : gset N -> list N)
    (s1 s2 : graph K N) :
  (forall s, enum s ≡ₚ elements s) ->
  sre_wf s1 -> sre_wf s2 -> ~ mult_defined false s1 s2 ->
  matrix_mult enum false s1 s2 = Err KeyError.
Proof. exact (fun E => matrix_mult_fail enum E s1 s2). Qed.
Print Assumptions C12_product_keyerror.

Definition sre_a := mk_graph (K := Qc_fld) [((1, 2)%nat, Some (1 + 1)); ((1, 3)%nat, Some 1); ((4, 3)%nat, Some (fopp f1))].
Definition sre_b := mk_graph (K := Qc_fld) [((2, 5)%nat, Some (1 + 1)); ((3, 5)%nat, Some 1); ((3, 1)%nat, Some 1)].
Definition sre_c := mk_graph (K := Qc_fld) [((2, 5)%nat, Some (1 + 1)); ((7, 5)%nat, Some 1)].

(** two rational matrices with shared middle nodes (two terms add up in one
    entry), and a pair for which the plain-dict product raises *)
Example product_example :
  sre_wf sre_a /\ sre_wf sre_b /\ mult_defined false sre_a sre_b /\
  entry (default sre_a (match matrix_mult elements false sre_a sre_b with Ok g => Some g | Err _ => None end))
        (Nd 1%nat) (Nd 5%nat) = 1 + 1 + (1 + 1) + 1.
Proof.
  split_and!.
  - apply (mk_graph_wf [((1, 2)%nat, (1 + 1)); ((1, 3)%nat, 1); ((4, 3)%nat, (fopp f1))]).
  - apply (mk_graph_wf [((2, 5)%nat, (1 + 1)); ((3, 5)%nat, 1); ((3, 1)%nat, 1)]).
  - right. intros mid Hm. destruct (decide (mid ∈ dom (g_seq sre_b))) as [Hd|Hd].
    + assert (dom (g_seq sre_b) ⊆ dom (g_req sre_a)) as Hs by vm_decide. by apply Hs.
    + destruct Hm. apply not_elem_of_dom in Hd. unfold ds_get. by rewrite Hd.
  - vm_decide.
Qed.
Example product_keyerror_example :
  sre_wf sre_a /\ sre_wf sre_c /\ ~ mult_defined false sre_a sre_c.
Proof.
  split_and!.
  - apply (mk_graph_wf [((1, 2)%nat, (1 + 1)); ((1, 3)%nat, 1); ((4, 3)%nat, (fopp f1))]).
  - apply (mk_graph_wf [((2, 5)%nat, (1 + 1)); ((7, 5)%nat, 1)]).
  - intros [|Hd]; [done|].
    assert (Nd 7%nat ∈ dom (g_req sre_a)) as Hb by (apply Hd; vm_decide).
    revert Hb. apply (proj1 (bool_decide_eq_false _)). vm_compute. reflexivity.
Qed.

(** C13.  The adjoint is the conjugate transpose, adjacency included ... *)
Theorem C13_adjoint_entry {K : fld} {N : Type} `{Countable N} (H0 : herm K) (s : graph K N) :
  sre_wf s -> sre_wf (adjoint_sre (h_conj H0) s) /\
  forall a b, (adj (adjoint_sre (h_conj H0) s) a b <-> adj s b a) /\
              entry (adjoint_sre (h_conj H0) s) a b = h_conj H0 (entry s b a).
Proof.
  exact (fun W => conj (adjoint_wf (h_conj H0) s W)
    (fun a b => conj (adjoint_adj (h_conj H0) s a b W) (adjoint_entry (h_conj H0) (conj_0 H0) s a b W))).
Qed.
Print Assumptions C13_adjoint_entry.

(** ... doing it twice gives back the original triple ... *)
Theorem C13_adjoint_involutive {K : fld} {N : Type} `{Countable N} (H0 : herm K) (s : graph K N) :
  adjoint_sre (h_conj H0) (adjoint_sre (h_conj H0) s) = s.
Proof. exact (adjoint_adjoint (h_conj H0) (h_conj_conj K H0) s). Qed.
Print Assumptions C13_adjoint_involutive.

(** ... and the adjoint of a product is the product of the adjoints in reverse. *)
Theorem C13_adjoint_product {K : fld} {N : Type} `{Countable N} (enum : gset N -> list N)
    (H0 : herm K) (dflt dflt' : bool) (s1 s2 p q : graph K N) :
  (forall s, enum s ≡ₚ elements s) ->
  sre_wf s1 -> sre_wf s2 ->
  matrix_mult enum dflt s1 s2 = Ok p ->
  matrix_mult enum dflt' (adjoint_sre (h_conj H0) s2) (adjoint_sre (h_conj H0) s1) = Ok q ->
  forall a b, (adj q a b <-> adj (adjoint_sre (h_conj H0) p) a b) /\
              entry q a b = entry (adjoint_sre (h_conj H0) p) a b.
Proof.
  exact (fun E => adjoint_product enum E (h_conj H0) (h_conj_add K H0) (h_conj_mul K H0) (conj_0 H0)
                    dflt dflt' s1 s2 p q).
Qed.
Print Assumptions C13_adjoint_product.

(** the hypotheses of C13 hold for complex matrices; both products are defined *)
Definition sre_ca := mk_graph (K := C_fld) [((1, 2)%nat, Some (C_i : fcar C_fld)); ((1, 3)%nat, Some 1)].
Definition sre_cb := mk_graph (K := C_fld) [((2, 5)%nat, Some 1); ((3, 5)%nat, Some (C_i : fcar C_fld))].
Example adjoint_example :
  sre_wf sre_ca /\ sre_wf sre_cb /\
  (exists p, matrix_mult elements true sre_ca sre_cb = Ok p) /\
  (exists q, matrix_mult elements true (adjoint_sre (h_conj C_herm) sre_cb) (adjoint_sre (h_conj C_herm) sre_ca) = Ok q).
Proof.
  assert (sre_wf sre_ca) as Wa by apply (mk_graph_wf [((1, 2)%nat, (C_i : fcar C_fld)); ((1, 3)%nat, 1)]).
  assert (sre_wf sre_cb) as Wb by apply (mk_graph_wf [((2, 5)%nat, 1); ((3, 5)%nat, (C_i : fcar C_fld))]).
  split_and!; [done|done| |].
  - destruct (matrix_mult_ok elements (fun s => Permutation_refl _) true sre_ca sre_cb Wa Wb) as (p & Hp & _); [by left|eauto].
  - destruct (matrix_mult_ok elements (fun s => Permutation_refl _) true _ _
      (adjoint_wf (h_conj C_herm) _ Wb) (adjoint_wf (h_conj C_herm) _ Wa)) as (p & Hp & _); [by left|eauto].
Qed.

(** C14.  For every non-empty list of bounds, stackrange terminates and yields
    exactly the index tuples within the bounds, strictly increasing in
    lexicographic order (so each exactly once). *)
Theorem C14_stackrange (ns : list nat) : ns <> [] ->
  exists c l, (forall f, (c <= f)%nat -> stackrange f (seq 0 <$> ns) = Ok l) /\
    (forall t, t ∈ l <-> Forall2 (fun i n => (i < n)%nat) t ns) /\
    StronglySorted lex_lt l.
Proof. exact (stackrange_range ns). Qed.
Print Assumptions C14_stackrange.
(** An empty list of bounds (zero-dimensional shape) raises IndexError instead of
    yielding the empty tuple once. *)
Theorem C14_empty_refuted :
  exists rs : list (list nat), forall f, stackrange f rs = Err IndexError.
Proof. exact stackrange_empty. Qed.
Print Assumptions C14_empty_refuted.
Example stackrange_example :
  stackrange 20 [seq 0 2; seq 0 1; seq 0 2] = Ok [[0;0;0];[0;0;1];[1;0;0];[1;0;1]]%nat.
Proof. reflexivity. Qed.
