(** The threshold of the new columns, and concrete cases. *)
From Coq Require Import Reals Lra.
From stdpp Require Import base tactics list numbers gmap fin_sets option.
From Verif Require Import Fld Py Herm OptModel SigModel SigProofs ElecProofs GraphModel GsModel GsSpec GsProofs GsProofs2 GsFinal.
Local Open Scope fld_scope.
Add Field FFc : (f_theory C_fld).

Lemma csub_0 (x : C_fld) : x - 0 = x. Proof. ring. Qed.
(** the test of line 97: abs(edge.real) + abs(edge.imag) > tiny *)
Definition above (tiny : R) (z : C_fld) : bool := if Rlt_dec tiny (Rabs z.1 + Rabs z.2) then true else false.
Lemma above_0 tiny : (0 <= tiny)%R -> above tiny 0 = false.
Proof. intros Ht. unfold above. cbn. rewrite Rabs_R0. destruct (Rlt_dec _ _); [lra|done]. Qed.
Definition one_by_one (x : C_fld) : gmap (nat * nat) C_fld := {[(0%nat, 0%nat) := x]}.
Lemma obo_rows x : rows (one_by_one x) = {[0%nat]}.
Proof. unfold rows, one_by_one. rewrite dom_singleton_L. apply set_eq. intros t. rewrite elem_of_map. setoid_rewrite elem_of_singleton. split; [by intros (? & -> & ->)|intros ->; by exists (0%nat, 0%nat)]. Qed.
Lemma obo_cols x : cols (one_by_one x) = {[0%nat]}.
Proof. unfold cols, one_by_one. rewrite dom_singleton_L. apply set_eq. intros t. rewrite elem_of_map. setoid_rewrite elem_of_singleton. split; [by intros (? & -> & ->)|intros ->; by exists (0%nat, 0%nat)]. Qed.
Lemma sort_one (sort : gset nat -> list nat) : (forall s, sort s ≡ₚ elements s) -> sort {[0%nat]} = [0%nat].
Proof. intros Hs. apply Permutation_singleton_r. rewrite Hs. by rewrite elements_singleton. Qed.
Lemma C92_small_refuted_lem (enum sort : gset nat -> list nat) (tiny : R) (x : C_fld) : (forall s, enum s ≡ₚ elements s) -> (forall s, sort s ≡ₚ elements s) ->
  x <> 0 -> (Rabs x.1 + Rabs x.2 <= tiny)%R -> edge_matrix_to_unitary C_herm enum sort (above tiny) (one_by_one x) = Ok None /\ ~ exists k, dependent (sort (cols (one_by_one x))) (entry (one_by_one x)) k.
Proof.
  intros He Hs Hx Ht. assert (Ht0 : (0 <= tiny)%R) by (assert (A1 := Rabs_pos x.1); assert (A2 := Rabs_pos x.2); lra). split.
  - unfold edge_matrix_to_unitary. rewrite (targets_dom enum sort (above tiny) He Hs (above_0 tiny Ht0)), obo_cols, sort_one by done.
    destruct (build_step C_herm enum sort (above tiny) He Hs (above_0 tiny Ht0) (one_by_one x) _ [] (Graph ∅ ∅ ∅) 0%nat eq_refl (valid_nil enum sort (above tiny) He Hs (above_0 tiny Ht0) _)) as (b & g' & Eb & _ & Hb & _); [by intros k k' ?%elem_of_nil|by apply not_elem_of_nil|].
    rewrite Eb. destruct b; [|done]. exfalso. destruct (proj1 Hb eq_refl) as [t Hl]. unfold residual in Hl. cbn [fsum] in Hl.
    assert (E : entry (one_by_one x) 0%nat t - 0 = if decide (t = 0%nat) then x else 0).
    { rewrite csub_0. unfold entry, one_by_one. destruct (decide (t = 0%nat)) as [->|Hn]; [by rewrite lookup_singleton|]. by rewrite lookup_singleton_ne by congruence. }
    rewrite E in Hl. destruct (decide _); [|rewrite above_0 in Hl; done]. unfold above in Hl. destruct (Rlt_dec _ _); [lra|done].
  - intros (k & pre & post & c & E & Hd). rewrite obo_cols, sort_one in E by done. destruct pre as [|p pre]; [|destruct pre; done]. injection E as <- <-. specialize (Hd 0%nat). cbn [fsum] in Hd. apply Hx. rewrite <- Hd. unfold entry, one_by_one. by rewrite lookup_singleton.
Qed.

Definition two_rows (y : C_fld) : gmap (nat * nat) C_fld := {[(0%nat, 0%nat) := 1; (0%nat, 1%nat) := y]}.
Lemma two_entry y t : entry (two_rows y) 0%nat t = match t with 0%nat => 1 | 1%nat => y | _ => 0 end.
Proof. unfold entry, two_rows. destruct t as [|[|t]]; [by rewrite lookup_insert|by rewrite lookup_insert_ne, lookup_singleton|]. by rewrite lookup_insert_ne, lookup_singleton_ne. Qed.
Lemma two_dom y : dom (two_rows y) = {[(0%nat, 0%nat); (0%nat, 1%nat)]}.
Proof. unfold two_rows. by rewrite dom_insert_L, dom_singleton_L. Qed.
Lemma two_rows_rows y : rows (two_rows y) = {[0%nat; 1%nat]}.
Proof. unfold rows. rewrite two_dom. apply set_eq. intros t. rewrite elem_of_map. setoid_rewrite elem_of_union. setoid_rewrite elem_of_singleton. split; [intros (? & -> & [->| ->]); [by left|by right]|]. intros [->| ->]; [exists (0%nat, 0%nat)|exists (0%nat, 1%nat)]; (split; [done|]); [by left|by right]. Qed.
Lemma two_rows_cols y : cols (two_rows y) = {[0%nat]}.
Proof. unfold cols. rewrite two_dom. apply set_eq. intros t. rewrite elem_of_map. setoid_rewrite elem_of_union. setoid_rewrite elem_of_singleton. split; [by intros (? & -> & [->| ->])|]. intros ->. exists (0%nat, 0%nat). split; [done|by left]. Qed.
Lemma inner_two (u v : nat -> C_fld) : inner C_herm ({[0%nat; 1%nat]} : gset nat) u v = cconj (u 0%nat) * v 0%nat + cconj (u 1%nat) * v 1%nat.
Proof.
  unfold inner. rewrite (fsum_perm _ _ [0%nat; 1%nat]).
  - cbn [fsum]. change (h_conj C_herm) with cconj. ring.
  - rewrite elements_disj_union by set_solver. by rewrite !elements_singleton.
Qed.
Lemma C92_norm_refuted_lem (enum sort : gset nat -> list nat) tiny : (forall s, enum s ≡ₚ elements s) -> (forall s, sort s ≡ₚ elements s) -> (0 < tiny < 1)%R ->
  exists g, edge_matrix_to_unitary C_herm enum sort (above tiny) (two_rows (cre tiny)) = Ok (Some g) /\
    inner C_herm (rows (two_rows (cre tiny))) (entry (g_em g) 0%nat) (entry (g_em g) 0%nat) = 1 / (1 + cre tiny * cre tiny) /\ 1 / (1 + cre tiny * cre tiny) <> 1.
Proof.
  intros He Hs Ht. assert (Ht0 : (0 <= tiny)%R) by lra. unfold edge_matrix_to_unitary. rewrite (targets_dom enum sort (above tiny) He Hs (above_0 tiny Ht0)), two_rows_cols, sort_one by done.
  destruct (build_step C_herm enum sort (above tiny) He Hs (above_0 tiny Ht0) (two_rows (cre tiny)) _ [] (Graph ∅ ∅ ∅) 0%nat eq_refl (valid_nil enum sort (above tiny) He Hs (above_0 tiny Ht0) _)) as (b & g' & Eb & _ & Hb & Hent & _); [by intros k k' ?%elem_of_nil|by apply not_elem_of_nil|].
  set (w := residual _ _ _ _ _) in *. assert (Ew : forall t, w t = entry (two_rows (cre tiny)) 0%nat t) by (intros t; unfold w, residual; cbn [fsum]; ring).
  assert (L0 : above tiny 1 = true) by (unfold above; cbn; rewrite Rabs_R1, Rabs_R0; destruct (Rlt_dec _ _); [done|lra]).
  assert (L1 : above tiny (cre tiny) = false) by (unfold above; cbn; rewrite Rabs_R0, Rabs_pos_eq by lra; destruct (Rlt_dec _ _); [lra|done]).
  assert (b = true) as -> by (apply Hb; exists 0%nat; rewrite Ew, two_entry; done). rewrite Eb. exists g'. split; [done|].
  assert (En : inner C_herm (rows (two_rows (cre tiny))) w w = 1 + cre tiny * cre tiny).
  { rewrite two_rows_rows, inner_two, !Ew, !two_entry. rewrite cconj_1, cconj_cre. ring. }
  assert (Hp : h_nn C_herm (1 + cre tiny * cre tiny)) by (rewrite <- En; apply inner_nn).
  set (n := h_sqrt C_herm (inner C_herm (rows (two_rows (cre tiny))) w w)) in *.
  assert (Hn2 : n * n = 1 + cre tiny * cre tiny) by (unfold n; rewrite <- En; rewrite <- (h_sqrt_sq C_fld C_herm (inner _ _ w w)) at 3 by (apply inner_nn); done).
  assert (Hnn : h_nn C_herm n) by (unfold n; apply (h_sqrt_nn C_fld C_herm); apply inner_nn).
  assert (H0 : 1 + cre tiny * cre tiny <> 0).
  { intros E. apply (f_equal fst) in E. cbn in E. assert (Hq := Rle_0_sqr tiny). unfold Rsqr in Hq. lra. }
  assert (Hn0 : n <> 0) by (intros E; apply H0; rewrite <- Hn2, E; ring). split.
  - rewrite two_rows_rows, inner_two, !Hent, !Ew, !two_entry, L0, L1. rewrite <- Hn2. change cconj with (h_conj C_herm). rewrite (conj_div C_herm) by done. rewrite (h_nn_conj C_fld C_herm n) by done. rewrite conj_1, conj_0. field. done.
  - intros E. assert (E2 : (1 + cre tiny * cre tiny) * (1 / (1 + cre tiny * cre tiny)) = 1) by (field; done). rewrite E in E2.
    apply (f_equal fst) in E2. cbn in E2. assert (Hq := Rmult_lt_0_compat tiny tiny (proj1 Ht) (proj1 Ht)). lra.
Qed.

(** concrete cases *)
Lemma fmul_1_r (x : C_fld) : x * 1 = x. Proof. ring. Qed.
Definition ex_u (k t : nat) : C_fld := if decide (k = 0%nat /\ t = 0%nat) then 1 else 0.
Lemma ex_case : orthonormal C_herm (rows (one_by_one (cre 2))) (elements (cols (one_by_one (cre 2)))) ex_u /\ triangular C_herm (elements (cols (one_by_one (cre 2)))) (entry (one_by_one (cre 2))) ex_u (fun _ => cre 2) /\
  (forall k t, k ∈ cols (one_by_one (cre 2)) -> ex_u k t = 0 \/ above (1 / 2) (cre 2 * ex_u k t) = true).
Proof.
  rewrite obo_cols, obo_rows, elements_singleton. split; [|split].
  - intros k k' ->%elem_of_list_singleton ->%elem_of_list_singleton. rewrite decide_True by done. unfold inner. rewrite elements_singleton. cbn [fsum].
    change (ex_u 0%nat 0%nat) with (1 : C_fld). rewrite conj_1. ring.
  - intros pre k post E. destruct pre as [|p pre]; [|destruct pre; done]. injection E as <- <-. split.
    + split; [split; [cbn; lra|done]|]. apply cre_neq_0. lra.
    + exists (fun _ => 0). intros t. cbn [fsum]. unfold entry, one_by_one, ex_u. destruct t as [|t].
      * rewrite lookup_singleton, decide_True by done. change (default (0 : C_fld) (Some (cre 2))) with (cre 2). ring.
      * rewrite lookup_singleton_ne by done. rewrite decide_False by (by intros [_ ?]). change (default (0 : C_fld) None) with (0 : C_fld). ring.
  - intros k t _. unfold ex_u. destruct (decide _); [right|by left]. unfold above. rewrite fmul_1_r. cbn. rewrite Rabs_R0, Rabs_pos_eq by lra. destruct (Rlt_dec _ _); [done|lra].
Qed.
