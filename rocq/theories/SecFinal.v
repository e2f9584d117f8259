(** Proofs of the theorems of SecProps.v. *)
From stdpp Require Import base tactics numbers sorting sets list.
From Verif Require Import Py SecModel SecSpec SecProofs.

Lemma C59_sections_lem b : b <> [] -> exists l, generate_sections b None = Ok l /\ apart l /\
  (forall i, covered l i <-> b !! i = Some true /\ S i < length b).
Proof.
  intros Hb. rewrite sections_bnd by done. exists (pairs (bnd b)). split; [by destruct (pairs (bnd b)) as [|x l]; [|destruct (last (x :: l))]|].
  split; [apply bnd_apart|]. apply bnd_covered.
Qed.
(** exactly the true samples, when the last sample is not true *)
Lemma C59_exact_lem b : last b = Some false -> exists l, generate_sections b None = Ok l /\ apart l /\
  (forall i, covered l i <-> b !! i = Some true).
Proof.
  intros Hl. assert (b <> []) as Hb by (by intros ->). destruct (C59_sections_lem b Hb) as (l & E & Ha & H). exists l. split; [done|]. split; [done|].
  intros i. rewrite H. split; [by intros [? _]|]. intros Hi. split; [done|]. apply last_Some in Hl as [b' ->].
  rewrite app_length. simpl. assert (i < length b' \/ length b' <= i) as [?|Hge] by lia; [lia|].
  rewrite lookup_app_r in Hi by done. destruct (i - length b') as [|[|]]; [simpl in Hi; congruence|done|done].
Qed.
Lemma C59_exact_refuted_lem : exists b l i, generate_sections b None = Ok l /\ b !! i = Some true /\ ~ covered l i.
Proof.
  exists [false; true; true], [(1, 2)], 2. split; [done|]. split; [done|]. intros (s & e & H & Hi). apply elem_of_list_singleton in H. injection H as -> ->. lia.
Qed.
Lemma C59_join_lem b l r : generate_sections b None = Ok l -> exists l', generate_sections b (Some r) = Ok l' /\ apart l' /\
  (forall i, covered l' i <-> covered l i \/ small_gap r l i).
Proof.
  destruct (decide (b = [])) as [->|Hb]; [done|]. rewrite !sections_bnd by done. intros E.
  assert (l = pairs (bnd b)) as -> by (destruct (pairs (bnd b)) as [|x l2]; [|destruct (last (x :: l2))]; by injection E). clear E.
  pose proof (bnd_apart b) as Ha. destruct (pairs (bnd b)) as [|[s e] l] eqn:E.
  - exists []. split; [done|]. split; [done|]. intros i. split; [by left|]. intros [H|(k & H)]; [done|]. by destruct H as (? & ? & ? & ? & H & _).
  - destruct (last ((s, e) :: l)) as [s1|] eqn:El; [|by apply last_None in El]. cbn [fst]. rewrite (gaps_D r l (s, e) s1 El). cbn [snd].
    eexists. split; [done|]. split; [by apply D_apart|]. intros i. by apply D_cov.
Qed.
Lemma C59_anti_lem a b l i : within a b l -> (covered (generate_antisections a b l) i <-> a <= i < b /\ ~ covered l i).
Proof. apply anti_covered. Qed.
Lemma C59_anti_sections_lem b l i : generate_sections b None = Ok l ->
  (covered (generate_antisections 0 (length b - 1) l) i <-> b !! i = Some false /\ S i < length b).
Proof.
  destruct (decide (b = [])) as [->|Hb]; [done|]. rewrite !sections_bnd by done. intros E.
  assert (l = pairs (bnd b)) as -> by (destruct (pairs (bnd b)) as [|x l2]; [|destruct (last (x :: l2))]; by injection E). clear E.
  rewrite anti_covered.
  - rewrite bnd_covered. split.
    + intros [H1 H2]. assert (S i < length b) by lia. split; [|done]. destruct (lookup_lt_is_Some_2 b i) as [[] Hx]; [lia| |done]. by destruct H2.
    + intros [H1 H2]. split; [lia|]. intros [H3 _]. congruence.
  - apply apart_within; [apply bnd_apart| |lia]. intros s e H. eapply pairs_in; [apply bnd_srt|done].
Qed.
(** closing the complement at the length of the array declares a true last sample false *)
Lemma C59_anti_refuted_lem : exists b l i, generate_sections b None = Ok l /\
  covered (generate_antisections 0 (length b) l) i /\ b !! i = Some true.
Proof.
  exists [false; true; true], [(1, 2)], 2. split; [done|]. split; [|done]. exists 2, 3. split; [|lia]. simpl. set_solver.
Qed.
Lemma C59_example_lem : exists b l, generate_sections b None = Ok l /\ last b = Some false /\ length l = 2 /\ within 0 9 l /\ exists i, small_gap 2 l i.
Proof.
  exists [false; true; true; false; false; true; false], [(1, 3); (5, 6)]. split; [done|]. split; [done|]. split; [done|]. split; [simpl; lia|].
  exists 3, 0, 1, 3, 5, 6. split; [done|]. split; [done|]. lia.
Qed.

Lemma C70_sort_lem {A} argsort (X : list Z) (Y : list A) : sorts argsort -> length X = length Y ->
  let XY := domain_sort argsort X Y in
  Sorted Z.le (fst XY) /\ fst XY ≡ₚ X /\ zip (fst XY) (snd XY) ≡ₚ zip X Y /\ length (snd XY) = length (fst XY).
Proof.
  intros Hs Hl. unfold domain_sort. destruct (nondecreasing X) eqn:E; cbn [fst snd].
  - split; [by apply nondecreasing_sorted|]. by split.
  - destruct (Hs X) as [H1 H2]. split; [done|]. split; [by apply omap_perm|]. split.
    + rewrite omap_zip by done. apply omap_perm. rewrite H1, zip_with_length_l by lia. done.
    + assert (omap (fun i => Y !! i) (argsort X) ≡ₚ Y) as -> by (apply omap_perm; by rewrite <- Hl). by rewrite (omap_perm X) by done.
Qed.
Lemma C70_limit_lem {A} a b (X : list Z) (Y : list A) : length X = length Y ->
  let XY := interval_limit a b X Y in
  fst XY = List.filter (fun x => bool_decide (a <= x <= b)%Z) X /\
  zip (fst XY) (snd XY) = List.filter (fun p => bool_decide (a <= fst p <= b)%Z) (zip X Y).
Proof.
  intros Hl. unfold interval_limit. cbn [fst snd]. split; [exact (limit_eq _ X [])|]. rewrite omap_zip by done.
  rewrite <- (limit_eq (fun p => bool_decide (a <= fst p <= b)%Z) (zip X Y) []). cbn [app length]. do 2 f_equal.
  revert Y Hl. induction X as [|x X IH]; intros [|y Y] Hl; try done. simpl in *. f_equal. apply IH. lia.
Qed.
(** an order which argsort may return exists *)
Lemma C70_example_lem : exists argsort (X : list Z) (Y : list bool), sorts argsort /\ length X = length Y /\ nondecreasing X = false.
Proof.
  set (R := fun (p q : Z * nat) => (fst p <= fst q)%Z).
  assert (forall p q, Decision (R p q)) as HD by (intros; unfold R; apply _).
  exists (fun l => (merge_sort R (zip l (seq 0 (length l)))).*2), [2; 1]%Z, [true; false]. split; [|done].
  intros l. pose proof (merge_sort_Permutation R (zip l (seq 0 (length l)))) as HP. split.
  - rewrite HP. by rewrite snd_zip by (rewrite seq_length; lia).
  - assert (Sorted R (merge_sort R (zip l (seq 0 (length l))))) as HS. { apply Sorted_merge_sort. intros p q. unfold R. lia. }
    assert (Forall (fun p => l !! snd p = Some (fst p)) (merge_sort R (zip l (seq 0 (length l))))) as HF.
    { rewrite HP. apply Forall_forall. intros [x i] Hin. apply elem_of_list_lookup in Hin as [k Hk]. apply lookup_zip_with_Some in Hk as (x' & i' & [= -> ->] & H1 & H2).
      apply lookup_seq in H2 as [-> _]. done. }
    clear HP. induction HS as [|[x i] m HS IH HH]; [constructor|]. apply Forall_cons in HF as [H1 H2]. cbn [fmap list_fmap snd omap list_omap]. simpl in H1. rewrite H1.
    constructor; [by apply IH|]. destruct m as [|[y j] m]; [constructor|]. apply Forall_cons in H2 as [H2 _]. simpl in H2 |- *. rewrite H2. constructor.
    by inversion HH.
Qed.
