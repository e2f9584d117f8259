(** Proofs of the theorems of MetProps.v. *)
From stdpp Require Import base tactics list numbers list_numbers.
From Verif Require Import MetModel MetSpec MetProofs.

Lemma rows_at l es i r : rows (srabe2metis l es) !! i = Some r -> r = write_row (weights l es) i /\ (i < length l)%nat.
Proof.
  unfold srabe2metis. cbn [rows]. change (map (write_row (weights l es)) (seq 0 (length l))) with (write_row (weights l es) <$> seq 0 (length l)).
  rewrite list_lookup_fmap. destruct (seq 0 (length l) !! i) as [k|] eqn:E; [|done]. apply lookup_seq in E as [-> H]. simpl. intros [= <-]. done.
Qed.
Lemma shift_keys d : map fst (map shift d) = map S (keys d).
Proof. unfold keys. rewrite !map_map. apply map_ext. intros [j w]. unfold shift. simpl. lia. Qed.
Lemma C98_valid_lem l es : NoDup l -> valid_metis (srabe2metis l es).
Proof.
  intros Hl. pose proof (weights_inv l es Hl) as HI. pose proof HI as (H1 & H2 & H3 & H4 & H5 & H6). set (st := weights l es) in *. split.
  { unfold srabe2metis. cbn [rows vertices]. by rewrite map_length, seq_length. }
  split.
  { intros i r E. apply rows_at in E as [-> Hi]. fold st. split.
    - rewrite (row_eq _ st i HI), shift_keys. change (NoDup (S <$> keys (row st.1 i ++ row st.2 i))). apply NoDup_fmap; [by intros ?? [= ->]|].
      unfold keys. rewrite map_app. apply list.NoDup_app. split; [apply H3|]. split; [|apply H4]. intros j Hj Hj'.
      apply elem_of_list_In, in_map_iff in Hj as ([j1 w] & E1 & Hj). apply elem_of_list_In, in_map_iff in Hj' as ([j2 w'] & E2 & Hj').
      cbn [fst] in E1, E2. subst j1 j2. apply elem_of_list_In, (aget_in _ _ _ (H3 i)) in Hj. apply elem_of_list_In, (aget_in _ _ _ (H4 i)) in Hj'.
      apply (H2 i j w) in Hj. change (look st.2 i j = Some w') in Hj'. apply H1, H2 in Hj'. lia.
    - intros j w H. cbn [vertices srabe2metis]. assert (exists j', j = S j') as [j' ->].
      { rewrite (row_eq _ st i HI) in H. apply elem_of_list_In, in_map_iff in H as ([j' w'] & E & _). unfold shift in E. simpl in E. injection E as <- <-. exists j'. lia. }
      apply (row_in _ st i j' w HI) in H as [H|H]; apply H2 in H; split; lia. }
  split.
  { intros i j r r' w E E' H. apply rows_at in E as [-> _]. apply rows_at in E' as [-> _]. fold st in H |- *. apply (row_in _ st _ _ _ HI). apply (row_in _ st _ _ _ HI) in H. tauto. }
  unfold srabe2metis. cbn [rows edges]. fold st. rewrite total_fold.
  assert (sum_list (map length (map (write_row st) (seq 0 (length l)))) = fsum (length l) st.1 + fsum (length l) st.2)%nat as ->; [|lia].
  unfold fsum. rewrite map_map. induction (seq 0 (length l)) as [|i s IH]; simpl; [done|]. simpl in IH. rewrite IH, (row_eq _ st i HI), map_length, app_length. lia.
Qed.
(** which edges *)
Lemma pair_of_eq l a b w i j : NoDup l -> l !! i = Some a -> l !! j = Some b -> pair_of l (a, b, w) = if Nat.ltb i j then Some (i, j) else if Nat.ltb j i then Some (j, i) else None.
Proof. intros Hl Ha Hb. unfold pair_of. cbn [fst snd]. rewrite (proj2 (number_get l a i Hl) Ha), (proj2 (number_get l b j Hl) Hb). done. Qed.
Lemma pair_of_inv l e i j : NoDup l -> pair_of l e = Some (i, j) -> (l !! i = Some e.1.1 /\ l !! j = Some e.1.2) \/ (l !! i = Some e.1.2 /\ l !! j = Some e.1.1).
Proof.
  intros Hl. unfold pair_of. destruct (aget e.1.1 _) as [x|] eqn:Ea; [|done]. destruct (aget e.1.2 _) as [y|] eqn:Eb; [|done].
  apply (number_get _ _ _ Hl) in Ea. apply (number_get _ _ _ Hl) in Eb.
  destruct (Nat.ltb_spec x y); [intros [= -> ->]; by left|]. destruct (Nat.ltb_spec y x); [intros [= -> ->]; by right|done].
Qed.
Lemma lastw_some l es i j w : lastw l es i j = Some w -> exists e, e ∈ es /\ pair_of l e = Some (i, j) /\ e.2 = w.
Proof.
  induction es as [|e es IH] using rev_ind; [done|]. rewrite lastw_app. intros H.
  assert (lastw l es i j = Some w -> exists e', e' ∈ es ++ [e] /\ pair_of l e' = Some (i, j) /\ e'.2 = w) as Hr.
  { intros H'. destruct (IH H') as (e' & He & Hp). exists e'. split; [apply elem_of_app; by left|done]. }
  destruct (pair_of l e) as [[i' j']|] eqn:Ep; [|by apply Hr]. destruct (Nat.eqb_spec i i') as [<-|]; [|by apply Hr]. destruct (Nat.eqb_spec j j') as [<-|]; [|by apply Hr].
  simpl in H. injection H as <-. exists e. split; [apply elem_of_app; right; apply elem_of_list_here|done].
Qed.
Lemma lastw_last l es1 e es2 i j : pair_of l e = Some (i, j) -> (forall e', e' ∈ es2 -> pair_of l e' <> Some (i, j)) -> lastw l (es1 ++ e :: es2) i j = Some e.2.
Proof.
  intros He. induction es2 as [|e' es2 IH] using rev_ind; intros H.
  - rewrite lastw_app, He, !Nat.eqb_refl. done.
  - rewrite app_comm_cons, app_assoc, lastw_app. rewrite IH by (intros e'' He'; apply H, elem_of_app; by left).
    pose proof (H e') as Hn. destruct (pair_of l e') as [[i' j']|]; [|done]. destruct (Nat.eqb_spec i i') as [<-|]; [|done]. destruct (Nat.eqb_spec j j') as [<-|]; [|done].
    exfalso. apply Hn; [apply elem_of_app; right; apply elem_of_list_here|done].
Qed.
Lemma row_look l es i j r w : NoDup l -> rows (srabe2metis l es) !! i = Some r -> ((S j, w) ∈ r <-> lastw l es i j = Some w \/ lastw l es j i = Some w).
Proof. intros Hl E. apply rows_at in E as [-> _]. rewrite (row_in _ _ i j w (weights_inv l es Hl)), !weights_look. done. Qed.
Lemma pair_coupled l es a b e i j : NoDup l -> l !! i = Some a -> l !! j = Some b -> pair_of l e = Some (i, j) \/ pair_of l e = Some (j, i) -> e ∈ es -> coupled es a b e.2.
Proof.
  intros Hl Ha Hb Hp He. destruct e as [[x y] w]. unfold coupled. cbn [snd]. assert ((x = a /\ y = b) \/ (x = b /\ y = a)) as [[-> ->]|[-> ->]]; [|by left|by right].
  destruct Hp as [Hp|Hp]; apply (pair_of_inv _ _ _ _ Hl) in Hp; cbn [fst snd] in Hp; rewrite Ha, Hb in Hp; destruct Hp as [[[= ->] [= ->]]|[[= ->] [= ->]]]; tauto.
Qed.
Lemma C98_weight_lem l es i j a b r w : NoDup l -> l !! i = Some a -> l !! j = Some b -> rows (srabe2metis l es) !! i = Some r -> (S j, w) ∈ r -> coupled es a b w.
Proof.
  intros Hl Ha Hb Er H. apply (row_look l es i j r w Hl Er) in H as [H|H]; apply lastw_some in H as (e & He & Hp & <-); eapply (pair_coupled l es a b e i j); eauto.
Qed.
Lemma pair_any l a b x y w i j : NoDup l -> l !! i = Some a -> l !! j = Some b -> i <> j -> (x, y) = (a, b) \/ (x, y) = (b, a) ->
  pair_of l (x, y, w) = Some (if Nat.ltb i j then (i, j) else (j, i)).
Proof.
  intros Hl Ha Hb Hij [[= -> ->]|[= -> ->]].
  - rewrite (pair_of_eq l a b w i j Hl Ha Hb). destruct (Nat.ltb_spec i j); [done|]. destruct (Nat.ltb_spec j i); [done|lia].
  - rewrite (pair_of_eq l b a w j i Hl Hb Ha). destruct (Nat.ltb_spec j i), (Nat.ltb_spec i j); try done; lia.
Qed.
Lemma C98_last_lem l es1 es2 i j a b x y w r : NoDup l -> l !! i = Some a -> l !! j = Some b -> i <> j ->
  (x, y) = (a, b) \/ (x, y) = (b, a) -> (forall w', ~ coupled es2 a b w') ->
  rows (srabe2metis l (es1 ++ (x, y, w) :: es2)) !! i = Some r -> (S j, w) ∈ r.
Proof.
  intros Hl Ha Hb Hij Hxy H2 Er. apply (row_look l _ i j r w Hl Er). pose proof (pair_any l a b x y w i j Hl Ha Hb Hij Hxy) as Hp.
  assert (forall e', e' ∈ es2 -> pair_of l e' <> Some (if Nat.ltb i j then (i, j) else (j, i))) as Hn.
  { intros e' He' E. apply (H2 e'.2). apply (pair_coupled l es2 a b e' i j Hl Ha Hb); [|done]. destruct (Nat.ltb i j); [by left|by right]. }
  destruct (Nat.ltb i j); [left|right]; apply (lastw_last l es1 (x, y, w) es2); done.
Qed.
Lemma C98_edges_lem l es i j a b r : NoDup l -> l !! i = Some a -> l !! j = Some b -> i <> j -> rows (srabe2metis l es) !! i = Some r ->
  ((exists w, (S j, w) ∈ r) <-> exists w, coupled es a b w).
Proof.
  intros Hl Ha Hb Hij Er. split.
  - intros [w H]. exists w. by eapply C98_weight_lem.
  - intros Hc. assert (exists es1 x y w es2, es = es1 ++ (x, y, w) :: es2 /\ ((x, y) = (a, b) \/ (x, y) = (b, a)) /\ forall w', ~ coupled es2 a b w') as (es1 & x & y & w & es2 & -> & Hxy & Hn).
    { clear Er. induction es as [|[[x y] v] es IH]; [destruct Hc as [w [H|H]]; by apply elem_of_nil in H|].
      destruct (existsb (fun e => (Nat.eqb e.1.1 a && Nat.eqb e.1.2 b) || (Nat.eqb e.1.1 b && Nat.eqb e.1.2 a)) es) eqn:E.
      - apply existsb_exists in E as ([[x' y'] w'] & Hin & Ht). cbn [fst snd] in Ht. apply elem_of_list_In in Hin.
        destruct IH as (es1 & x2 & y2 & w2 & es2 & -> & H1 & H2).
        { exists w'. apply orb_prop in Ht as [Ht|Ht]; apply andb_prop in Ht as [H1 H2]; apply Nat.eqb_eq in H1 as ->; apply Nat.eqb_eq in H2 as ->; [by left|by right]. }
        exists ((x, y, v) :: es1), x2, y2, w2, es2. done.
      - assert (forall w', ~ coupled es a b w') as Hn.
        { intros w' Hw. assert (exists x' y', (x', y', w') ∈ es /\ (Nat.eqb x' a && Nat.eqb y' b) || (Nat.eqb x' b && Nat.eqb y' a) = true) as (x' & y' & Hin & Ht).
          { destruct Hw as [H|H]; [exists a, b|exists b, a]; (split; [done|]); rewrite !Nat.eqb_refl; [done|apply orb_true_r]. }
          assert (existsb (fun e : nat * nat * nat => (Nat.eqb e.1.1 a && Nat.eqb e.1.2 b) || (Nat.eqb e.1.1 b && Nat.eqb e.1.2 a)) es = true) as E'; [|congruence].
          apply existsb_exists. exists (x', y', w'). split; [by apply elem_of_list_In|done]. }
        destruct Hc as [w [H|H]]; apply elem_of_cons in H as [[= -> -> ->]|H]; try (exfalso; apply (Hn w); (by left) || (by right)).
        + exists [], x, y, v, es. split; [done|]. split; [by left|done].
        + exists [], x, y, v, es. split; [done|]. split; [by right|done]. }
    exists w. exact (C98_last_lem l es1 es2 i j a b x y w r Hl Ha Hb Hij Hxy Hn Er).
Qed.
Lemma C98_max_refuted_lem : exists l es i j a b r w w', NoDup l /\ l !! i = Some a /\ l !! j = Some b /\ rows (srabe2metis l es) !! i = Some r /\
  (S j, w) ∈ r /\ coupled es a b w' /\ (w < w')%nat.
Proof.
  exists [5; 8]%nat, [(5, 8, 3); (8, 5, 1)]%nat, 0%nat, 1%nat, 5%nat, 8%nat, [(2, 1)]%nat, 1%nat, 3%nat. split; [apply NoDup_ListNoDup; repeat constructor; simpl; intuition lia|].
  split; [done|]. split; [done|]. split; [done|]. split; [left|]. split; [left; left|lia].
Qed.
Lemma C98_order_refuted_lem : exists l iperm order, is_argsort iperm order /\ length iperm = length l /\
  metis_reorder (fun _ => order) l iperm <> omap (fun idx => l !! idx) order.
Proof.
  exists [5; 8]%nat, [1; 0]%nat, [1; 0]%nat. split; [|done]. split; [apply Permutation_swap|].
  intros i j a b x y Hij Ha Hb Hx Hy. destruct i as [|[|i]]; [| |done].
  - simpl in Ha. injection Ha as <-. simpl in Hx. injection Hx as <-. lia.
  - destruct j as [|[|j]]; [lia|lia|done].
Qed.
Lemma C98_example_lem : exists l es es2 i j a b x y w r, NoDup l /\ l !! i = Some a /\ l !! j = Some b /\ i <> j /\ ((x, y) = (a, b) \/ (x, y) = (b, a)) /\
  (forall w', ~ coupled es2 a b w') /\ rows (srabe2metis l (es ++ (x, y, w) :: es2)) !! i = Some r /\ r <> [].
Proof.
  exists [5; 8; 9]%nat, [(5, 8, 3); (8, 8, 1)]%nat, [(9, 8, 4); (7, 5, 1)]%nat, 0%nat, 1%nat, 5%nat, 8%nat, 8%nat, 5%nat, 2%nat, [(2, 2)]%nat.
  split; [apply NoDup_ListNoDup; repeat constructor; simpl; intuition lia|]. split; [done|]. split; [done|]. split; [done|]. split; [by right|]. split; [|done].
  intros w' [H|H]; repeat (apply elem_of_cons in H as [H|H]; [done|]); by apply elem_of_nil in H.
Qed.
