(** Proofs about the METIS file. *)
From stdpp Require Import base tactics list numbers.
From Verif Require Import MetModel MetSpec.

Definition keys {A} (l : list (nat * A)) : list nat := map fst l.
Lemma aget_aset {A} k (v : A) l k' : aget k' (aset k v l) = if Nat.eqb k' k then Some v else aget k' l.
Proof.
  induction l as [|[k0 v0] l IH]; simpl; [done|]. destruct (Nat.eqb_spec k k0) as [->|H]; simpl.
  - by destruct (Nat.eqb_spec k' k0).
  - rewrite IH. destruct (Nat.eqb_spec k' k0) as [->|H']; [|done]. by destruct (Nat.eqb_spec k0 k).
Qed.
Lemma aget_none {A} k (l : list (nat * A)) : aget k l = None <-> k ∉ keys l.
Proof.
  induction l as [|[k0 v0] l IH]; simpl; [split; [intros _; apply not_elem_of_nil|done]|]. rewrite not_elem_of_cons. destruct (Nat.eqb_spec k k0); [split; [done|tauto]|]. tauto.
Qed.
Lemma aget_in {A} (l : list (nat * A)) k v : NoDup (keys l) -> ((k, v) ∈ l <-> aget k l = Some v).
Proof.
  induction l as [|[k0 v0] l IH]; simpl; intros H; [split; [intros Hn; by apply elem_of_nil in Hn|done]|].
  apply list.NoDup_cons in H as [H1 H2]. rewrite elem_of_cons, (IH H2). destruct (Nat.eqb_spec k k0) as [->|Hk].
  - apply aget_none in H1. rewrite H1. split; [intros [[= ->]|?]; done|intros [= ->]; by left].
  - split; [intros [[= -> ->]|?]; done|by right].
Qed.
Lemma aset_keys {A} k (v : A) l : keys (aset k v l) = match aget k l with Some _ => keys l | None => keys l ++ [k] end.
Proof.
  induction l as [|[k0 v0] l IH]; simpl; [done|]. destruct (Nat.eqb_spec k k0); simpl; [done|]. rewrite IH. by destruct (aget k l).
Qed.
Lemma aset_nodup {A} k (v : A) l : NoDup (keys l) -> NoDup (keys (aset k v l)).
Proof.
  intros H. rewrite aset_keys. destruct (aget k l) eqn:E; [done|]. apply aget_none in E. apply list.NoDup_app. split; [done|]. split; [|apply NoDup_singleton].
  intros x Hx Hx'. apply elem_of_list_singleton in Hx' as ->. done.
Qed.
Lemma aset_len {A} k (v : A) l : length (aset k v l) = (length l + match aget k l with Some _ => 0 | None => 1 end)%nat.
Proof. rewrite <- (map_length fst (aset k v l)). change (map fst (aset k v l)) with (keys (aset k v l)). rewrite aset_keys. unfold keys. destruct (aget k l); rewrite ?app_length, map_length; simpl; lia. Qed.

(** two levels *)
Definition look (m : ddict) (r s : nat) : option nat := aget s (row m r).
Lemma row_ddset r s w m r' : row (ddset r s w m) r' = if Nat.eqb r' r then aset s w (row m r) else row m r'.
Proof. unfold ddset. unfold row at 1. rewrite aget_aset. by destruct (Nat.eqb r' r). Qed.
Lemma look_ddset r s w m r' s' : look (ddset r s w m) r' s' = if Nat.eqb r' r && Nat.eqb s' s then Some w else look m r' s'.
Proof. unfold look. rewrite row_ddset. destruct (Nat.eqb_spec r' r) as [->|]; [|done]. rewrite aget_aset. simpl. done. Qed.
Definition total (m : ddict) : nat := sum_list (map (fun e => length (snd e)) m).
Lemma total_fold m : foldl (fun n e => n + length (snd e))%nat 0%nat m = total m.
Proof.
  enough (forall k, foldl (fun n e => n + length (snd e))%nat k m = (k + total m)%nat) as H by apply (H 0%nat).
  induction m as [|e m IH]; intros k; simpl; [unfold total; simpl; lia|]. rewrite IH. unfold total. simpl. lia.
Qed.
Definition fresh (m : ddict) (r s : nat) : nat := match look m r s with Some _ => 0 | None => 1 end.
Lemma total_aset r d m : (total (aset r d m) + length (row m r) = total m + length d)%nat.
Proof.
  unfold row. induction m as [|[k d0] m IH]; simpl; [unfold total; simpl; lia|]. destruct (Nat.eqb_spec r k) as [->|H]; unfold total in *; simpl; [lia|].
  destruct (aget r m); simpl in *; lia.
Qed.
Lemma total_ddset r s w m : total (ddset r s w m) = (total m + fresh m r s)%nat.
Proof. pose proof (total_aset r (aset s w (row m r)) m) as H. rewrite aset_len in H. unfold ddset, fresh, look in *. lia. Qed.
Definition fsum (n : nat) (m : ddict) : nat := sum_list (map (fun i => length (row m i)) (seq 0 n)).
Lemma sum_at (f : nat -> nat) r d l : NoDup l -> r ∈ l -> sum_list (map (fun i => f i + if Nat.eqb i r then d else 0)%nat l) = (sum_list (map f l) + d)%nat.
Proof.
  assert (forall l, r ∉ l -> sum_list (map (fun i => f i + if Nat.eqb i r then d else 0)%nat l) = sum_list (map f l)) as H0.
  { clear. induction l as [|i l IH]; intros H; simpl; [done|]. apply not_elem_of_cons in H as [H1 H2]. rewrite IH by done. destruct (Nat.eqb_spec i r); [done|lia]. }
  induction l as [|i l IH]; intros Hn H; [by apply elem_of_nil in H|]. apply list.NoDup_cons in Hn as [Hn1 Hn2]. simpl. apply elem_of_cons in H as [->|H].
  - rewrite H0, Nat.eqb_refl by done. lia.
  - rewrite IH by done. destruct (Nat.eqb_spec i r) as [->|]; [done|lia].
Qed.
Lemma fsum_ddset n r s w m : (r < n)%nat -> fsum n (ddset r s w m) = (fsum n m + fresh m r s)%nat.
Proof.
  intros H. unfold fsum. rewrite <- (sum_at (fun i => length (row m i)) r (fresh m r s)); [|apply NoDup_ListNoDup, seq_NoDup|apply elem_of_list_In, in_seq; lia].
  f_equal. apply map_ext. intros i. rewrite row_ddset. destruct (Nat.eqb_spec i r) as [->|]; [|lia]. rewrite aset_len. unfold fresh, look. done.
Qed.

(** numbers of nodes *)
Lemma number_keys l : forall i, keys (number i l) = l.
Proof. unfold keys. induction l as [|x l IH]; intros i; simpl; [done|]. by rewrite IH. Qed.
Lemma number_get l x i : NoDup l -> (aget x (number 0 l) = Some i <-> l !! i = Some x).
Proof.
  intros H. enough (forall k, aget x (number k l) = Some (k + i)%nat <-> l !! i = Some x) as Hk by apply (Hk 0%nat).
  revert i H. induction l as [|y l IH]; intros i H k; simpl; [done|]. apply list.NoDup_cons in H as [H1 H2]. destruct (Nat.eqb_spec x y) as [->|Hxy].
  - destruct i as [|i]; simpl; [rewrite Nat.add_0_r; done|]. split; [intros [= E]; lia|]. intros E. exfalso. apply H1. by eapply elem_of_list_lookup_2.
  - destruct i as [|i]; simpl.
    + split; [|intros [= ->]; done]. intros E. exfalso. clear - E. assert (forall l j v, aget x (number j l) = Some v -> j <= v)%nat as Hj.
      { induction l0 as [|z l0 IH0]; intros j v; simpl; [done|]. destruct (Nat.eqb x z); [intros [= ->]; lia|]. intros Ev. apply IH0 in Ev. lia. }
      apply Hj in E. lia.
    + rewrite <- (IH i H2 (S k)). by rewrite Nat.add_succ_r.
Qed.

(** the invariant *)
Definition inv (n : nat) (st : ddict * ddict) : Prop :=
  (forall i j w, look st.1 i j = Some w <-> look st.2 j i = Some w) /\
  (forall i j w, look st.1 i j = Some w -> (i < j < n)%nat) /\
  (forall i, NoDup (keys (row st.1 i))) /\ (forall i, NoDup (keys (row st.2 i))) /\
  fsum n st.1 = total st.1 /\ fsum n st.2 = total st.1.
Lemma inv_start n : inv n ([], []).
Proof. split; [done|]. split; [done|]. split; [intros; constructor|]. split; [intros; constructor|]. unfold fsum, total. simpl. split; (induction (seq 0 n); simpl; [done|lia]). Qed.
Lemma inv_set n i j w st : (i < j < n)%nat -> inv n st -> inv n (ddset i j w st.1, ddset j i w st.2).
Proof.
  intros Hij (H1 & H2 & H3 & H4 & H5 & H6). cbn [fst snd]. split.
  { intros a b v. cbn [fst snd]. rewrite !look_ddset, (andb_comm (Nat.eqb b j)). destruct (Nat.eqb a i && Nat.eqb b j); [done|apply H1]. }
  split. { intros a b v. cbn [fst snd]. rewrite look_ddset. destruct (Nat.eqb_spec a i) as [->|]; [|apply H2]. destruct (Nat.eqb_spec b j) as [->|]; [done|apply H2]. }
  split. { intros a. cbn [fst snd]. rewrite row_ddset. destruct (Nat.eqb a i); [by apply aset_nodup|done]. }
  split. { intros a. cbn [fst snd]. rewrite row_ddset. destruct (Nat.eqb a j); [by apply aset_nodup|done]. }
  cbn [fst snd]. rewrite !fsum_ddset, total_ddset by lia. split; [lia|]. rewrite H6. f_equal. unfold fresh.
  destruct (look st.1 i j) as [v|] eqn:E; [by rewrite (proj1 (H1 i j v) E)|]. destruct (look st.2 j i) as [v|] eqn:E'; [|done]. apply H1 in E'. congruence.
Qed.
(** the pair of numbers of an edge *)
Definition pair_of (l : list nat) (e : (nat * nat) * nat) : option (nat * nat) :=
  match aget e.1.1 (number 0 l), aget e.1.2 (number 0 l) with
  | Some i, Some j => if Nat.ltb i j then Some (i, j) else if Nat.ltb j i then Some (j, i) else None
  | _, _ => None
  end.
Lemma step_eq l st e : edge_step (number 0 l) st e =
  match pair_of l e with Some (i, j) => (ddset i j e.2 st.1, ddset j i e.2 st.2) | None => st end.
Proof.
  destruct e as [[a b] w]. unfold pair_of, edge_step. cbn [fst snd]. destruct (aget a _) as [i|]; [|done]. destruct (aget b _) as [j|]; [|done].
  rewrite Nat.max_0_r. destruct (Nat.ltb_spec j i), (Nat.ltb_spec i j); try lia.
  - destruct (Nat.eqb_spec j i); [lia|done].
  - destruct (Nat.eqb_spec i j); [lia|done].
  - destruct (Nat.eqb_spec i j); [done|lia].
Qed.
Lemma pair_ok l e i j : NoDup l -> pair_of l e = Some (i, j) -> (i < j < length l)%nat.
Proof.
  intros Hl. unfold pair_of. destruct (aget e.1.1 _) as [a|] eqn:Ea; [|done]. destruct (aget e.1.2 _) as [b|] eqn:Eb; [|done].
  apply (number_get _ _ _ Hl), lookup_lt_Some in Ea. apply (number_get _ _ _ Hl), lookup_lt_Some in Eb.
  destruct (Nat.ltb_spec a b); [intros [= -> ->]; lia|]. destruct (Nat.ltb_spec b a); [intros [= -> ->]; lia|done].
Qed.
Lemma weights_inv l es : NoDup l -> inv (length l) (weights l es).
Proof.
  intros Hl. unfold weights. enough (forall st, inv (length l) st -> inv (length l) (foldl (edge_step (number 0 l)) st es)) as H by apply H, inv_start.
  induction es as [|e es IH]; intros st Hst; [done|]. cbn [foldl]. apply IH. rewrite step_eq. destruct (pair_of l e) as [[i j]|] eqn:E; [|done].
  apply inv_set; [by eapply pair_ok|done].
Qed.
Definition lastw (l : list nat) (es : list ((nat * nat) * nat)) (i j : nat) : option nat :=
  foldl (fun o e => match pair_of l e with Some (i', j') => if Nat.eqb i i' && Nat.eqb j j' then Some e.2 else o | None => o end) None es.
Lemma weights_look l es i j : look (weights l es).1 i j = lastw l es i j.
Proof.
  unfold weights, lastw. enough (forall st o, look st.1 i j = o -> look (foldl (edge_step (number 0 l)) st es).1 i j =
    foldl (fun o e => match pair_of l e with Some (i', j') => if Nat.eqb i i' && Nat.eqb j j' then Some e.2 else o | None => o end) o es) as H by (by apply H).
  induction es as [|e es IH]; intros st o Hst; [done|]. cbn [foldl]. apply IH. rewrite step_eq. destruct (pair_of l e) as [[i' j']|]; [|done].
  cbn [fst]. rewrite look_ddset. by destruct (Nat.eqb i i' && Nat.eqb j j').
Qed.
Lemma lastw_app l es e i j : lastw l (es ++ [e]) i j =
  match pair_of l e with Some (i', j') => if Nat.eqb i i' && Nat.eqb j j' then Some e.2 else lastw l es i j | None => lastw l es i j end.
Proof. unfold lastw. by rewrite foldl_app. Qed.

(** rows *)
Definition shift (e : nat * nat) : nat * nat := (fst e + 1, snd e)%nat.
Lemma in_shift j w d : (S j, w) ∈ map shift d <-> (j, w) ∈ d.
Proof.
  rewrite !elem_of_list_In, in_map_iff. split.
  - intros ([j' w'] & E & H). unfold shift in E. simpl in E. injection E as E ->. by assert (j' = j) as <- by lia.
  - intros H. exists (j, w). split; [unfold shift; simpl; f_equal; lia|done].
Qed.
Lemma filter_none (d : list (nat * nat)) i : (forall j w, (j, w) ∈ d -> j <> i) -> List.filter (fun e => negb (Nat.eqb (fst e) i)) d = d.
Proof.
  induction d as [|[j w] d IH]; intros H; simpl; [done|]. destruct (Nat.eqb_spec j i) as [->|]; simpl; [exfalso; apply (H i w); [left|done]|].
  rewrite IH; [done|]. intros j' w' Hj. apply (H j' w'). by right.
Qed.
Lemma row_eq n st i : inv n st -> write_row st i = map shift (row st.1 i ++ row st.2 i).
Proof.
  intros (H1 & H2 & H3 & H4 & _). unfold write_row. rewrite map_app. do 2 f_equal. apply filter_none. intros j w H.
  apply (aget_in _ _ _ (H4 i)) in H. change (look st.2 i j = Some w) in H. apply H1, H2 in H. lia.
Qed.
Lemma row_in n st i j w : inv n st -> (S j, w) ∈ write_row st i <-> look st.1 i j = Some w \/ look st.1 j i = Some w.
Proof.
  intros HI. rewrite (row_eq n st i HI), in_shift, elem_of_app. pose proof HI as (H1 & H2 & H3 & H4 & _).
  rewrite (aget_in _ _ _ (H3 i)), (aget_in _ _ _ (H4 i)). change (look st.1 i j = Some w \/ look st.2 i j = Some w <-> look st.1 i j = Some w \/ look st.1 j i = Some w). by rewrite <- H1.
Qed.
