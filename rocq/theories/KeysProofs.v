(** Proofs about dictionary and frequency keys. *)
From stdpp Require Import base tactics list numbers sorting fin_sets gmap.
From Verif Require Import Fld Py KeysModel KeysSpec.

Section dicts.
  Context {K V : Type} `{EqDecision K} `{EqDecision V}.
  Implicit Types (a b d e nd larger smaller other kw : dict K V) (k : K) (v : V).

  Lemma elem_of_keys d k : k ∈ d.*1 <-> is_Some (d_get d k).
  Proof.
    induction d as [|[k' v'] d IH]; simpl.
    - split; [by intros ?%elem_of_nil|by intros [? [=]]].
    - rewrite elem_of_cons, IH. destruct (decide (k = k')) as [->|Hne]; [split; [eauto|by left]|].
      split; [intros [->|Hs]; done|by right].
  Qed.
  Lemma get_None d k : d_get d k = None <-> k ∉ d.*1.
  Proof. by rewrite elem_of_keys, eq_None_not_Some. Qed.

  Lemma elem_of_get d k v : d_wf d -> ((k, v) ∈ d <-> d_get d k = Some v).
  Proof.
    unfold d_wf. induction d as [|[k' v'] d IH]; simpl; intros Hwf.
    - split; [by intros ?%elem_of_nil|done].
    - apply NoDup_cons in Hwf as [Hk Hwf]. rewrite elem_of_cons, IH by done.
      destruct (decide (k = k')) as [->|Hne]; [|naive_solver].
      split; [intros [[= ->]|Hg]; [done|]|intros [= ->]; by left].
      exfalso. apply Hk. apply elem_of_keys. eauto.
  Qed.

  Lemma get_set d k v k' : d_get (d_set d k v) k' = if decide (k' = k) then Some v else d_get d k'.
  Proof.
    induction d as [|[k2 v2] d IH]; simpl; [done|].
    destruct (decide (k = k2)) as [->|Hne]; simpl.
    - by destruct (decide (k' = k2)).
    - destruct (decide (k' = k2)) as [->|]; [|done]. rewrite decide_False; congruence.
  Qed.
  Lemma set_keys d k v k' : k' ∈ (d_set d k v).*1 <-> k' = k \/ k' ∈ d.*1.
  Proof. rewrite !elem_of_keys, get_set. destruct (decide (k' = k)); naive_solver. Qed.
  Lemma set_wf d k v : d_wf d -> d_wf (d_set d k v).
  Proof.
    unfold d_wf. induction d as [|[k2 v2] d IH]; simpl; intros Hwf.
    - apply NoDup_singleton.
    - apply NoDup_cons in Hwf as [Hk Hwf]. destruct (decide (k = k2)) as [->|Hne]; simpl.
      + by apply NoDup_cons.
      + apply NoDup_cons. split; [|auto]. rewrite set_keys. naive_solver.
  Qed.

  Lemma del_spec d k : d_wf d ->
    match d_get d k with
    | None => d_del d k = Err KeyError
    | Some _ => exists d', d_del d k = Ok d' /\ d_wf d' /\
                  forall k', d_get d' k' = if decide (k' = k) then None else d_get d k'
    end.
  Proof.
    unfold d_wf. induction d as [|[k2 v2] d IH]; simpl; intros Hwf; [done|].
    apply NoDup_cons in Hwf as [Hk Hwf]. destruct (decide (k = k2)) as [->|Hne].
    - exists d. split_and!; [done|done|]. intros k'. destruct (decide (k' = k2)) as [->|]; [|done].
      by apply get_None.
    - specialize (IH Hwf). destruct (d_get d k) as [v|] eqn:Hg.
      + destruct IH as (d' & -> & Hwf' & Hd'). eexists; split; [done|]. simpl. split.
        * apply NoDup_cons. split; [|done]. rewrite elem_of_keys, Hd'. rewrite decide_False by congruence.
          by rewrite <- elem_of_keys.
        * intros k'. rewrite Hd'. destruct (decide (k' = k2)) as [->|]; [|done].
          by rewrite decide_False by congruence.
      + by rewrite IH.
  Qed.

  Lemma update_wf d e : d_wf d -> d_wf (d_update d e).
  Proof. unfold d_update. revert d. induction e as [|[k v] e IH]; simpl; intros d Hd; [done|]. by apply IH, set_wf. Qed.
  Lemma get_update d e k : d_wf e ->
    d_get (d_update d e) k = match d_get e k with Some v => Some v | None => d_get d k end.
  Proof.
    unfold d_update, d_wf. revert d. induction e as [|[k2 v2] e IH]; simpl; intros d He; [done|].
    apply NoDup_cons in He as [Hk He]. rewrite IH, get_set by done.
    destruct (decide (k = k2)) as [->|]; [|done]. apply get_None in Hk. by rewrite Hk.
  Qed.

  Lemma wf_perm d e : d_wf d -> d_wf e -> (d ≡ₚ e <-> forall k, d_get d k = d_get e k).
  Proof.
    intros Hd He. split.
    - intros Hp k. apply option_eq. intros v. rewrite <- !elem_of_get by done. by rewrite Hp.
    - intros Hg. apply NoDup_Permutation.
      + by eapply NoDup_fmap_1.
      + by eapply NoDup_fmap_1.
      + intros [k v]. rewrite !elem_of_get by done. by rewrite Hg.
  Qed.

  Lemma d_eq_spec d e : d_wf d -> d_wf e -> (d_eq d e = true <-> forall k, d_get d k = d_get e k).
  Proof.
    intros Hd He. rewrite <- wf_perm by done. unfold d_eq.
    rewrite andb_true_iff, bool_decide_eq_true, forallb_forall. split.
    - intros [Hl Hf]. apply submseteq_Permutation_length_le; [lia|]. apply NoDup_submseteq.
      + by eapply NoDup_fmap_1.
      + intros [k v] Hx. apply elem_of_get; [done|]. apply elem_of_list_In in Hx. apply Hf in Hx.
        by apply bool_decide_eq_true in Hx.
    - intros Hp. split; [by rewrite Hp|]. intros [k v] Hx. apply bool_decide_eq_true. simpl.
      apply elem_of_get; [done|]. rewrite <- Hp. by apply elem_of_list_In.
  Qed.

  Lemma or_wf a b : d_wf a -> d_wf (dk_or a b).
  Proof. intros Ha. apply update_wf. apply NoDup_nil_2. Qed.
  Lemma or_get a b k : d_wf a -> d_wf b ->
    d_get (dk_or a b) k = match d_get b k with Some v => Some v | None => d_get a k end.
  Proof.
    intros Ha Hb. unfold dk_or, dk_new. rewrite get_update by by apply update_wf.
    rewrite get_update by done. simpl. by destruct (d_get b k), (d_get a k).
  Qed.

  Lemma and_loop larger smaller nd : d_wf smaller -> d_wf nd ->
    d_wf (foldl (fun nd kv => if dk_kv_contains larger kv.1 kv.2 then d_set nd kv.1 kv.2 else nd) nd smaller) /\
    forall k, d_get (foldl (fun nd kv => if dk_kv_contains larger kv.1 kv.2 then d_set nd kv.1 kv.2 else nd) nd smaller) k
      = match d_get smaller k with
        | Some v => if decide (d_get larger k = Some v) then Some v else d_get nd k
        | None => d_get nd k
        end.
  Proof.
    unfold d_wf at 1. revert nd. induction smaller as [|[k2 v2] sm IH]; simpl; intros nd Hs Hn; [done|].
    apply NoDup_cons in Hs as [Hk Hs].
    assert (d_wf (if dk_kv_contains larger k2 v2 then d_set nd k2 v2 else nd)) as Hn2
      by (destruct (dk_kv_contains larger k2 v2); [by apply set_wf|done]).
    destruct (IH _ Hs Hn2) as [H1 H2]. split; [done|]. intros k. rewrite H2. apply get_None in Hk.
    unfold dk_kv_contains. destruct (decide (k = k2)) as [->|Hne].
    - rewrite Hk. case_bool_decide as Hb; [rewrite decide_True by done|rewrite decide_False by done; done].
      rewrite get_set. by rewrite decide_True.
    - assert (d_get (if bool_decide (d_get larger k2 = Some v2) then d_set nd k2 v2 else nd) k = d_get nd k) as ->;
        [|done].
      case_bool_decide; [|done]. rewrite get_set. by rewrite decide_False.
  Qed.
  Lemma and_spec a b : d_wf a -> d_wf b ->
    d_wf (dk_and a b) /\ forall k, d_get (dk_and a b) k = if decide (d_get a k = d_get b k) then d_get a k else None.
  Proof.
    intros Ha Hb. unfold dk_and, dk_new.
    destruct (decide (length b < length a)).
    - destruct (and_loop a b [] Hb (NoDup_nil_2)) as [H1 H2]. split; [done|]. intros k. rewrite H2. simpl.
      destruct (d_get a k), (d_get b k); repeat case_decide; congruence.
    - destruct (and_loop b a [] Ha (NoDup_nil_2)) as [H1 H2]. split; [done|]. intros k. rewrite H2. simpl.
      destruct (d_get a k), (d_get b k); repeat case_decide; congruence.
  Qed.

  Lemma contains_spec d other : d_wf other ->
    (dk_contains d other = true <-> forall k v, d_get other k = Some v -> d_get d k = Some v).
  Proof.
    intros Ho. unfold dk_contains. rewrite forallb_forall. split.
    - intros Hf k v Hg. apply elem_of_get in Hg; [|done]. apply elem_of_list_In in Hg. apply Hf in Hg.
      by apply bool_decide_eq_true in Hg.
    - intros Hs [k v] Hx. apply bool_decide_eq_true. apply Hs. apply elem_of_get; [done|]. by apply elem_of_list_In.
  Qed.
  Lemma subkey_contains d other : dk_subkey_has d other = dk_contains d other.
  Proof.
    unfold dk_subkey_has, dk_contains. induction other as [|[k v] o IH]; simpl; [done|]. rewrite IH. f_equal.
    unfold dk_kv_contains. destruct (d_get d k); repeat case_bool_decide; congruence.
  Qed.

  Lemma without_spec d ks : d_wf d ->
    (NoDup ks /\ (forall k, k ∈ ks -> is_Some (d_get d k)) ->
       exists d', dk_without_keys d ks = Ok d' /\ d_wf d' /\
         forall k, d_get d' k = if decide (k ∈ ks) then None else d_get d k) /\
    (~ (NoDup ks /\ (forall k, k ∈ ks -> is_Some (d_get d k))) -> dk_without_keys d ks = Err KeyError).
  Proof.
    unfold dk_without_keys, dk_new. revert d. induction ks as [|k0 ks IH]; intros d Hd; cbn [mfor].
    - split.
      + intros _. exists d. split_and!; [done|done|]. intros k. rewrite decide_False by set_solver. done.
      + intros Hn. destruct Hn. split; [apply NoDup_nil_2|]. intros k Hk. by apply elem_of_nil in Hk.
    - pose proof (del_spec d k0 Hd) as Hdel. destruct (d_get d k0) as [v0|] eqn:Hg.
      + destruct Hdel as (d1 & -> & Hd1 & Hget). destruct (IH d1 Hd1) as [H1 H2].
        assert ((NoDup (k0 :: ks) /\ (forall k, k ∈ k0 :: ks -> is_Some (d_get d k))) <->
                (NoDup ks /\ (forall k, k ∈ ks -> is_Some (d_get d1 k)))) as Hiff.
        { rewrite NoDup_cons. split.
          - intros [[Hni Hnd] Hall]. split; [done|]. intros k Hk. rewrite Hget. destruct (decide (k = k0)) as [->|].
            + done.
            + apply Hall. by right.
          - intros [Hnd Hall]. split; [split; [|done]|].
            + intros Hk0. apply Hall in Hk0. rewrite Hget, decide_True in Hk0 by done. by destruct Hk0.
            + intros k Hk. apply elem_of_cons in Hk as [->|Hk]; [by rewrite Hg|].
              apply Hall in Hk. rewrite Hget in Hk. destruct (decide (k = k0)); [by destruct Hk|done]. }
        split.
        * intros Hp. apply Hiff in Hp. destruct (H1 Hp) as (d' & Hok & Hwf & Hg'). exists d'.
          split_and!; [done|done|]. intros k. rewrite Hg', Hget.
          destruct (decide (k = k0)) as [->|]; repeat case_decide; set_solver.
        * intros Hp. apply H2. by rewrite <- Hiff.
      + rewrite Hdel. split; [|done]. intros [_ Hall]. destruct (Hall k0) as [v Hv]; [by left|]. congruence.
  Qed.

  Lemma purge_spec d ks : d_wf d ->
    d_wf (dk_purge_keys d ks) /\
    forall k, d_get (dk_purge_keys d ks) k = if decide (k ∈ ks) then None else d_get d k.
  Proof.
    unfold dk_purge_keys, dk_new. revert d. induction ks as [|k0 ks IH]; intros d Hd; cbn [foldl].
    - split; [done|]. intros k. rewrite decide_False by set_solver. done.
    - set (d1 := match d_del d k0 with Ok cp => cp | Err _ => d end).
      assert (d_wf d1 /\ forall k, d_get d1 k = if decide (k = k0) then None else d_get d k) as [Hd1 Hget].
      { subst d1. pose proof (del_spec d k0 Hd) as Hdel. destruct (d_get d k0) as [v0|] eqn:Hg.
        - destruct Hdel as (d1 & -> & ? & ?). done.
        - rewrite Hdel. split; [done|]. intros k. by destruct (decide (k = k0)) as [->|]. }
      destruct (IH d1 Hd1) as [H1 H2]. split; [done|]. intros k. rewrite H2, Hget.
      destruct (decide (k = k0)) as [->|]; repeat case_decide; set_solver.
  Qed.

  Lemma copy_update_spec d e : d_wf d -> d_wf e ->
    d_wf (dk_copy_update d e) /\
    forall k, d_get (dk_copy_update d e) k = match d_get e k with Some v => Some v | None => d_get d k end.
  Proof. intros Hd He. split; [by apply update_wf|]. intros k. by apply get_update. Qed.

  (** the last dict that names the key wins *)
  Definition last_named (l : list (dict K V)) (k : K) : option V :=
    foldl (fun acc e => match d_get e k with Some v => Some v | None => acc end) None l.
  Lemma replace_spec d e more : d_wf d -> d_wf e -> Forall d_wf more ->
    d_wf (dk_replace_keys d e more) /\
    forall k, d_get (dk_replace_keys d e more) k =
      match last_named (e :: more) k with Some v => Some v | None => d_get d k end.
  Proof.
    intros Hd He Hm. unfold dk_replace_keys, dk_new, last_named.
    assert (forall d0, d_wf d0 -> d_wf (foldl d_update d0 more) /\ forall k acc,
      d_get d0 k = match acc with Some v => Some v | None => d_get d k end ->
      d_get (foldl d_update d0 more) k =
      match foldl (fun acc e => match d_get e k with Some v => Some v | None => acc end) acc more with
      | Some v => Some v | None => d_get d k end) as G.
    { induction Hm as [|e' more He' Hm IH]; intros d0 Hd0; cbn [foldl]; [done|].
      destruct (IH (d_update d0 e')) as [H1 H2]; [by apply update_wf|]. split; [done|].
      intros k acc Hacc. apply H2. rewrite get_update by done. by destruct (d_get e' k). }
    destruct (G (d_update d e)) as [H1 H2]; [by apply update_wf|]. split; [done|].
    intros k. cbn [foldl]. apply H2. rewrite get_update by done. by destruct (d_get e k).
  Qed.

  Lemma sub_loop a b : d_wf a -> d_wf b ->
    let r := mfor (fun cp kv => v ← d_item cp kv.1;
           if decide (v = kv.2) then d_del cp kv.1 else Err AssertionError) b a in
    match r with
    | Ok d => (forall k v, d_get b k = Some v -> d_get a k = Some v) /\ d_wf d /\
              forall k, d_get d k = match d_get b k with Some _ => None | None => d_get a k end
    | Err KeyError => exists k v, d_get b k = Some v /\ d_get a k = None
    | Err AssertionError => exists k v w, d_get b k = Some v /\ d_get a k = Some w /\ w <> v
    | Err _ => False
    end.
  Proof.
    simpl. unfold d_wf at 2. revert a. induction b as [|[k0 v0] b IH]; intros a Ha Hb; cbn [mfor].
    - split_and!; [by intros ? ? [=]|done|done].
    - cbn [fmap list_fmap fst snd] in Hb |- *. apply NoDup_cons in Hb as [Hk Hb]. apply get_None in Hk.
      unfold d_item at 1. pose proof (del_spec a k0 Ha) as Hdel. destruct (d_get a k0) as [w|] eqn:Hg; cbn [mbind res_bind].
      + destruct (decide (w = v0)) as [->|Hne].
        * destruct Hdel as (a1 & -> & Ha1 & Hget). specialize (IH a1 Ha1 Hb).
          destruct (mfor _ b a1) as [d|err] eqn:Hr.
          { destruct IH as (H1 & H2 & H3). split_and!; [|done|].
            - cbn [d_get]. intros k v. destruct (decide (k = k0)) as [->|Hne]; [intros [= ->]; done|].
              intros Hv. specialize (H1 k v Hv). rewrite Hget, decide_False in H1; done.
            - intros k. rewrite H3, Hget. cbn [d_get]. destruct (decide (k = k0)) as [->|]; [by rewrite Hk|done]. }
          destruct err; try done.
          { destruct IH as (k & v & H1 & H2). exists k, v. cbn [d_get]. rewrite Hget in H2.
            destruct (decide (k = k0)) as [->|]; [congruence|done]. }
          { destruct IH as (k & v & w & H1 & H2 & H3). exists k, v, w. cbn [d_get]. rewrite Hget in H2.
            destruct (decide (k = k0)) as [->|]; [congruence|done]. }
        * exists k0, v0, w. cbn [d_get]. by rewrite decide_True.
      + exists k0, v0. cbn [d_get]. by rewrite decide_True.
  Qed.
  Lemma sub_spec a b : d_wf a -> d_wf b ->
    match dk_sub a b with
    | Ok d => (forall k v, d_get b k = Some v -> d_get a k = Some v) /\ d_wf d /\
              forall k, d_get d k = match d_get b k with Some _ => None | None => d_get a k end
    | Err KeyError => exists k v, d_get b k = Some v /\ d_get a k = None
    | Err AssertionError => exists k v w, d_get b k = Some v /\ d_get a k = Some w /\ w <> v
    | Err _ => False
    end.
  Proof.
    intros Ha Hb. pose proof (sub_loop a b Ha Hb) as H. cbn zeta in H. unfold dk_sub.
    destruct (mfor _ b a) as [d|err] eqn:Hr; cbn [mbind res_bind]; [|done].
    destruct H as (H1 & H2 & H3). split_and!; [done|apply update_wf, NoDup_nil_2|].
    intros k. unfold dk_new. rewrite get_update by done. cbn [d_get]. rewrite <- H3. by destruct (d_get d k).
  Qed.

  Lemma new_spec kw a : d_wf kw -> d_wf a ->
    d_wf (dk_new kw (Some a)) /\
    forall k, d_get (dk_new kw (Some a)) k = match d_get a k with Some v => Some v | None => d_get kw k end.
  Proof. intros Hk Ha. split; [by apply update_wf|]. intros k. by apply get_update. Qed.
End dicts.

Section sorting.
  Context {A : Type} (lt : A -> A -> bool).
  Lemma insert_sorted_perm x l : insert_sorted lt x l ≡ₚ x :: l.
  Proof.
    induction l as [|y l IH]; simpl; [done|]. destruct (lt y x); [|done].
    rewrite IH. apply perm_swap.
  Qed.
  Lemma sorted_perm l : sorted lt l ≡ₚ l.
  Proof. induction l as [|x l IH]; simpl; [done|]. by rewrite insert_sorted_perm, IH. Qed.
End sorting.

Section hashing.
  Context {K V : Type} `{EqDecision K} `{EqDecision V}.
  Context (klt : K -> K -> bool) (vlt : V -> V -> bool) (Hst : strict_total klt).

  (** keys strictly increasing *)
  Definition kle (x y : K * V) : Prop := klt x.1 y.1 = true.

  Lemma insert_sorted_sorted (x : K * V) l : x.1 ∉ l.*1 ->
    StronglySorted kle l -> StronglySorted kle (insert_sorted (item_lt klt vlt) x l).
  Proof.
    induction l as [|y l IH]; intros Hx Hl; simpl.
    - repeat constructor.
    - cbn [fmap list_fmap] in Hx. apply not_elem_of_cons in Hx as [Hxy Hx].
      apply StronglySorted_inv in Hl as [Hl Hy]. unfold item_lt at 1. rewrite decide_False by congruence.
      destruct (klt y.1 x.1) eqn:Hlt.
      + constructor; [by apply IH|]. rewrite insert_sorted_perm. by constructor.
      + assert (kle x y) as Hxy'. { destruct (st_total _ Hst x.1 y.1 Hxy); [done|congruence]. }
        constructor; [by constructor|]. constructor; [done|].
        eapply Forall_impl; [exact Hy|]. intros z Hz. unfold kle in *. by eapply (st_trans _ Hst).
  Qed.
  Lemma sorted_sorted (d : dict K V) : d_wf d -> StronglySorted kle (sorted (item_lt klt vlt) d).
  Proof.
    unfold d_wf. induction d as [|x d IH]; intros Hd; simpl; [constructor|].
    apply NoDup_cons in Hd as [Hx Hd]. apply insert_sorted_sorted; [|by apply IH].
    intros Hin. apply elem_of_list_fmap in Hin as (y & Hy & Hin). rewrite sorted_perm in Hin.
    apply Hx. rewrite Hy. by apply (elem_of_list_fmap_1 fst).
  Qed.
  Lemma kle_unique (l1 l2 : list (K * V)) : StronglySorted kle l1 -> StronglySorted kle l2 -> l1 ≡ₚ l2 -> l1 = l2.
  Proof.
    revert l2. induction l1 as [|x l1 IH]; intros l2 H1 H2 Hp.
    - by apply Permutation_nil in Hp.
    - destruct l2 as [|y l2]; [symmetry in Hp; by apply Permutation_nil in Hp|].
      apply StronglySorted_inv in H1 as [H1 F1]. apply StronglySorted_inv in H2 as [H2 F2].
      assert (x = y) as ->.
      { assert (x ∈ y :: l2) as Hx by (rewrite <- Hp; by left).
        assert (y ∈ x :: l1) as Hy by (rewrite Hp; by left).
        apply elem_of_cons in Hx as [->|Hx]; [done|]. apply elem_of_cons in Hy as [->|Hy]; [done|].
        rewrite Forall_forall in F1, F2. apply F1 in Hy. apply F2 in Hx. unfold kle in *.
        pose proof (st_trans _ Hst _ _ _ Hy Hx) as Hc. rewrite (st_irrefl _ Hst) in Hc. done. }
      f_equal. apply IH; [done|done|]. by apply Permutation_cons_inv in Hp.
  Qed.
  Lemma sorted_same (a b : dict K V) : d_wf a -> d_wf b -> a ≡ₚ b ->
    sorted (item_lt klt vlt) a = sorted (item_lt klt vlt) b.
  Proof.
    intros Ha Hb Hp. apply kle_unique; [by apply sorted_sorted|by apply sorted_sorted|].
    by rewrite !sorted_perm.
  Qed.
  Lemma hash_tuple_eq (a b : dict K V) : d_wf a -> d_wf b ->
    dk_eq a b = true -> dk_hash_tuple klt vlt a = dk_hash_tuple klt vlt b.
  Proof. intros Ha Hb He. apply sorted_same; [done..|]. apply wf_perm; [done..|]. by apply d_eq_spec. Qed.
  Lemma hash_tuple_inj (a b : dict K V) : d_wf a -> d_wf b ->
    dk_hash_tuple klt vlt a = dk_hash_tuple klt vlt b -> dk_eq a b = true.
  Proof.
    intros Ha Hb He. apply d_eq_spec; [done..|]. apply wf_perm; [done..|].
    rewrite <- (sorted_perm (item_lt klt vlt) a), <- (sorted_perm (item_lt klt vlt) b).
    unfold dk_hash_tuple in He. by rewrite He.
  Qed.

  Definition cache_ok (hash : list (K * V) -> Z) (o : dkobj (K := K) (V := V)) : Prop :=
    forall h, dk_prev_hash o = Some h -> h = hash (dk_hash_tuple klt vlt (dk_dict o)).
  Lemma dk_hash_spec hash o : cache_ok hash o ->
    (dk_hash klt vlt hash o).1 = hash (dk_hash_tuple klt vlt (dk_dict o)) /\
    dk_dict (dk_hash klt vlt hash o).2 = dk_dict o /\ cache_ok hash (dk_hash klt vlt hash o).2.
  Proof.
    intros Hc. unfold dk_hash. destruct (dk_prev_hash o) as [h|] eqn:Hp.
    - split_and!; [by apply Hc|done|done].
    - split_and!; [done|done|]. intros h [= <-]. done.
  Qed.
  (** the object after n further hash() calls *)
  Definition after_hashes (hash : list (K * V) -> Z) (n : nat) (d : dict K V) : dkobj (K := K) (V := V) :=
    Nat.iter n (fun o => (dk_hash klt vlt hash o).2) (DKObj d None).
  Lemma after_hashes_ok hash n d :
    dk_dict (after_hashes hash n d) = d /\ cache_ok hash (after_hashes hash n d).
  Proof.
    induction n as [|n [H1 H2]]; simpl; [done|]. destruct (dk_hash_spec hash _ H2) as (_ & H3 & H4).
    unfold after_hashes in *. by rewrite H3.
  Qed.
  Lemma hash_eq hash a b n m : d_wf a -> d_wf b -> dk_eq a b = true ->
    (dk_hash klt vlt hash (after_hashes hash n a)).1 = (dk_hash klt vlt hash (after_hashes hash m b)).1.
  Proof.
    intros Ha Hb He. destruct (after_hashes_ok hash n a) as [H1 H2]. destruct (after_hashes_ok hash m b) as [H3 H4].
    destruct (dk_hash_spec hash _ H2) as [-> _]. destruct (dk_hash_spec hash _ H4) as [-> _].
    rewrite H1, H3. f_equal. by apply hash_tuple_eq.
  Qed.

  Lemma tuple_lt_irrefl {A} `{EqDecision A} (lt : A -> A -> bool) (l : list A) : tuple_lt lt l l = false.
  Proof. induction l as [|x l IH]; simpl; [done|]. by rewrite decide_True. Qed.
  Lemma dk_lt_false a b : dk_lt klt vlt a b = false.
  Proof. apply tuple_lt_irrefl. Qed.
End hashing.

Section frequency.
  Context {F : Type} `{EqDecision F}.
  Implicit Types (a b k : dict F Z) (f : F).

  Lemma combine_spec (op : Z -> Z -> Z) a b :
    d_wf a -> d_wf b -> (forall x, op x 0 = x)%Z ->
    d_wf (fk_combine op a b) /\ (forall f, mult (fk_combine op a b) f = op (mult a f) (mult b f)) /\
    ((forall f, d_get a f <> Some 0%Z) -> (forall f, d_get b f <> Some 0%Z) ->
      (forall f n, n <> 0%Z -> op 0%Z n <> 0%Z) -> forall f, d_get (fk_combine op a b) f <> Some 0%Z).
  Proof.
    intros Ha Hb Hop. unfold fk_combine.
    (* strengthen: starting from any d that agrees with a on the keys of b *)
    assert (forall d, d_wf d -> d_wf b -> (forall f, is_Some (d_get b f) -> d_get d f = d_get a f) ->
      let r := foldl (fun d fn => let current_idx := default 0%Z (d_get a fn.1) in
                 let new_idx := op current_idx fn.2 in
                 if decide (new_idx = 0%Z /\ is_Some (d_get d fn.1)) then
                   match d_del d fn.1 with Ok d => d | Err _ => d end
                 else d_set d fn.1 new_idx) d b in
      d_wf r /\ forall f, d_get r f =
        match d_get b f with
        | Some n => if decide (op (mult a f) n = 0%Z /\ is_Some (d_get a f)) then None else Some (op (mult a f) n)
        | None => d_get d f
        end) as G.
    { clear Hb. unfold d_wf at 2. induction b as [|[f0 n0] b IH]; intros d Hd Hb Hag; cbn [foldl fst snd]; [done|].
      apply NoDup_cons in Hb as [Hf0 Hb].
      apply get_None in Hf0. cbn [fst] in Hf0. fold (mult a f0).
      cbn zeta. match goal with |- d_wf (foldl _ ?d1 b) /\ _ => set (d1' := d1) end.
      assert (d_wf d1' /\ forall f, d_get d1' f =
        if decide (f = f0) then (if decide (op (mult a f0) n0 = 0%Z /\ is_Some (d_get a f0)) then None else Some (op (mult a f0) n0))
        else d_get d f) as [Hd1 Hget].
      { assert (d_get d f0 = d_get a f0) as Hda.
        { apply Hag. cbn [d_get]. rewrite decide_True by done. eauto. }
        subst d1'. cbn zeta. rewrite Hda. destruct (decide (op (mult a f0) n0 = 0%Z /\ is_Some (d_get a f0))) as [[Hz [v Hv]]|Hno].
        - pose proof (del_spec d f0 Hd) as Hdel. rewrite Hda, Hv in Hdel. destruct Hdel as (d' & -> & ? & Hg). done.
        - split; [by apply set_wf|]. intros f. rewrite get_set. done. }
      destruct (IH d1' Hd1 Hb) as [H1 H2].
      { intros f Hf. rewrite Hget. destruct (decide (f = f0)) as [->|Hne]; [rewrite Hf0 in Hf; by destruct Hf|].
        apply Hag. cbn [d_get]. by rewrite decide_False. }
      split; [done|]. intros f. rewrite H2, Hget. cbn [d_get].
      destruct (decide (f = f0)) as [->|]; [by rewrite Hf0|]. done. }
    destruct (G a Ha Hb ltac:(done)) as [H1 H2]. split; [done|]. split.
    - intros f. unfold mult at 1. rewrite H2. destruct (d_get b f) as [n|] eqn:Hbf; simpl.
      + assert (mult b f = n) as -> by (unfold mult; by rewrite Hbf). destruct (decide _) as [[-> _]|]; done.
      + assert (mult b f = 0%Z) as -> by (unfold mult; by rewrite Hbf). by rewrite Hop.
    - intros Hca Hcb Hz f. rewrite H2. destruct (d_get b f) as [n|] eqn:Hbf; [|apply Hca].
      destruct (decide _) as [|Hno]; [done|]. intros [= Heq].
      apply not_and_l in Hno as [|Hna]; [done|].
      apply (Hz f n); [intros ->; by eapply Hcb|]. unfold mult in Heq. destruct (d_get a f); [naive_solver|done].
  Qed.

  Lemma set_loop_spec (g : F * Z -> Z) k d : d_wf k -> d_wf d ->
    d_wf (foldl (fun d fn => d_set d fn.1 (g fn)) d k) /\
    forall f, d_get (foldl (fun d fn => d_set d fn.1 (g fn)) d k) f =
      match d_get k f with Some n => Some (g (f, n)) | None => d_get d f end.
  Proof.
    unfold d_wf at 1. revert d. induction k as [|[f0 n0] k IH]; intros d Hk Hd; cbn [foldl fst]; [done|].
    apply NoDup_cons in Hk as [Hf0 Hk]. apply get_None in Hf0. cbn [fst] in Hf0.
    destruct (IH (d_set d f0 (g (f0, n0))) Hk) as [H1 H2]; [by apply set_wf|]. split; [done|].
    intros f. rewrite H2, get_set. cbn [d_get]. destruct (decide (f = f0)) as [->|]; [by rewrite Hf0|done].
  Qed.

  Lemma rmul_spec n k : d_wf k ->
    d_wf (fk_rmul n k) /\ forall f, d_get (fk_rmul n k) f = (fun m => n * m)%Z <$> d_get k f.
  Proof.
    intros Hk. destruct (set_loop_spec (fun fn => n * fn.2)%Z k [] Hk (NoDup_nil_2)) as [H1 H2].
    split; [done|]. intros f. unfold fk_rmul. rewrite H2. by destruct (d_get k f).
  Qed.
  Lemma neg_spec k : d_wf k ->
    d_wf (fk_neg k) /\ forall f, d_get (fk_neg k) f = Z.opp <$> d_get k f.
  Proof.
    intros Hk. destruct (set_loop_spec (fun fn => - default 0 (d_get k fn.1))%Z k [] Hk (NoDup_nil_2)) as [H1 H2].
    split; [done|]. intros f. unfold fk_neg. rewrite H2. simpl. by destruct (d_get k f).
  Qed.

  Lemma add_spec a b : d_wf a -> d_wf b ->
    d_wf (fk_add a b) /\ (forall f, mult (fk_add a b) f = (mult a f + mult b f)%Z) /\
    (canonical a -> canonical b -> canonical (fk_add a b)).
  Proof.
    intros Ha Hb. destruct (combine_spec Z.add a b Ha Hb ltac:(lia)) as (H1 & H2 & H3).
    split_and!; [done|done|]. intros [_ Hca] [_ Hcb]. split; [done|]. apply H3; [done|done|]. lia.
  Qed.
  Lemma fsub_spec a b : d_wf a -> d_wf b ->
    d_wf (fk_sub a b) /\ (forall f, mult (fk_sub a b) f = (mult a f - mult b f)%Z) /\
    (canonical a -> canonical b -> canonical (fk_sub a b)).
  Proof.
    intros Ha Hb. destruct (combine_spec Z.sub a b Ha Hb ltac:(lia)) as (H1 & H2 & H3).
    split_and!; [done|done|]. intros [_ Hca] [_ Hcb]. split; [done|]. apply H3; [done|done|]. lia.
  Qed.
  Lemma neg_mult k f : d_wf k -> mult (fk_neg k) f = (- mult k f)%Z.
  Proof. intros Hk. unfold mult. destruct (neg_spec k Hk) as [_ ->]. by destruct (d_get k f). Qed.
  Lemma rmul_mult n k f : d_wf k -> mult (fk_rmul n k) f = (n * mult k f)%Z.
  Proof. intros Hk. unfold mult. destruct (rmul_spec n k Hk) as [_ ->]. destruct (d_get k f); simpl; lia. Qed.
  Lemma neg_canonical k : canonical k -> canonical (fk_neg k).
  Proof.
    intros [Hk Hc]. destruct (neg_spec k Hk) as [H1 H2]. split; [done|]. intros f. rewrite H2.
    specialize (Hc f). destruct (d_get k f) as [n|]; [|done]. simpl. intros [= Hn]. apply Hc. f_equal. lia.
  Qed.
  Lemma rmul_canonical n k : n <> 0%Z -> canonical k -> canonical (fk_rmul n k).
  Proof.
    intros Hn [Hk Hc]. destruct (rmul_spec n k Hk) as [H1 H2]. split; [done|]. intros f. rewrite H2.
    specialize (Hc f). destruct (d_get k f) as [m|]; [|done]. simpl. intros [= Hm]. apply Hc. f_equal. nia.
  Qed.

  Lemma eval_canonical e : proper e -> canonical (eval e) /\ forall f, mult (eval e) f = meaning e f.
  Proof.
    induction e as [k|a IHa b IHb|a IHa b IHb|a IHa|n a IHa]; simpl; intros Hp.
    - done.
    - destruct Hp as [Hpa Hpb]. destruct (IHa Hpa) as [Ca Ma]. destruct (IHb Hpb) as [Cb Mb].
      destruct (add_spec (eval a) (eval b)) as (H1 & H2 & H3); [apply Ca|apply Cb|]. split; [auto|].
      intros f. by rewrite H2, Ma, Mb.
    - destruct Hp as [Hpa Hpb]. destruct (IHa Hpa) as [Ca Ma]. destruct (IHb Hpb) as [Cb Mb].
      destruct (fsub_spec (eval a) (eval b)) as (H1 & H2 & H3); [apply Ca|apply Cb|]. split; [auto|].
      intros f. by rewrite H2, Ma, Mb.
    - destruct (IHa Hp) as [Ca Ma]. split; [by apply neg_canonical|]. intros f. by rewrite neg_mult, Ma by apply Ca.
    - destruct Hp as [Hn Hp]. destruct (IHa Hp) as [Ca Ma]. split; [by apply rmul_canonical|].
      intros f. by rewrite rmul_mult, Ma by apply Ca.
  Qed.

  Lemma canonical_get k f : canonical k -> d_get k f = if decide (mult k f = 0%Z) then None else Some (mult k f).
  Proof.
    intros [_ Hc]. unfold mult. specialize (Hc f). destruct (d_get k f) as [n|]; simpl.
    - destruct (decide (n = 0%Z)) as [->|]; done.
    - done.
  Qed.
  Lemma canonical_eq a b : canonical a -> canonical b -> (fk_eq a b = true <-> forall f, mult a f = mult b f).
  Proof.
    intros Ha Hb. unfold fk_eq. rewrite d_eq_spec by (apply Ha || apply Hb). split; intros Hf f.
    - unfold mult. by rewrite Hf.
    - rewrite !canonical_get by done. by rewrite Hf.
  Qed.
  Lemma canonical_DC k : canonical k -> (fk_DC_is k = true <-> forall f, mult k f = 0%Z).
  Proof.
    intros Hk. destruct k as [|[f0 n0] k]; simpl; [done|]. split; [done|]. intros Hf. specialize (Hf f0).
    destruct Hk as [_ Hc]. specialize (Hc f0). unfold mult in Hf. cbn [d_get] in *. rewrite decide_True in * by done.
    simpl in Hf. by subst.
  Qed.

  Lemma filter_wf k : d_wf k -> d_wf (filter (fun fn => fn.2 <> 0%Z) k).
  Proof.
    unfold d_wf, dict in *. induction k as [|[f n] k IH]; intros Hk; [done|]. cbn [fmap list_fmap] in Hk.
    apply NoDup_cons in Hk as [Hf Hk]. rewrite filter_cons. destruct (decide _); [|by apply IH].
    cbn [fmap list_fmap]. apply NoDup_cons. split; [|by apply IH]. intros Hin. apply Hf.
    apply elem_of_list_fmap in Hin as (x & -> & Hx). apply elem_of_list_filter in Hx as [_ Hx].
    by apply (elem_of_list_fmap_1 fst).
  Qed.
  Lemma filter_get k f : d_wf k ->
    d_get (filter (fun fn => fn.2 <> 0%Z) k) f = if decide (mult k f = 0%Z) then None else Some (mult k f).
  Proof.
    intros Hk. apply option_eq. intros n. rewrite <- elem_of_get by by apply filter_wf.
    unfold dict in *. trans (n <> 0%Z /\ (f, n) ∈ k); [apply (elem_of_list_filter (fun fn : F * Z => fn.2 <> 0%Z))|].
    rewrite elem_of_get by done.
    assert (d_get k f = Some n -> mult k f = n) as H1 by (unfold mult; by intros ->).
    assert (mult k f <> 0%Z -> d_get k f = Some (mult k f)) as H2 by (unfold mult; by destruct (d_get k f)).
    destruct (decide (mult k f = 0%Z)) as [Hz|Hz].
    - split; [intros [Hn Hg]; by rewrite (H1 Hg) in Hz|done].
    - split; [intros [_ Hg]; by rewrite H1|intros [= <-]; auto].
  Qed.
  Lemma fk_hash_same (flt : F -> F -> bool) a b : strict_total flt -> d_wf a -> d_wf b ->
    (forall f, mult a f = mult b f) -> fk_hash_tuple flt a = fk_hash_tuple flt b.
  Proof.
    intros Hst Ha Hb Hf. unfold fk_hash_tuple. apply sorted_same; [done|by apply filter_wf..|].
    apply wf_perm; [by apply filter_wf..|]. intros f. by rewrite !filter_get, Hf.
  Qed.

  Section freq.
    Context (M : zmod) (Hz : F -> M).
    Lemma zadd_0_r (x : M) : zm_add M x (zm_zero M) = x.
    Proof. by rewrite zm_comm, zm_add_0. Qed.
    Definition zsum (g : F -> M) (l : list F) : M := foldr (fun f s => zm_add M (g f) s) (zm_zero M) l.
    Lemma zsum_perm g l1 l2 : l1 ≡ₚ l2 -> zsum g l1 = zsum g l2.
    Proof.
      induction 1; simpl; try congruence. rewrite !zm_assoc. f_equal. apply zm_comm.
    Qed.
    Lemma zsum_add g h l : zsum (fun f => zm_add M (g f) (h f)) l = zm_add M (zsum g l) (zsum h l).
    Proof.
      induction l as [|f l IH]; simpl; [by rewrite zm_add_0|]. rewrite IH, !zm_assoc. f_equal.
      rewrite <- !zm_assoc. f_equal. apply zm_comm.
    Qed.
    Lemma zsum_ext g h l : (forall f, f ∈ l -> g f = h f) -> zsum g l = zsum h l.
    Proof.
      induction l as [|f l IH]; simpl; intros Hg; [done|]. rewrite (Hg f), IH; [done| |by left].
      intros. apply Hg. by right.
    Qed.
    (* extra indices on which g vanishes do not matter *)
    Lemma zsum_skip g l1 l2 : NoDup l1 -> NoDup l2 -> (forall f, f ∈ l1 -> f ∈ l2) ->
      (forall f, f ∈ l2 -> f ∉ l1 -> g f = zm_zero M) -> zsum g l1 = zsum g l2.
    Proof.
      intros H1 H2 Hsub Hz0.
      assert (l2 ≡ₚ l1 ++ filter (fun f => f ∉ l1) l2) as Hp.
      { apply NoDup_Permutation; [done| |].
        - apply NoDup_app. split_and!; [done| |by apply NoDup_filter].
          intros f Hf Hf2. by apply elem_of_list_filter in Hf2 as [? _].
        - intros f. rewrite elem_of_app, elem_of_list_filter. destruct (decide (f ∈ l1)); naive_solver. }
      rewrite (zsum_perm _ _ _ Hp). generalize (elem_of_list_filter (fun f => f ∉ l1) l2).
      intros Hin.
      assert (forall l, (forall f, f ∈ l -> g f = zm_zero M) -> zsum g (l1 ++ l) = zsum g l1) as G.
      { clear. intros l Hl. induction l1 as [|f l1 IH]; simpl; [|by rewrite IH].
        induction l as [|f l IH]; simpl; [done|]. rewrite (Hl f), zm_add_0 by by left. apply IH. intros; apply Hl. by right. }
      symmetry. apply G. intros f Hf. apply elem_of_list_filter in Hf as [? ?]. by apply Hz0.
    Qed.

    Lemma freq_sum k : d_wf k -> fk_freq M Hz k = zsum (fun f => zm_scale M (Hz f) (mult k f)) k.*1.
    Proof.
      intros Hk. unfold fk_freq, fk_frequency.
      assert (forall s l, foldl (fun s fn => if decide (fn.2 <> 0%Z) then zm_add M s (zm_scale M (Hz fn.1) fn.2) else s) s l
        = zm_add M s (foldr (fun fn s => zm_add M (zm_scale M (Hz fn.1) fn.2) s) (zm_zero M) l)) as G.
      { intros s l. revert s. induction l as [|[f n] l IH]; intros s; cbn [foldl foldr fst snd]; [by rewrite zadd_0_r|].
        rewrite IH. destruct (decide (n <> 0%Z)) as [|Hn]; [by rewrite zm_assoc|].
        assert (n = 0%Z) as -> by lia. by rewrite zm_scale_0, zm_add_0. }
      rewrite G, zm_add_0. clear G.
      assert (forall l, (forall f n, (f, n) ∈ l -> mult k f = n) ->
        foldr (fun fn s => zm_add M (zm_scale M (Hz fn.1) fn.2) s) (zm_zero M) l
        = zsum (fun f => zm_scale M (Hz f) (mult k f)) l.*1) as G.
      { induction l as [|[f n] l IH]; intros Hl; simpl; [done|]. rewrite IH by (intros; apply Hl; by right).
        by rewrite (Hl f n) by by left. }
      apply G. intros f n Hin. apply elem_of_get in Hin; [|done]. unfold mult. by rewrite Hin.
    Qed.
    Lemma freq_sum_over k l : d_wf k -> NoDup l -> (forall f, mult k f <> 0%Z -> f ∈ l) ->
      fk_freq M Hz k = zsum (fun f => zm_scale M (Hz f) (mult k f)) l.
    Proof.
      intros Hk Hl Hin. rewrite freq_sum by done.
      set (l' := filter (fun f => mult k f <> 0%Z) l).
      trans (zsum (fun f => zm_scale M (Hz f) (mult k f)) l').
      - symmetry. apply zsum_skip; [by apply NoDup_filter|done| |].
        + intros f Hf. apply elem_of_list_filter in Hf as [Hm _]. apply elem_of_keys. unfold mult in Hm.
          destruct (d_get k f); [eauto|done].
        + intros f Hf Hnf. destruct (decide (mult k f = 0%Z)) as [->|Hm]; [apply zm_scale_0|].
          destruct Hnf. apply elem_of_list_filter. auto.
      - apply zsum_skip; [by apply NoDup_filter|done| |].
        + intros f Hf. by apply elem_of_list_filter in Hf as [_ ?].
        + intros f Hf Hnf. destruct (decide (mult k f = 0%Z)) as [->|Hm]; [apply zm_scale_0|].
          destruct Hnf. apply elem_of_list_filter. auto.
    Qed.
    Lemma mult_key k f : mult k f <> 0%Z -> f ∈ k.*1.
    Proof. unfold mult. intros Hm. apply elem_of_keys. destruct (d_get k f); [eauto|done]. Qed.

    Lemma freq_additive a b c : d_wf a -> d_wf b -> d_wf c ->
      (forall f, mult c f = (mult a f + mult b f)%Z) ->
      fk_freq M Hz c = zm_add M (fk_freq M Hz a) (fk_freq M Hz b).
    Proof.
      intros Ha Hb Hc Hm. set (l := remove_dups (a.*1 ++ b.*1)).
      assert (NoDup l) by apply NoDup_remove_dups.
      rewrite !(freq_sum_over _ l); try done.
      - rewrite <- zsum_add. apply zsum_ext. intros f _. by rewrite Hm, zm_scale_add.
      - intros f Hf. apply elem_of_remove_dups, elem_of_app. right. by apply mult_key.
      - intros f Hf. apply elem_of_remove_dups, elem_of_app. left. by apply mult_key.
      - intros f Hf. apply elem_of_remove_dups, elem_of_app. rewrite Hm in Hf.
        destruct (decide (mult a f = 0%Z)); [right|left]; apply mult_key; lia.
    Qed.
    Lemma freq_extract k : fk_freq M Hz k = extract_freq M Hz k.
    Proof.
      unfold fk_freq, extract_freq, fk_frequency, classical_frequency_extract. generalize (zm_zero M).
      induction k as [|[f n] k IH]; intros s; cbn [foldl fst snd]; [done|]. rewrite IH. f_equal.
      destruct (decide (n <> 0%Z)) as [|Hn]; [done|]. assert (n = 0%Z) as -> by lia. by rewrite zm_scale_0, zadd_0_r.
    Qed.
    Lemma freq_DC k : d_wf k -> (forall f, mult k f = 0%Z) -> fk_freq M Hz k = zm_zero M.
    Proof. intros Hk Hm. rewrite (freq_sum_over k []); [done|done|apply NoDup_nil_2|]. intros f Hf. by rewrite Hm in Hf. Qed.
  End freq.

  Lemma reject_classical_spec order dflt k : d_wf k ->
    (reject_classical order dflt k = true <->
     exists f n, d_get k f = Some n /\ (default dflt (order f) < Z.abs n)%Z).
  Proof.
    intros Hk.
    assert (reject_classical order dflt k = true <-> exists f n, (f, n) ∈ k /\ (default dflt (order f) < Z.abs n)%Z) as ->.
    - clear Hk. induction k as [|[f n] k IH]; simpl.
      + split; [done|]. intros (? & ? & ?%elem_of_nil & _). done.
      + destruct (decide _) as [Hl|Hl].
        * split; [|done]. intros _. exists f, n. split; [by left|done].
        * rewrite IH. split; intros (f' & n' & Hin & Hlt); exists f', n'; (split; [|done]).
          -- by right.
          -- apply elem_of_cons in Hin as [[= -> ->]|]; done.
    - setoid_rewrite elem_of_get; done.
  Qed.
  Lemma reject_optical_spec order k : d_wf k ->
    (reject_optical order k = true <->
     k = [] \/ exists f n, d_get k f = Some n /\ (n < 1 \/ default 2%Z (order f) < n)%Z).
  Proof.
    intros Hk.
    assert (forall k, reject_optical_loop order k = true <->
      exists f n, (f, n) ∈ k /\ (n < 1 \/ default 2%Z (order f) < n)%Z) as G.
    { clear. induction k as [|[f n] k IH]; simpl.
      - split; [done|]. intros (? & ? & ?%elem_of_nil & _). done.
      - destruct (decide _) as [Hl|Hl]; [split; [|done]; intros _; exists f, n; split; [by left|by right]|].
        destruct (decide _) as [Hl2|Hl2]; [split; [|done]; intros _; exists f, n; split; [by left|by left]|].
        rewrite IH. split; intros (f' & n' & Hin & Hlt); exists f', n'; (split; [|done]).
        + by right.
        + apply elem_of_cons in Hin as [[= -> ->]|]; [|done]. lia. }
    unfold reject_optical. destruct k as [|x k]; [naive_solver|]. rewrite G. setoid_rewrite elem_of_get; [|done].
    naive_solver.
  Qed.
End frequency.

Lemma C19_union_laws_lem {K V} `{EqDecision K} `{EqDecision V} (a b c : dict K V) :
  d_wf a -> d_wf b -> d_wf c ->
  dk_eq (dk_or a (dk_or b c)) (dk_or (dk_or a b) c) = true /\ dk_eq (dk_or a a) a = true /\
  dk_eq (dk_or a []) a = true /\ dk_eq (dk_or [] a) a = true.
Proof.
  intros Ha Hb Hc. assert (d_wf (@nil (K * V))) as Hn by apply NoDup_nil_2.
  split_and!; apply d_eq_spec; auto using or_wf; intros k; rewrite ?or_get; auto using or_wf; cbn [d_get].
  - by destruct (d_get a k), (d_get b k), (d_get c k).
  - by destruct (d_get a k).
  - by destruct (d_get a k).
Qed.

Lemma C19_difference_union_lem {K V} `{EqDecision K} `{EqDecision V} (a b : dict K V) :
  d_wf a -> d_wf b ->
  ((forall k, d_get a k = None \/ d_get b k = None) ->
     exists d, dk_sub (dk_or a b) b = Ok d /\ dk_eq d a = true) /\
  (forall d, dk_sub a b = Ok d -> dk_eq (dk_or d b) a = true) /\
  dk_eq (dk_and (dk_or a b) b) b = true.
Proof.
  intros Ha Hb. pose proof (or_wf a b Ha) as Ho. split_and!.
  - intros Hdis. pose proof (sub_spec (dk_or a b) b Ho Hb) as Hs.
    destruct (dk_sub (dk_or a b) b) as [d|e].
    + destruct Hs as (_ & Hd & Hg). exists d. split; [done|]. apply d_eq_spec; [done..|].
      intros k. rewrite Hg, or_get by done. destruct (Hdis k) as [->| ->]; [|done]. by destruct (d_get b k).
    + exfalso. destruct e; try done.
      * destruct Hs as (k & v & H1 & H2). rewrite or_get, H1 in H2 by done. done.
      * destruct Hs as (k & v & w & H1 & H2 & H3). rewrite or_get, H1 in H2 by done. congruence.
  - intros d Hd. pose proof (sub_spec a b Ha Hb) as Hs. rewrite Hd in Hs. destruct Hs as (Hsub & Hwf & Hg).
    apply d_eq_spec; [by apply or_wf|done|]. intros k. rewrite or_get, Hg by done.
    destruct (d_get b k) as [v|] eqn:E; [|done]. symmetry. by apply Hsub.
  - destruct (and_spec (dk_or a b) b Ho Hb) as [Hw Hg]. apply d_eq_spec; [done..|]. intros k.
    rewrite Hg, or_get by done. destruct (d_get b k), (d_get a k); by case_decide.
Qed.

Lemma C19_lookup_lem {K V} `{EqDecision K} `{EqDecision V} (d : dict K V) (k : K) (v : V) :
  d_wf d ->
  (dk_get d k = Ok v <-> (k, v) ∈ d) /\ (dk_get d k = Err KeyError <-> k ∉ d.*1) /\
  dk_get_default d k v = match dk_get d k with Ok w => w | Err _ => v end.
Proof.
  intros Hd. unfold dk_get, d_item, dk_get_default. rewrite elem_of_get, <- get_None by done.
  destruct (d_get d k); naive_solver.
Qed.

Lemma C22_group_lem {F} `{EqDecision F} (a b c : dict F Z) :
  canonical a -> canonical b -> canonical c ->
  fk_eq (fk_add a b) (fk_add b a) = true /\
  fk_eq (fk_add a (fk_add b c)) (fk_add (fk_add a b) c) = true /\
  fk_eq (fk_add a []) a = true /\ fk_eq (fk_add a (fk_neg a)) [] = true /\
  fk_eq (fk_sub a b) (fk_add a (fk_neg b)) = true.
Proof.
  intros Ha Hb Hc. assert (@canonical F _ []) as Hn by (split; [apply NoDup_nil_2|done]).
  assert (forall e1 e2 : fexpr F, proper e1 -> proper e2 -> (forall f, meaning e1 f = meaning e2 f) ->
    fk_eq (eval e1) (eval e2) = true) as G.
  { intros e1 e2 H1 H2 Hm. destruct (eval_canonical e1 H1) as [C1 M1]. destruct (eval_canonical e2 H2) as [C2 M2].
    apply canonical_eq; [done..|]. intros f. by rewrite M1, M2. }
  split_and!.
  - apply (G (EAdd (EKey a) (EKey b)) (EAdd (EKey b) (EKey a))); simpl; auto; try (intros f; unfold mult; simpl; lia).
  - apply (G (EAdd (EKey a) (EAdd (EKey b) (EKey c))) (EAdd (EAdd (EKey a) (EKey b)) (EKey c))); simpl; auto; try (intros f; unfold mult; simpl; lia).
  - apply (G (EAdd (EKey a) (EKey [])) (EKey a)); simpl; auto. intros f. unfold mult. simpl. lia.
  - apply (G (EAdd (EKey a) (ENeg (EKey a))) (EKey [])); simpl; auto. intros f. unfold mult. simpl. lia.
  - apply (G (ESub (EKey a) (EKey b)) (EAdd (EKey a) (ENeg (EKey b)))); simpl; auto; try (intros f; unfold mult; simpl; lia).
Qed.

Lemma C22_frequency_lem {F} `{EqDecision F} (M : zmod) (Hz : F -> M) (a b : dict F Z) :
  d_wf a -> d_wf b ->
  fk_freq M Hz (fk_add a b) = zm_add M (fk_freq M Hz a) (fk_freq M Hz b) /\
  fk_freq M Hz a = zm_add M (fk_freq M Hz (fk_sub a b)) (fk_freq M Hz b) /\
  zm_add M (fk_freq M Hz (fk_neg a)) (fk_freq M Hz a) = zm_zero M /\
  fk_freq M Hz a = extract_freq M Hz a.
Proof.
  intros Ha Hb. destruct (add_spec a b Ha Hb) as (Wadd & Madd & _). destruct (fsub_spec a b Ha Hb) as (Wsub & Msub & _).
  destruct (neg_spec a Ha) as [Wneg _]. split_and!.
  - by apply freq_additive.
  - apply freq_additive; [done..|]. intros f. rewrite Msub. lia.
  - assert (d_wf (@nil (F * Z))) as Hn by apply NoDup_nil_2.
    rewrite <- (freq_additive M Hz (fk_neg a) a []); [by apply freq_DC|done..|].
    intros f. rewrite neg_mult by done. unfold mult. simpl. lia.
  - apply freq_extract.
Qed.

Lemma C23_zero_scale_refuted_lem {F} `{EqDecision F} (flt : F -> F -> bool) (k : dict F Z) :
  strict_total flt -> d_wf k -> k <> [] ->
  (forall f, mult (fk_rmul 0 k) f = 0%Z) /\ fk_DC_is (fk_rmul 0 k) = false /\
  fk_eq (fk_rmul 0 k) [] = false /\ fk_hash_tuple flt (fk_rmul 0 k) = fk_hash_tuple flt [].
Proof.
  intros Hst Hk Hne. destruct k as [|[f0 n0] k]; [done|]. destruct (rmul_spec 0 _ Hk) as [Hw Hg].
  assert (forall f, mult (fk_rmul 0 ((f0, n0) :: k)) f = 0%Z) as Hm
    by (intros f; rewrite rmul_mult by done; lia).
  assert (is_Some (d_get (fk_rmul 0 ((f0, n0) :: k)) f0)) as Hs.
  { rewrite Hg. cbn [d_get]. rewrite decide_True by done. simpl. eauto. }
  split_and!; [done| | |].
  - destruct (fk_rmul 0 _); [by destruct Hs|done].
  - apply not_true_is_false. intros He. unfold fk_eq in He. pose proof (proj1 (d_eq_spec (fk_rmul 0 ((f0, n0) :: k)) [] Hw (NoDup_nil_2)) He) as He2.
    rewrite He2 in Hs. by destruct Hs.
  - apply fk_hash_same; [done|done|apply NoDup_nil_2|done].
Qed.

Lemma C37_classical_lem {F} `{EqDecision F} (order order' : F -> option Z) (dflt dflt' : Z) (k : dict F Z) :
  d_wf k ->
  (reject_classical order dflt k = true <->
     exists f n, d_get k f = Some n /\ (default dflt (order f) < Z.abs n)%Z) /\
  reject_classical order dflt (fk_neg k) = reject_classical order dflt k /\
  ((forall f, default dflt (order f) <= default dflt' (order' f))%Z ->
     reject_classical order' dflt' k = true -> reject_classical order dflt k = true).
Proof.
  intros Hk. destruct (neg_spec k Hk) as [Hw Hg]. split_and!; [by apply reject_classical_spec| |].
  - apply eq_true_iff_eq. rewrite !reject_classical_spec by done. split; intros (f & n & Hn & Hl).
    + rewrite Hg in Hn. destruct (d_get k f) as [m|] eqn:E; [|done]. injection Hn as <-. exists f, m. split; [done|lia].
    + exists f, (- n)%Z. rewrite Hg, Hn. split; [done|lia].
  - intros Hle. rewrite !reject_classical_spec by done. intros (f & n & Hn & Hl). exists f, n. split; [done|].
    specialize (Hle f). lia.
Qed.

Lemma C37_optical_symmetry_refuted_lem :
  exists k : dict nat Z, canonical k /\ reject_optical (fun _ => None) k = false /\
    reject_optical (fun _ => None) (fk_neg k) = true.
Proof.
  exists [(0, 1%Z)]. split; [|done]. split; [vm_decide|]. intros f. simpl. case_decide; congruence.
Qed.
