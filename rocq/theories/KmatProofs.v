(** Proofs about key spaces, key vectors and key matrices. *)
From Coq Require Import Sorting.Sorted.
From stdpp Require Import base tactics list numbers gmap.
From Verif Require Import Fld Py KeysModel KeysSpec KeysProofs KmatModel KmatSpec.

Section index.
  Context {K : Type} `{Countable K}.
  Lemma index_of_Some (L : list K) k i : NoDup L -> (index_of L k = Some i <-> L !! i = Some k).
  Proof.
    revert i. induction L as [|k' L IH]; intros i HL; simpl; [done|].
    apply NoDup_cons in HL as [Hk HL]. destruct (decide (k = k')) as [->|Hne].
    - destruct i as [|i]; simpl; [done|]. split; [done|]. intros Hi. destruct Hk. by eapply elem_of_list_lookup_2.
    - destruct i as [|i]; simpl; [split; [by destruct (index_of L k)|congruence]|].
      rewrite <- IH by done. destruct (index_of L k); simpl; naive_solver.
  Qed.
  Lemma index_of_None (L : list K) k : index_of L k = None <-> k ∉ L.
  Proof.
    induction L as [|k' L IH]; simpl; [split; [intros _; apply not_elem_of_nil|done]|].
    rewrite not_elem_of_cons. destruct (decide (k = k')) as [->|Hne]; [naive_solver|].
    rewrite <- IH. destruct (index_of L k); simpl; naive_solver.
  Qed.
  Lemma pos_ok (L : list K) k : k ∈ L -> exists i, pos L k = Ok i /\ index_of L k = Some i.
  Proof.
    intros Hk. unfold pos. destruct (index_of L k) as [i|] eqn:E; [eauto|]. by apply index_of_None in E.
  Qed.
  Lemma np_index_nat {A} (L : list A) (i : nat) a : L !! i = Some a -> np_index L (Z.of_nat i) = Ok a.
  Proof.
    intros Hi. unfold np_index. rewrite (decide_False (P := (Z.of_nat i < 0)%Z)) by lia.
    rewrite decide_False by lia. rewrite Nat2Z.id. by rewrite Hi.
  Qed.
  Lemma np_index_spec {A} (L : list A) (i : Z) a :
    np_index L i = Ok a <-> exists j : nat, L !! j = Some a /\ (i = Z.of_nat j \/ i = Z.of_nat j - Z.of_nat (length L))%Z.
  Proof.
    unfold np_index. split.
    - destruct (decide (i < 0)%Z); (destruct (decide _) as [|Hn]; [done|]);
        (destruct (L !! _) as [b|] eqn:E; [|done]); intros [= ->].
      + exists (Z.to_nat (i + Z.of_nat (length L))). split; [done|]. right. lia.
      + exists (Z.to_nat i). split; [done|]. left. lia.
    - intros (j & Hj & Hi). pose proof (lookup_lt_Some _ _ _ Hj) as Hlt.
      assert ((if decide (i < 0)%Z then (i + Z.of_nat (length L))%Z else i) = Z.of_nat j) as ->.
      { destruct (decide _); lia. }
      rewrite decide_False by lia. rewrite Nat2Z.id. by rewrite Hj.
  Qed.
End index.

Section kvspace.
  Context {K : Type} `{Countable K} (listing : gset K -> list K).
  Context (Hlist : forall X, listing X ≡ₚ elements X).
  Implicit Types (s : kvspace (K := K)).

  Definition kv_inv s : Prop :=
    match ks_list s with None => True | Some L => L ≡ₚ elements (ks_set s) end.
  Lemma freeze_inv s : kv_inv s -> kv_inv (kvs_freeze listing s).
  Proof. unfold kv_inv, kvs_freeze. destruct s as [X [L|]]; simpl; [done|]. intros _. apply Hlist. Qed.
  Lemma freeze_frozen s L : ks_list s = Some L -> kvs_freeze listing s = s.
  Proof. destruct s as [X [L'|]]; simpl; [done|congruence]. Qed.
  Lemma keys_add_frozen s L args s' : ks_list s = Some L -> kvs_keys_add s args = Ok s' -> s' = s.
  Proof.
    unfold kvs_keys_add. intros ->. revert s'. induction args as [|k args IH]; intros s'; simpl; [congruence|].
    destruct (decide (k ∈ ks_set s)); [apply IH|done].
  Qed.
  Lemma keys_add_frozen_iff s L args : ks_list s = Some L ->
    kvs_keys_add s args = if decide (Forall (fun k => k ∈ ks_set s) args) then Ok s else Err RuntimeError.
  Proof.
    unfold kvs_keys_add. intros ->. induction args as [|k args IH].
    - by rewrite decide_True by constructor.
    - cbn [mfor]. destruct (decide (k ∈ ks_set s)) as [Hk|Hk].
      + rewrite IH. destruct (decide (Forall _ args)) as [Hf|Hf].
        * by rewrite decide_True by by constructor.
        * rewrite decide_False; [done|]. intros Hc. apply Forall_cons in Hc. naive_solver.
      + rewrite decide_False; [done|]. intros Hc. apply Forall_cons in Hc. naive_solver.
  Qed.
  Lemma step_inv s op : kv_inv s -> kv_inv (kvs_step listing s op).2.
  Proof.
    intros Hi. destruct op as [ks| |k|i|k|]; cbn [kvs_step].
    - destruct (kvs_keys_add s ks) as [s'|] eqn:E; [|done]. simpl.
      unfold kvs_keys_add in E. destruct (ks_list s) as [L|] eqn:El.
      + assert (kvs_keys_add s ks = Ok s') as E' by (unfold kvs_keys_add; by rewrite El).
        by rewrite (keys_add_frozen s L ks s' El E').
      + by injection E as <-.
    - by apply freeze_inv.
    - unfold kvs_key_map. pose proof (freeze_inv s Hi). cbn zeta.
      destruct (match ks_list (kvs_freeze listing s) with Some _ => _ | None => _ end); done.
    - unfold kvs_idx_map. pose proof (freeze_inv s Hi). cbn zeta.
      destruct (match ks_list (kvs_freeze listing s) with Some _ => _ | None => _ end); done.
    - done.
    - done.
  Qed.
  Lemma step_frozen s L op : ks_list s = Some L -> (kvs_step listing s op).2 = s.
  Proof.
    intros Hs. destruct op as [ks| |k|i|k|]; cbn [kvs_step].
    - destruct (kvs_keys_add s ks) as [s'|] eqn:E; [|done]. simpl. by eapply keys_add_frozen.
    - by eapply freeze_frozen.
    - unfold kvs_key_map. rewrite (freeze_frozen s L) by done. rewrite Hs. by destruct (index_of L k).
    - unfold kvs_idx_map. rewrite (freeze_frozen s L) by done. rewrite Hs. by destruct (np_index L i).
    - done.
    - done.
  Qed.
  Lemma run_inv s ops : kv_inv s -> kv_inv (kvs_run listing s ops).
  Proof. revert s. induction ops as [|op ops IH]; intros s Hs; [done|]. apply IH. by apply step_inv. Qed.
  Lemma run_frozen s L ops : ks_list s = Some L -> kvs_run listing s ops = s.
  Proof.
    revert s. induction ops as [|op ops IH]; intros s Hs; [done|]. unfold kvs_run. cbn [foldl].
    rewrite (step_frozen s L) by done. by apply IH.
  Qed.
  Lemma new_inv keys frozen : kv_inv (kvs_new listing keys frozen).
  Proof. unfold kvs_new. destruct frozen; [by apply freeze_inv|done]. Qed.

  Lemma frozen_bijection keys frozen ops L :
    let s := kvs_run listing (kvs_new listing keys frozen) ops in
    ks_list s = Some L ->
    NoDup L /\ (forall k, k ∈ L <-> k ∈ ks_set s) /\ length L = size (ks_set s) /\
    (forall k i, (kvs_step listing s (KMap k)).1 = OIdx i <-> L !! i = Some k) /\
    (forall k, (kvs_step listing s (KMap k)).1 = OErr KeyError <-> k ∉ L) /\
    (forall i k, (kvs_step listing s (KIdx i)).1 = OKey k <->
       exists j : nat, L !! j = Some k /\ (i = Z.of_nat j \/ i = Z.of_nat j - Z.of_nat (length L))%Z) /\
    (forall ks, (kvs_step listing s (KAdd ks)).1 =
       if decide (Forall (fun k => k ∈ L) ks) then ONone else OErr RuntimeError) /\
    (forall more, kvs_run listing s more = s).
  Proof.
    cbn zeta. set (s := kvs_run listing (kvs_new listing keys frozen) ops). intros Hs.
    assert (kv_inv s) as Hi by (apply run_inv, new_inv). unfold kv_inv in Hi. rewrite Hs in Hi.
    assert (NoDup L) as Hnd by (rewrite Hi; apply NoDup_elements).
    assert (forall k, k ∈ L <-> k ∈ ks_set s) as Hin by (intros k; rewrite Hi; apply elem_of_elements).
    split_and!.
    - done.
    - done.
    - by rewrite Hi.
    - intros k i. unfold kvs_step, kvs_key_map. rewrite (freeze_frozen s L) by done. rewrite Hs.
      rewrite <- index_of_Some by done. destruct (index_of L k); naive_solver.
    - intros k. unfold kvs_step, kvs_key_map. rewrite (freeze_frozen s L) by done. rewrite Hs.
      rewrite <- index_of_None. destruct (index_of L k); naive_solver.
    - intros i k. unfold kvs_step, kvs_idx_map. rewrite (freeze_frozen s L) by done. rewrite Hs.
      rewrite <- np_index_spec. destruct (np_index L i); naive_solver.
    - intros ks. unfold kvs_step. rewrite (keys_add_frozen_iff s L) by done.
      destruct (decide (Forall (fun k => k ∈ ks_set s) ks)) as [Hf|Hf].
      + rewrite decide_True; [done|]. eapply Forall_impl; [exact Hf|]. intros k. apply Hin.
      + rewrite decide_False; [done|]. intros Hc. apply Hf. eapply Forall_impl; [exact Hc|]. intros k. apply Hin.
    - intros more. by eapply run_frozen.
  Qed.

  Lemma run_keys X ops :
    ks_set (kvs_run listing (KVS X None) ops) = X ∪ list_to_set (given ops) /\
    (is_Some (ks_list (kvs_run listing (KVS X None) ops)) <-> accessed ops = true).
  Proof.
    revert X. induction ops as [|op ops IH]; intros X; [simpl; split; [set_solver|]|].
    - split; [by intros [? ?]|done].
    - unfold kvs_run. cbn [foldl]. fold (kvs_run listing (kvs_step listing (KVS X None) op).2 ops).
      destruct op as [ks| |k|i|k|]; cbn [given accessed].
      + cbn. destruct (IH (X ∪ list_to_set ks)) as [H1 H2]. rewrite H1. split; [rewrite list_to_set_app_L; set_solver|done].
      + cbn. rewrite (run_frozen _ (listing X)) by done. cbn. split; [set_solver|]. split; [done|eauto].
      + replace (kvs_step listing (KVS X None) (KMap k)).2 with (KVS X (Some (listing X)))
          by (cbn; by destruct (index_of (listing X) k)).
        rewrite (run_frozen _ (listing X)) by done. cbn. split; [set_solver|]. split; [done|eauto].
      + replace (kvs_step listing (KVS X None) (KIdx i)).2 with (KVS X (Some (listing X)))
          by (unfold kvs_step, kvs_idx_map; cbn; by destruct (np_index (listing X) i)).
        rewrite (run_frozen _ (listing X)) by done. cbn. split; [set_solver|]. split; [done|eauto].
      + apply IH.
      + apply IH.
  Qed.
End kvspace.

Section arrays.
  Context {K1 K2 : Type} `{Countable K1} `{Countable K2} {F : fld}.
  Local Open Scope fld_scope.
  Add Field FFk : (f_theory F).
  Implicit Types (Lf : list K1) (Lt : list K2).

  Lemma kv_array_loop (L : list K1) (data : dict K1 F) (a : arr1 F) :
    NoDup L -> d_wf data -> (forall k, k ∈ data.*1 -> k ∈ L) ->
    exists a', mfor (fun a kv => i ← pos L kv.1; Ok (Arr1 (a_len a) (fun j => if decide (j = i) then kv.2 else a_at a j)))
      data a = Ok a' /\ a_len a' = a_len a /\
      forall i, a_at a' i = match L !! i with
        | Some k => default (a_at a i) (d_get data k) | None => a_at a i end.
  Proof.
    intros HL. unfold d_wf. revert a. induction data as [|[k v] data IH]; intros a Hwf Hin; cbn [mfor].
    - exists a. split_and!; [done|done|]. intros i. by destruct (L !! i).
    - cbn [fmap list_fmap] in Hwf, Hin. apply NoDup_cons in Hwf as [Hk Hwf]. apply get_None in Hk.
      destruct (pos_ok L k) as (i0 & Hp & Hi0); [apply Hin; by left|]. cbn [fst] in *. rewrite Hp. cbn [mbind res_bind].
      destruct (IH (Arr1 (a_len a) (fun j => if decide (j = i0) then v else a_at a j))) as (a' & Hok & Hlen & Hat).
      { done. } { intros k' Hk'. apply Hin. by right. }
      exists a'. split_and!; [done|done|]. intros i. rewrite Hat. cbn [a_at d_get snd].
      apply index_of_Some in Hi0; [|done]. destruct (L !! i) as [k'|] eqn:E.
      + destruct (decide (k' = k)) as [->|Hne].
        * assert (i = i0) as -> by by eapply (NoDup_lookup L). rewrite Hk. cbn. by rewrite decide_True.
        * destruct (d_get data k'); [done|]. cbn. rewrite decide_False; [done|]. intros ->. congruence.
      + rewrite decide_False; [done|]. intros ->. congruence.
  Qed.
  Lemma kv_array_spec (L : list K1) (data : dict K1 F) :
    NoDup L -> d_wf data -> (forall k, k ∈ data.*1 -> k ∈ L) ->
    exists a, kv_array L data = Ok a /\ a_len a = length L /\
      forall i k, L !! i = Some k -> a_at a i = val data k.
  Proof.
    intros HL Hw Hin. destruct (kv_array_loop L data (Arr1 (length L) (fun _ => 0)) HL Hw Hin) as (a & H1 & H2 & H3).
    exists a. split_and!; [done|done|]. intros i k Hi. rewrite H3, Hi. done.
  Qed.
  Lemma kv_array_missing (L : list K1) (data : dict K1 F) (a : arr1 F) :
    (exists k, k ∈ data.*1 /\ k ∉ L) ->
    mfor (fun a kv => i ← pos L kv.1; Ok (Arr1 (a_len a) (fun j => if decide (j = i) then kv.2 else a_at a j)))
      data a = Err KeyError.
  Proof.
    intros (k & Hk & Hn). revert a. induction data as [|[k' v] data IH]; intros a.
    - by apply elem_of_nil in Hk.
    - cbn [fmap list_fmap] in Hk. cbn [mfor]. destruct (decide (k' ∈ L)) as [Hin|Hni].
      + destruct (pos_ok L k' Hin) as (i & Hp & _). cbn [fst]. rewrite Hp. cbn [mbind res_bind]. apply IH.
        apply elem_of_cons in Hk as [->|]; [done|done].
      + cbn [fst]. unfold pos. apply index_of_None in Hni. by rewrite Hni.
  Qed.

  Lemma kv_backmap_loop (L : list K1) (a : arr1 F) (l : list nat) (m : dict K1 F) :
    NoDup L -> NoDup l -> (forall i, i ∈ l -> i < length L) -> d_wf m ->
    exists m', mfor (fun m idx => k ← np_index L (Z.of_nat idx); Ok (d_set m k (a_at a idx))) l m = Ok m' /\ d_wf m' /\
      forall k, d_get m' k = match index_of L k with
        | Some i => if decide (i ∈ l) then Some (a_at a i) else d_get m k | None => d_get m k end.
  Proof.
    intros HL. revert m. induction l as [|i0 l IH]; intros m Hl Hlt Hm; cbn [mfor].
    - exists m. split_and!; [done|done|]. intros k. destruct (index_of L k); [|done]. rewrite decide_False; [done|]. set_solver.
    - apply NoDup_cons in Hl as [Hi0 Hl]. destruct (lookup_lt_is_Some_2 L i0) as [k0 Hk0]; [apply Hlt; by left|].
      rewrite (np_index_nat L i0 k0) by done. cbn [mbind res_bind].
      destruct (IH (d_set m k0 (a_at a i0))) as (m' & Hok & Hw & Hg); [done| |by apply set_wf|].
      { intros i Hi. apply Hlt. by right. }
      exists m'. split_and!; [done|done|]. intros k. rewrite Hg, get_set.
      destruct (index_of L k) as [i|] eqn:E.
      + apply index_of_Some in E; [|done]. destruct (decide (i = i0)) as [->|Hne].
        * rewrite decide_False by done. assert (k = k0) as -> by congruence.
          rewrite !decide_True; [done|by left|done].
        * rewrite (decide_False (P := k = k0)).
          -- destruct (decide (i ∈ l)); [rewrite decide_True; [done|by right]|rewrite decide_False; [done|set_solver]].
          -- intros ->. apply Hne. by eapply (NoDup_lookup L).
      + rewrite decide_False; [done|]. intros ->. apply index_of_None in E. destruct E. by eapply elem_of_list_lookup_2.
  Qed.
  Lemma kv_roundtrip (L : list K1) (data : dict K1 F) :
    NoDup L -> d_wf data -> (forall k, k ∈ data.*1 -> k ∈ L) ->
    exists a d, kv_array L data = Ok a /\ kv_backmap L a = Ok d /\ d_wf d /\
      forall k, d_get d k = nz (val data k).
  Proof.
    intros HL Hw Hin. destruct (kv_array_spec L data HL Hw Hin) as (a & Ha & Hlen & Hat).
    destruct (kv_backmap_loop L a (nonzero1 a) [] HL) as (d & Hd & Hdw & Hg).
    { apply NoDup_filter, NoDup_seq. }
    { intros i Hi. apply elem_of_list_filter in Hi as [_ Hi]. apply elem_of_seq in Hi. lia. }
    { apply NoDup_nil_2. }
    exists a, d. split_and!; [done|done|done|]. intros k. rewrite Hg. cbn [d_get]. unfold nz.
    destruct (index_of L k) as [i|] eqn:E.
    - apply index_of_Some in E; [|done]. pose proof (lookup_lt_Some _ _ _ E) as Hlt.
      rewrite <- (Hat i k) by done. destruct (decide (a_at a i = 0)) as [Hz|Hz].
      + rewrite decide_False; [done|]. intros Hc. by apply elem_of_list_filter in Hc as [? _].
      + rewrite decide_True; [done|]. apply elem_of_list_filter. split; [done|]. apply elem_of_seq. lia.
    - apply index_of_None in E. rewrite decide_True; [done|]. unfold val. destruct (d_get data k) eqn:Eg; [|done].
      destruct E. apply Hin. apply elem_of_keys. eauto.
  Qed.

  Lemma km_array_loop Lf Lt (data : dict (K1 * K2) F) (a : arr2 F) :
    NoDup Lf -> NoDup Lt -> d_wf data -> (forall kf kt, (kf, kt) ∈ data.*1 -> kf ∈ Lf /\ kt ∈ Lt) ->
    exists a', mfor (fun a kv =>
       r ← pos Lt kv.1.2; c ← pos Lf kv.1.1;
       Ok (Arr2 (a_rows a) (a_cols a)
             (fun i j => if decide (i = r /\ j = c) then kv.2 else a_get a i j))) data a = Ok a' /\
      a_rows a' = a_rows a /\ a_cols a' = a_cols a /\
      forall r c kt kf, Lt !! r = Some kt -> Lf !! c = Some kf ->
        a_get a' r c = default (a_get a r c) (d_get data (kf, kt)).
  Proof.
    intros HLf HLt. unfold d_wf. revert a. induction data as [|[[kf0 kt0] v] data IH]; intros a Hwf Hin; cbn [mfor].
    - exists a. split_and!; done.
    - cbn [fmap list_fmap fst snd] in Hwf, Hin |- *. apply NoDup_cons in Hwf as [Hk Hwf]. apply get_None in Hk.
      destruct (Hin kf0 kt0) as [Hf Ht]; [by left|].
      destruct (pos_ok Lf kf0 Hf) as (c0 & Hpc & Hc0). destruct (pos_ok Lt kt0 Ht) as (r0 & Hpr & Hr0).
      rewrite Hpr. cbn [mbind res_bind]. rewrite Hpc. cbn [mbind res_bind].
      destruct (IH (Arr2 (a_rows a) (a_cols a) (fun i j => if decide (i = r0 /\ j = c0) then v else a_get a i j)))
        as (a' & Hok & Hr & Hc & Hat).
      { done. } { intros kf kt Hk'. apply Hin. by right. }
      exists a'. split_and!; [done|done|done|]. intros r c kt kf Ert Ecf. rewrite (Hat r c kt kf) by done.
      cbn [a_get d_get]. apply index_of_Some in Hc0; [|done]. apply index_of_Some in Hr0; [|done].
      destruct (decide ((kf, kt) = (kf0, kt0))) as [[= -> ->]|Hne].
      + rewrite Hk. cbn. rewrite decide_True; [done|]. split; [by eapply (NoDup_lookup Lt)|by eapply (NoDup_lookup Lf)].
      + destruct (d_get data (kf, kt)); [done|]. cbn. rewrite decide_False; [done|]. intros [-> ->]. congruence.
  Qed.
  Lemma km_array_spec Lf Lt (data : dict (K1 * K2) F) :
    NoDup Lf -> NoDup Lt -> d_wf data -> (forall kf kt, (kf, kt) ∈ data.*1 -> kf ∈ Lf /\ kt ∈ Lt) ->
    exists a, km_array Lf Lt data = Ok a /\ a_rows a = length Lt /\ a_cols a = length Lf /\
      forall r c kt kf, Lt !! r = Some kt -> Lf !! c = Some kf -> a_get a r c = val data (kf, kt).
  Proof.
    intros. destruct (km_array_loop Lf Lt data (Arr2 (length Lt) (length Lf) (fun _ _ => 0))) as (a & ? & ? & ? & Hat); [done..|].
    exists a. split_and!; [done..|]. intros r c kt kf Hr Hc. by rewrite (Hat r c kt kf).
  Qed.

  Lemma elem_of_nonzero2 (a : arr2 F) r c :
    (r, c) ∈ nonzero2 a <-> a_get a r c <> 0 /\ r < a_rows a /\ c < a_cols a.
  Proof.
    unfold nonzero2. rewrite elem_of_list_filter. cbn [fst snd].
    split.
    - intros [Hz Hin]. apply elem_of_list_bind in Hin as (i & Hin & Hi).
      apply elem_of_list_bind in Hin as (j & Hin & Hj). apply elem_of_list_singleton in Hin as [= -> ->].
      apply elem_of_seq in Hi. apply elem_of_seq in Hj. split_and!; [done|lia|lia].
    - intros (Hz & Hr & Hc). split; [done|]. apply elem_of_list_bind. exists r. split; [|apply elem_of_seq; lia].
      apply elem_of_list_bind. exists c. split; [by apply elem_of_list_singleton|apply elem_of_seq; lia].
  Qed.
  Lemma km_backmap_loop Lf Lt (a : arr2 F) (l : list (nat * nat)) (m : dict (K1 * K2) F) :
    NoDup Lf -> NoDup Lt -> (forall r c, (r, c) ∈ l -> r < length Lf /\ c < length Lt) -> d_wf m ->
    exists m', mfor (fun m ij =>
       kf ← np_index Lf (Z.of_nat ij.1); kt ← np_index Lt (Z.of_nat ij.2);
       Ok (d_set m (kf, kt) (a_get a ij.1 ij.2))) l m = Ok m' /\ d_wf m' /\
      forall kf kt, d_get m' (kf, kt) = match index_of Lf kf, index_of Lt kt with
        | Some r, Some c => if decide ((r, c) ∈ l) then Some (a_get a r c) else d_get m (kf, kt)
        | _, _ => d_get m (kf, kt) end.
  Proof.
    intros HLf HLt. revert m. induction l as [|[r0 c0] l IH]; intros m Hlt Hm; cbn [mfor].
    - exists m. split_and!; [done|done|]. intros kf kt. destruct (index_of Lf kf), (index_of Lt kt); done.
    - destruct (Hlt r0 c0) as [Hr Hc]; [by left|]. destruct (lookup_lt_is_Some_2 Lf r0 Hr) as [kf0 Hkf0].
      destruct (lookup_lt_is_Some_2 Lt c0 Hc) as [kt0 Hkt0]. cbn [fst snd].
      rewrite (np_index_nat Lf r0 kf0) by done. cbn [mbind res_bind].
      rewrite (np_index_nat Lt c0 kt0) by done. cbn [mbind res_bind].
      destruct (IH (d_set m (kf0, kt0) (a_get a r0 c0))) as (m' & Hok & Hw & Hg).
      { intros r c Hrc. apply Hlt. by right. } { by apply set_wf. }
      exists m'. split_and!; [done|done|]. intros kf kt. rewrite Hg, get_set.
      destruct (index_of Lf kf) as [r|] eqn:Er; [destruct (index_of Lt kt) as [c|] eqn:Ec|].
      + apply index_of_Some in Er; [|done]. apply index_of_Some in Ec; [|done].
        destruct (decide ((r, c) ∈ l)) as [Hin|Hni].
        { rewrite decide_True; [done|]. by right. }
        destruct (decide ((r, c) = (r0, c0))) as [[= -> ->]|Hne].
        * rewrite !decide_True; [done|by left|congruence].
        * rewrite !decide_False; [done|intros [|]%elem_of_cons; done|]. intros [= -> ->]. apply Hne.
          f_equal; [by eapply (NoDup_lookup Lf)|by eapply (NoDup_lookup Lt)].
      + rewrite decide_False; [done|]. intros [= -> ->]. apply index_of_None in Ec. destruct Ec. by eapply elem_of_list_lookup_2.
      + rewrite decide_False; [done|]. intros [= -> ->]. apply index_of_None in Er. destruct Er. by eapply elem_of_list_lookup_2.
  Qed.

  Lemma km_roundtrip_T Lf Lt (data : dict (K1 * K2) F) :
    NoDup Lf -> NoDup Lt -> d_wf data -> (forall kf kt, (kf, kt) ∈ data.*1 -> kf ∈ Lf /\ kt ∈ Lt) ->
    exists a d, km_array Lf Lt data = Ok a /\ km_backmap Lf Lt (arr2_T a) = Ok d /\ d_wf d /\
      forall kf kt, d_get d (kf, kt) = nz (val data (kf, kt)).
  Proof.
    intros HLf HLt Hw Hin. destruct (km_array_spec Lf Lt data HLf HLt Hw Hin) as (a & Ha & Hr & Hc & Hat).
    destruct (km_backmap_loop Lf Lt (arr2_T a) (nonzero2 (arr2_T a)) [] HLf HLt) as (d & Hd & Hdw & Hg).
    { intros r c (_ & ? & ?)%elem_of_nonzero2. cbn in *. lia. }
    { apply NoDup_nil_2. }
    exists a, d. split_and!; [done|done|done|]. intros kf kt. rewrite Hg. cbn [d_get]. unfold nz.
    destruct (index_of Lf kf) as [c|] eqn:Ec; [destruct (index_of Lt kt) as [r|] eqn:Er|].
    - apply index_of_Some in Ec; [|done]. apply index_of_Some in Er; [|done].
      pose proof (lookup_lt_Some _ _ _ Ec). pose proof (lookup_lt_Some _ _ _ Er).
      rewrite <- (Hat r c kt kf) by done. cbn [arr2_T a_get]. destruct (decide (a_get a r c = 0)) as [Hz|Hz].
      + rewrite decide_False; [done|]. intros Hx. by apply elem_of_nonzero2 in Hx as [? _].
      + rewrite decide_True; [done|]. apply elem_of_nonzero2. cbn. split_and!; [done|lia|lia].
    - apply index_of_None in Er. rewrite decide_True; [done|]. unfold val. destruct (d_get data (kf, kt)) eqn:Eg; [|done].
      destruct Er. apply (Hin kf kt). apply elem_of_keys. eauto.
    - apply index_of_None in Ec. rewrite decide_True; [done|]. unfold val. destruct (d_get data (kf, kt)) eqn:Eg; [|done].
      destruct Ec. apply (Hin kf kt). apply elem_of_keys. eauto.
  Qed.

  (** addition and subtraction *)
  Lemma km_add_loop (b m : dict (K1 * K2) F) : d_wf b -> d_wf m ->
    match mfor (fun pm kv =>
      match pm with
      | PMap m => match d_get m kv.1 with
                  | Some v => Ok (PMap (d_set m kv.1 (v + kv.2)))
                  | None => Ok (PVal kv.2)
                  end
      | PVal _ => Err TypeError
      end) b (PMap m) with
    | Ok (PMap m') => (forall k, k ∈ b.*1 -> k ∈ m.*1) /\ d_wf m' /\
        forall k, d_get m' k = match d_get b k with Some w => Some (val m k + w) | None => d_get m k end
    | Ok (PVal _) | Err TypeError => exists k, k ∈ b.*1 /\ k ∉ m.*1
    | Err _ => False
    end.
  Proof.
    unfold d_wf at 1. revert m. induction b as [|[k0 v0] b IH]; intros m Hb Hm; cbn [mfor fst snd].
    - split_and!; [|done|done]. intros k Hk. by apply elem_of_nil in Hk.
    - cbn [fmap list_fmap] in Hb |- *. apply NoDup_cons in Hb as [Hk0 Hb]. apply get_None in Hk0. cbn [fst] in *.
      destruct (d_get m k0) as [v|] eqn:E.
      + assert (k0 ∈ m.*1) as Hk0m by (apply elem_of_keys; eauto).
        assert (forall k, k ∈ (d_set m k0 (v + v0)).*1 <-> k ∈ m.*1) as Hkeys.
        { intros k. rewrite set_keys. naive_solver. }
        specialize (IH (d_set m k0 (v + v0)) Hb (set_wf _ _ _ Hm)).
        destruct (mfor _ b _) as [[m'|x]|e].
        * destruct IH as (H1 & H2 & H3). split_and!; [|done|].
          -- intros k Hk. apply elem_of_cons in Hk as [->|Hk]; [done|]. apply Hkeys. auto.
          -- intros k. rewrite H3. unfold val. rewrite get_set. cbn [d_get]. destruct (decide (k = k0)) as [->|].
             ++ rewrite Hk0, E. done.
             ++ done.
        * destruct IH as (k & Hk & Hn). exists k. split; [by right|]. by rewrite Hkeys in Hn.
        * destruct e; try done. destruct IH as (k & Hk & Hn). exists k. split; [by right|]. by rewrite Hkeys in Hn.
      + assert (k0 ∉ m.*1) as Hn by by apply get_None.
        destruct b as [|kv b]; cbn [mfor].
        * exists k0. split; [by left|done].
        * exists k0. split; [by left|done].
  Qed.
  Lemma km_add_spec (a b : dict (K1 * K2) F) : d_wf a -> d_wf b ->
    ((forall k, k ∈ b.*1 -> k ∈ a.*1) ->
      exists m, km_add a b = Ok (PMap m) /\ d_wf m /\ (forall k, k ∈ m.*1 <-> k ∈ a.*1) /\
        forall k, val m k = val a k + val b k) /\
    (forall m, km_add a b = Ok (PMap m) -> forall k, k ∈ b.*1 -> k ∈ a.*1).
  Proof.
    intros Ha Hb. pose proof (km_add_loop b a Hb Ha) as Hl. unfold km_add. split.
    - intros Hsub. destruct (mfor _ b _) as [[m|x]|e].
      + destruct Hl as (_ & Hw & Hg). exists m. split_and!; [done|done| |].
        * intros k. rewrite !elem_of_keys, Hg. destruct (d_get b k) eqn:E; [|done].
          split; [|eauto]. intros _. apply elem_of_keys, Hsub, elem_of_keys. eauto.
        * intros k. unfold val. rewrite Hg. destruct (d_get b k); cbn; [done|]. ring.
      + destruct Hl as (k & Hk & Hn). by apply Hsub in Hk.
      + destruct e; try done. destruct Hl as (k & Hk & Hn). by apply Hsub in Hk.
    - intros m Hm. rewrite Hm in Hl. apply Hl.
  Qed.
  Lemma km_sub_spec (a b : dict (K1 * K2) F) : d_wf a -> d_wf b ->
    d_wf (km_sub a b) /\ (forall k, val (km_sub a b) k = val a k - val b k) /\
    (forall k, k ∈ (km_sub a b).*1 <-> k ∈ a.*1 \/ k ∈ b.*1).
  Proof.
    unfold km_sub. unfold d_wf at 2. revert a. induction b as [|[k0 v0] b IH]; intros a Ha Hb; cbn [foldl fst snd].
    - split_and!; [done| |].
      + intros k. unfold val at 3. cbn. ring.
      + intros k. cbn. set_solver.
    - cbn [fmap list_fmap fst] in *. apply NoDup_cons in Hb as [Hk0 Hb]. apply get_None in Hk0.
      set (a1 := match d_get a k0 with Some v => d_set a k0 (v - v0) | None => d_set a k0 (- v0) end).
      assert (d_wf a1 /\ (forall k, val a1 k = if decide (k = k0) then val a k0 - v0 else val a k) /\
              (forall k, k ∈ a1.*1 <-> k = k0 \/ k ∈ a.*1)) as (H1 & H2 & H3).
      { subst a1. destruct (d_get a k0) as [v|] eqn:E; (split_and!; [by apply set_wf| |intros; apply set_keys]);
          intros k; unfold val; rewrite get_set; destruct (decide (k = k0)) as [->|]; rewrite ?E; try done.
        cbn. ring. }
      destruct (IH a1 H1 Hb) as (W & Hv & Hks). split_and!; [done| |].
      + intros k. rewrite Hv, H2. unfold val. cbn [d_get]. destruct (decide (k = k0)) as [->|].
        * rewrite Hk0. cbn. ring.
        * done.
      + intros k. rewrite Hks, H3. rewrite elem_of_cons. naive_solver.
  Qed.
  Lemma kv_add_by_spec (m : dict K1 F) k v : d_wf m ->
    d_wf (kv_add_by m k v) /\ forall k', val (kv_add_by m k v) k' = val m k' + (if decide (k' = k) then v else 0).
  Proof.
    intros Hm. unfold kv_add_by. destruct (d_get m k) as [w|] eqn:E; (split; [by apply set_wf|]); intros k'; unfold val;
      rewrite get_set; destruct (decide (k' = k)) as [->|]; rewrite ?E; cbn; ring.
  Qed.
End arrays.

(** the transposition of backmap_array when both spaces coincide *)
Section square.
  Context {K : Type} `{Countable K} {F : fld}.
  Lemma km_backmap_transposes (L : list K) (data : dict (K * K) F) :
    NoDup L -> d_wf data -> (forall kf kt, (kf, kt) ∈ data.*1 -> kf ∈ L /\ kt ∈ L) ->
    exists a d, km_array L L data = Ok a /\ km_backmap L L a = Ok d /\ d_wf d /\
      forall kf kt, d_get d (kf, kt) = nz (val data (kt, kf)).
  Proof.
    intros HL Hw Hin. destruct (km_array_spec L L data HL HL Hw Hin) as (a & Ha & Hr & Hc & Hat).
    destruct (km_backmap_loop L L a (nonzero2 a) [] HL HL) as (d & Hd & Hdw & Hg).
    { intros r c (_ & ? & ?)%elem_of_nonzero2. lia. }
    { apply NoDup_nil_2. }
    exists a, d. split_and!; [done|done|done|]. intros kf kt. rewrite Hg. cbn [d_get]. unfold nz.
    destruct (index_of L kf) as [r|] eqn:Er; [destruct (index_of L kt) as [c|] eqn:Ec|].
    - apply index_of_Some in Ec; [|done]. apply index_of_Some in Er; [|done].
      pose proof (lookup_lt_Some _ _ _ Ec). pose proof (lookup_lt_Some _ _ _ Er).
      rewrite <- (Hat r c kf kt) by done. destruct (decide (a_get a r c = f0)) as [Hz|Hz].
      + rewrite decide_False; [done|]. intros Hx. by apply elem_of_nonzero2 in Hx as [? _].
      + rewrite decide_True; [done|]. apply elem_of_nonzero2. split_and!; [done|lia|lia].
    - apply index_of_None in Ec. rewrite decide_True; [done|]. unfold val. destruct (d_get data (kt, kf)) eqn:Eg; [|done].
      destruct Ec. apply (Hin kt kf). apply elem_of_keys. eauto.
    - apply index_of_None in Er. rewrite decide_True; [done|]. unfold val. destruct (d_get data (kt, kf)) eqn:Eg; [|done].
      destruct Er. apply (Hin kt kf). apply elem_of_keys. eauto.
  Qed.

  Lemma km_eye_spec (it : list K) :
    d_wf (km_eye it : dict (K * K) F) /\
    (forall k1 k2, d_get (km_eye it : dict (K * K) F) (k1, k2) =
       if decide (k1 = k2 /\ k1 ∈ it) then Some f1 else None).
  Proof.
    unfold km_eye.
    assert (forall m : dict (K * K) F, d_wf m ->
      d_wf (foldl (fun m k => d_set m (k, k) (f1 : F)) m it) /\
      (forall k1 k2, d_get (foldl (fun m k => d_set m (k, k) (f1 : F)) m it) (k1, k2) =
       if decide (k1 = k2 /\ k1 ∈ it) then Some f1 else d_get m (k1, k2))) as G.
    { induction it as [|k it IH]; intros m Hm; cbn [foldl].
      - split; [done|]. intros k1 k2. rewrite decide_False; [done|]. set_solver.
      - destruct (IH (d_set m (k, k) f1)) as [H1 H2]; [by apply set_wf|]. split; [done|].
        intros k1 k2. rewrite H2, get_set.
        destruct (decide (k1 = k2 /\ k1 ∈ it)) as [[-> ?]|Hn].
        + rewrite decide_True; [done|]. split; [done|by right].
        + destruct (decide ((k1, k2) = (k, k))) as [[= -> ->]|Hne].
          * rewrite decide_True; [done|]. split; [done|by left].
          * rewrite decide_False; [done|]. intros [-> [->|]%elem_of_cons]; naive_solver. }
    apply G. apply NoDup_nil_2.
  Qed.
  Lemma km_eye_array (L it : list K) : NoDup L -> it ≡ₚ L ->
    exists a : arr2 F, km_array L L (km_eye it) = Ok a /\ a_rows a = length L /\ a_cols a = length L /\
      forall r c, r < length L -> c < length L -> a_get a r c = if decide (r = c) then f1 else f0.
  Proof.
    intros HL Hit. destruct (km_eye_spec it) as [Hw Hg].
    destruct (km_array_spec L L (km_eye it : dict (K * K) F) HL HL Hw) as (a & Ha & Hr & Hc & Hat).
    { intros kf kt Hk. apply elem_of_keys in Hk. rewrite Hg in Hk. destruct (decide _) as [[-> Hi]|]; [|by destruct Hk].
      by rewrite Hit in Hi. }
    exists a. split_and!; [done..|]. intros r c Hlr Hlc.
    destruct (lookup_lt_is_Some_2 L r Hlr) as [kt Hkt]. destruct (lookup_lt_is_Some_2 L c Hlc) as [kf Hkf].
    rewrite (Hat r c kt kf) by done. unfold val. rewrite Hg. destruct (decide (r = c)) as [->|Hne].
    - assert (kf = kt) as -> by congruence. rewrite decide_True; [done|]. split; [done|]. rewrite Hit.
      by eapply elem_of_list_lookup_2.
    - rewrite decide_False; [done|]. intros [-> _]. apply Hne. by eapply (NoDup_lookup L).
  Qed.
End square.

Section memo.
  Context {D A : Type} (build : D -> res A).
  Definition memo_inv (s : memo (D := D) (A := A)) : Prop :=
    mm_array_count s <= mm_count s /\ 1 <= mm_count s /\
    (mm_array_count s = mm_count s -> exists a, mm_array s = Some a /\ build (mm_data s) = Ok a).
  Lemma memo_step_inv s op : memo_inv s -> memo_inv (memo_step build s op).2.
  Proof.
    intros (H1 & H2 & H3). destruct op as [f|]; cbn [memo_step].
    - split_and!; cbn; [lia|lia|lia].
    - destruct (decide (mm_array_count s = mm_count s)); [by split_and!|].
      destruct (build (mm_data s)) as [a|] eqn:E; [|by split_and!]. split_and!; cbn; [lia|lia|eauto].
  Qed.
  Lemma memo_run_inv s ops : memo_inv s -> memo_inv (memo_run build s ops).
  Proof. revert s. induction ops as [|op ops IH]; intros s Hs; [done|]. apply IH. by apply memo_step_inv. Qed.
  Lemma memo_correct d ops :
    let s := memo_run build (memo_new d) ops in
    (memo_step build s MArray).1 = Some (build (mm_data s)) /\
    mm_data s = foldl (fun d op => match op with MMutate f => f d | MArray => d end) d ops.
  Proof.
    assert (memo_inv (memo_new d : memo (D := D) (A := A))) as H0 by (split_and!; cbn; lia).
    cbn zeta. split.
    - destruct (memo_run_inv _ ops H0) as (H1 & H2 & H3). cbn [memo_step].
      destruct (decide _) as [He|He]; [destruct (H3 He) as (a & -> & ->); done|].
      by destruct (build _).
    - assert (forall s, mm_data (memo_run build s ops) =
        foldl (fun d op => match op with MMutate f => f d | MArray => d end) (mm_data s) ops) as G; [|apply G].
      clear. induction ops as [|op ops IH]; intros s; [done|]. unfold memo_run in *. cbn [foldl]. rewrite IH. f_equal.
      destruct op as [f|]; cbn [memo_step]; [done|]. destruct (decide _); [done|]. by destruct (build _).
  Qed.
End memo.

(** two listings of one set sorted by a strict total order coincide *)
Lemma listing_unique {K} (lt : K -> K -> bool) (Hst : strict_total lt) (l1 l2 : list K) :
  NoDup l1 -> l1 ≡ₚ l2 -> ascending lt l1 -> ascending lt l2 -> l1 = l2.
Proof.
  intros _. unfold ascending. revert l2. induction l1 as [|x l1 IH]; intros [|y l2] Hp H1 H2.
  - done.
  - by apply Permutation_nil_cons in Hp.
  - by apply symmetry, Permutation_nil_cons in Hp.
  - apply StronglySorted_inv in H1 as [H1 F1]. apply StronglySorted_inv in H2 as [H2 F2].
    assert (x = y) as ->.
    { assert (x ∈ y :: l2) as Hx by (rewrite <- Hp; by left).
      assert (y ∈ x :: l1) as Hy by (rewrite Hp; by left).
      apply elem_of_cons in Hx as [?|Hx]; [done|]. apply elem_of_cons in Hy as [?|Hy]; [done|].
      rewrite Forall_forall in F1, F2. pose proof (F1 _ Hy). pose proof (F2 _ Hx).
      pose proof (st_trans _ Hst x y x ltac:(done) ltac:(done)) as Hxx.
      by rewrite (st_irrefl _ Hst) in Hxx. }
    f_equal. apply IH; [by apply Permutation_cons_inv in Hp|done|done].
Qed.

Lemma C28_inverse_same_lem {K} `{Countable K} (lt : K -> K -> bool) (listing1 listing2 : gset K -> list K) :
  strict_total lt ->
  (forall X, listing1 X ≡ₚ elements X /\ ascending lt (listing1 X)) ->
  (forall X, listing2 X ≡ₚ elements X /\ ascending lt (listing2 X)) ->
  forall X : gset K, ks_list (kvs_freeze listing1 (KVS X None)) = ks_list (kvs_inverse listing2 (KVS X None)).1.
Proof.
  intros Hst H1 H2 X. cbn. f_equal. destruct (H1 X) as [P1 A1], (H2 X) as [P2 A2].
  eapply listing_unique; [done|rewrite P1; apply NoDup_elements|by rewrite P1, P2|done|done].
Qed.
Lemma C29_add_refuted_lem :
  exists a b c : dict (N * N) Qc_fld, d_wf a /\ d_wf b /\ d_wf c /\
    (exists v, km_add a b = Ok (PVal v)) /\ km_add a c = Err TypeError.
Proof.
  exists [((0, 0), f1)]%N, [((0, 1), f1)]%N, [((0, 1), f1); ((0, 0), f1)]%N.
  split_and!; [vm_decide..|eexists; vm_compute; reflexivity|reflexivity].
Qed.
Lemma C30_vector_lem {K} `{Countable K} {F : fld} (L : list K) (data : dict K F) :
  NoDup L -> d_wf data -> (forall k, k ∈ data.*1 -> k ∈ L) ->
  exists a d, kv_array L data = Ok a /\ a_len a = length L /\
    (forall i k, L !! i = Some k -> a_at a i = val data k) /\
    kv_backmap L a = Ok d /\ d_wf d /\ forall k, d_get d k = nz (val data k).
Proof.
  intros HL Hw Hin. destruct (kv_array_spec L data HL Hw Hin) as (a & Ha & Hl & Hat).
  destruct (kv_roundtrip L data HL Hw Hin) as (a' & d & Ha' & Hd & Hdw & Hg).
  rewrite Ha in Ha'. injection Ha' as <-. exists a, d. split_and!; done.
Qed.
Lemma C30_matrix_lem {K1 K2} `{Countable K1} `{Countable K2} {F : fld}
    (Lf : list K1) (Lt : list K2) (data : dict (K1 * K2) F) :
  NoDup Lf -> NoDup Lt -> d_wf data -> (forall kf kt, (kf, kt) ∈ data.*1 -> kf ∈ Lf /\ kt ∈ Lt) ->
  exists a d, km_array Lf Lt data = Ok a /\ a_rows a = length Lt /\ a_cols a = length Lf /\
    (forall r c kt kf, Lt !! r = Some kt -> Lf !! c = Some kf -> a_get a r c = val data (kf, kt)) /\
    km_backmap Lf Lt (arr2_T a) = Ok d /\ d_wf d /\
    forall kf kt, d_get d (kf, kt) = nz (val data (kf, kt)).
Proof.
  intros HLf HLt Hw Hin. destruct (km_array_spec Lf Lt data HLf HLt Hw Hin) as (a & Ha & Hr & Hc & Hat).
  destruct (km_roundtrip_T Lf Lt data HLf HLt Hw Hin) as (a' & d & Ha' & Hd & Hdw & Hg).
  rewrite Ha in Ha'. injection Ha' as <-. exists a, d. split_and!; done.
Qed.
Lemma C30_matrix_refuted_lem :
  exists (L : list N) (data : dict (N * N) Qc_fld) a d, NoDup L /\ d_wf data /\
    km_array L L data = Ok a /\ km_backmap L L a = Ok d /\
    d_get data (0, 1)%N = Some f1 /\ d_get d (0, 1)%N = None.
Proof.
  set (L := [0; 1]%N). set (data := [((0, 1), f1)]%N : dict (N * N) Qc_fld).
  destruct (km_backmap_transposes L data) as (a & d & Ha & Hd & _ & Hg); [vm_decide|vm_decide| |].
  { intros kf kt Hk. subst L data. set_solver. }
  exists L, data, a, d. split_and!; [vm_decide|vm_decide|done|done|done|]. rewrite Hg. done.
Qed.
Lemma C28_copy_lem {K} `{Countable K} (listing : gset K -> list K) keys frozen ops args :
  let s := kvs_run listing (kvs_new listing keys frozen) ops in
  exists s', kvs_keys_add (kvs_copy s) args = Ok s' /\ ks_list s' = None /\ forall k, k ∈ ks_set s' <-> k ∈ ks_set s \/ k ∈ args.
Proof. cbn zeta. eexists. split; [reflexivity|]. split; [done|]. intros k. cbn [ks_set kvs_copy]. by rewrite elem_of_union, elem_of_list_to_set. Qed.
