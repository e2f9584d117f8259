(** Lemmas about colouring, purging and pre-purging. *)
From Verif Require Import Fld Py LinSpec LinAlg LinReduce GraphModel GraphProofs.
Local Open Scope fld_scope.

Section pre.
  Context {K : fld} {N : Type} `{Countable N}.
  Notation graph := (graph K N).

  (** [reach m a b]: a path of links from [a] to [b] *)
  Definition reach (m : gmap N (gset N)) : N -> N -> Prop := rtc (fun a b => b ∈ ds_get m a).
  Definition reach_from (m : gmap N (gset N)) (start : gset N) (n : N) : Prop :=
    exists s, s ∈ start /\ reach m s n.

  Lemma ds_nodes_get (m : gmap N (gset N)) n s : s ∈ ds_get m n -> s ∈ ds_nodes m.
  Proof.
    unfold ds_get, ds_nodes. intros Hs. apply elem_of_union_r.
    revert Hs. apply (map_fold_ind (fun (r : gset N) m => s ∈ default ∅ (m !! n) -> s ∈ r)).
    - rewrite lookup_empty. set_solver.
    - intros i X m' r Hi IH. destruct (decide (i = n)) as [->|Hne].
      + rewrite lookup_insert. simpl. set_solver.
      + rewrite lookup_insert_ne by done. set_solver.
  Qed.

  Lemma push_spec (active : gset N) l : forall p : gset N,
    fold_left (fun p snode => if decide (snode ∈ active) then p else {[snode]} ∪ p) l p
    = p ∪ (list_to_set l ∖ active).
  Proof.
    induction l as [|a l IH]; intros p; simpl; [set_solver|].
    rewrite IH. destruct (decide (a ∈ active)); apply set_eq; set_solver.
  Qed.

  Lemma ds_get_touch (m : gmap N (gset N)) X n : ds_get (ds_touch m X) n = ds_get m n.
  Proof.
    unfold ds_get, ds_touch. destruct (m !! n) as [Y|] eqn:Hm.
    - by rewrite (lookup_union_Some_l _ _ _ _ Hm).
    - rewrite lookup_union_r by done. destruct (gset_to_gmap ∅ X !! n) eqn:Hg; [|done].
      apply lookup_gset_to_gmap_Some in Hg as [_ <-]. done.
  Qed.
  Lemma dom_touch (m : gmap N (gset N)) (X : gset N) : dom (ds_touch m X) = dom m ∪ X.
  Proof. unfold ds_touch. rewrite dom_union_L, dom_gset_to_gmap. done. Qed.

  Lemma reach_from_closed m start a b :
    reach_from m start a -> b ∈ ds_get m a -> reach_from m start b.
  Proof. intros (s & Hs & Hr) Hb. exists s. split; [done|]. by eapply rtc_r. Qed.

  (** ** pre_purge *)
  Lemma pre_purge_ok (g : graph) r s :
    (s ∈ seqs (pre_purge g) r <-> s ∈ seqs g r /\ is_Some (g_em g !! (r, s))) /\
    (r ∈ reqs (pre_purge g) s <-> r ∈ reqs g s /\ is_Some (g_em g !! (r, s))).
  Proof.
    unfold seqs, reqs, pre_purge, ds_get. simpl. rewrite !map_lookup_imap. split.
    - destruct (g_seq g !! r); simpl; [|set_solver]. rewrite elem_of_filter. tauto.
    - destruct (g_req g !! s); simpl; [|set_solver]. rewrite elem_of_filter. tauto.
  Qed.
End pre.

Section gp.
  Context {K : fld} {N : Type} `{Countable N}.
  Notation graph := (graph K N).
  Context (enum : gset N -> list N) (Henum : forall X, enum X ≡ₚ elements X).
  Context (pick : gset N -> option N)
          (Hpick : forall X n, pick X = Some n -> n ∈ X)
          (Hpick_none : forall X, pick X = None -> X = ∅).

  Lemma color_loop_ok emap (start : gset N) : forall fuel (active pending : gset N),
    active ∪ pending ⊆ start ∪ ds_nodes emap ->
    start ⊆ active ∪ pending -> active ## pending ->
    size (start ∪ ds_nodes emap) <= fuel + size active ->
    (forall n, n ∈ active ∪ pending -> reach_from emap start n) ->
    (forall a b, a ∈ active -> b ∈ ds_get emap a -> b ∈ active ∪ pending) ->
    exists A, color_loop enum pick fuel emap active pending = Ok A /\
      forall n, n ∈ A <-> reach_from emap start n.
  Proof.
    induction fuel as [|fuel IH]; intros active pending Hsub Hst Hdisj Hsz Hr Hcl; simpl.
    - destruct (pick pending) as [node|] eqn:Hp.
      + exfalso. apply Hpick in Hp.
        assert (active ∪ {[node]} ⊆ start ∪ ds_nodes emap) as Hle by set_solver.
        apply subseteq_size in Hle. rewrite size_union, size_singleton in Hle by set_solver. lia.
      + apply Hpick_none in Hp as ->. exists active. split; [done|]. intros n. split; [set_solver|].
        intros (s & Hs & Hrt). assert (s ∈ active) as Hs' by set_solver. clear Hs.
        induction Hrt as [|a b c Hab Hbc IHc]; [done|]. apply IHc. set_solver.
    - destruct (pick pending) as [node|] eqn:Hp.
      + apply Hpick in Hp. rewrite push_spec.
        assert (forall b, b ∈ (list_to_set (enum (ds_get emap node)) : gset N) <-> b ∈ ds_get emap node) as Hls.
        { intros b. rewrite elem_of_list_to_set, (elem_of_enum enum Henum). done. }
        apply IH.
        * intros n. rewrite !elem_of_union, elem_of_difference, elem_of_difference, Hls.
          intros [[Hn|Hn]|[Hn|[Hn _]]].
          -- set_solver.
          -- set_solver.
          -- set_solver.
          -- right. by eapply ds_nodes_get.
        * clear - Hst. intros n Hn. destruct (decide (n = node)); set_solver.
        * clear - Hdisj. set_solver.
        * rewrite (size_union {[node]} active), size_singleton by (clear - Hp Hdisj; set_solver). lia.
        * intros n. rewrite !elem_of_union, elem_of_difference, elem_of_difference, Hls.
          intros [[Hn|Hn]|[Hn|[Hn _]]].
          -- apply Hr. set_solver.
          -- apply Hr. set_solver.
          -- apply Hr. set_solver.
          -- destruct (Hr node) as (s & Hs & Hrs); [set_solver|].
             exists s. split; [done|]. by eapply rtc_r.
        * intros a b Ha Hb. apply elem_of_union in Ha as [Ha|Ha].
          -- apply elem_of_singleton in Ha as ->.
             destruct (decide (b ∈ ({[node]} ∪ active : gset N))) as [|Hnb]; [set_solver|].
             apply elem_of_union_r, elem_of_union_r, elem_of_difference. by rewrite Hls.
          -- specialize (Hcl a b Ha Hb). destruct (decide (b = node)); set_solver.
      + apply Hpick_none in Hp as ->. exists active. split; [done|]. intros n. split; [set_solver|].
        intros (s & Hs & Hrt). assert (s ∈ active) as Hs' by set_solver. clear Hs.
        induction Hrt as [|a b c Hab Hbc IHc]; [done|]. apply IHc. set_solver.
  Qed.

  Lemma color_loop_reach emap (start : gset N) :
    exists A, color_loop enum pick (size (start ∪ ds_nodes emap)) emap ∅ start = Ok A /\
      forall n, n ∈ A <-> reach_from emap start n.
  Proof.
    apply color_loop_ok; try set_solver.
    - lia.
    - intros n Hn. exists n. split; [set_solver|]. constructor.
  Qed.

  (** ** purge_subgraph *)
  Lemma purge_node_ok (P : gset N) (pre : list N) (g0 g : graph) node :
    (forall r s, s ∈ seqs g0 r <-> r ∈ reqs g0 s) ->
    node ∈ P -> node ∉ pre -> (forall p, p ∈ pre -> p ∈ P) ->
    (forall r s, s ∈ seqs g r <-> s ∈ seqs g0 r /\ r ∉ pre /\ ~ (s ∈ pre /\ r ∉ P)) ->
    (forall r s, r ∈ reqs g s <-> r ∈ reqs g0 s /\ s ∉ pre /\ ~ (r ∈ pre /\ s ∉ P)) ->
    exists g', purge_node enum P g node = Ok g' /\
      (forall r s, s ∈ seqs g' r <-> s ∈ seqs g0 r /\ r ∉ pre ++ [node] /\ ~ (s ∈ pre ++ [node] /\ r ∉ P)) /\
      (forall r s, r ∈ reqs g' s <-> r ∈ reqs g0 s /\ s ∉ pre ++ [node] /\ ~ (r ∈ pre ++ [node] /\ s ∉ P)) /\
      (forall r s, r <> node -> g_em g' !! (r, s) = g_em g !! (r, s)) /\
      (forall r s, is_Some (g_em g' !! (r, s)) -> is_Some (g_em g !! (r, s))) /\
      dom (g_seq g') = dom (g_seq g) ∖ {[node]}.
  Proof.
    intros Hmir HnP Hnpre Hpre Hsq Hrq. unfold purge_node.
    assert (forall s, s ∈ seqs g node <-> s ∈ seqs g0 node) as Hsn by (intros; rewrite Hsq; tauto).
    edestruct (mfor_ind (purge_step_s P node)
      (fun done g' => g_seq g' = g_seq g /\
         (forall r s, r ∈ reqs g' s <-> r ∈ reqs g s /\ ~ (r = node /\ s ∉ P /\ s ∈ done)) /\
         (forall r s, r <> node -> g_em g' !! (r, s) = g_em g !! (r, s)) /\
         (forall r s, is_Some (g_em g' !! (r, s)) -> is_Some (g_em g !! (r, s))))
      (enum (ds_get (g_seq g) node)) g) as (ga & Hfa & Hsa & Hra & Hea & Hda).
    { split_and!; try done. set_solver. }
    { intros done a post g' Hl (Hs' & Hr' & He' & Hd').
      apply enum_split in Hl as (Ha & Had & _); [|done].
      unfold purge_step_s. destruct (decide (a ∈ P)) as [HaP|HaP].
      - eexists. split; [reflexivity|]. unfold edgedelwarn. simpl. split_and!; [done| | |].
        + intros r s. unfold reqs at 1. simpl. fold (reqs g' s). rewrite Hr'. set_solver.
        + intros r s Hne. rewrite lookup_delete_ne by congruence. by apply He'.
        + intros r s. rewrite lookup_delete_is_Some. naive_solver.
      - rewrite ds_remove_ok.
        2: { fold (reqs g' a). apply Hr'. split; [|set_solver]. apply Hrq.
             fold (seqs g node) in Ha. rewrite Hsn in Ha. apply Hmir in Ha.
             split; [done|]. split; [|tauto]. intros Hp. by apply HaP, Hpre. }
        eexists. split; [reflexivity|]. unfold edgedelwarn. simpl. split_and!; [done| | |].
        + intros r s. unfold reqs at 1. simpl. rewrite ds_get_insert.
          destruct (decide (s = a)) as [->|Hne].
          * fold (reqs g' a). rewrite elem_of_difference, elem_of_singleton, Hr'. set_solver.
          * fold (reqs g' s). rewrite Hr'. set_solver.
        + intros r s Hne. rewrite lookup_delete_ne by congruence. by apply He'.
        + intros r s. rewrite lookup_delete_is_Some. naive_solver. }
    rewrite Hfa. simpl.
    edestruct (mfor_ind (purge_step_r P node)
      (fun done g' => g_req g' = g_req ga /\ g_em g' = g_em ga /\
         (forall r s, s ∈ seqs g' r <-> r <> node /\ s ∈ seqs g r /\ ~ (s = node /\ r ∉ P /\ r ∈ done)) /\
         dom (g_seq g') = dom (g_seq g) ∖ {[node]})
      (enum (ds_get (g_req ga) node))
      (Graph (delete node (g_seq ga)) (g_req ga) (g_em ga))) as (gb & Hfb & Hrb & Heb & Hsb & Hdb).
    { split_and!; try done.
      - intros r s. unfold seqs at 1. simpl. rewrite ds_get_delete, Hsa. destruct (decide (r = node)) as [->|].
        + set_solver.
        + fold (seqs g r). set_solver.
      - simpl. rewrite Hsa, dom_delete_L. done. }
    { intros done a post g' Hl (Hr' & He' & Hs' & Hd').
      apply enum_split in Hl as (Ha & Had & _); [|done].
      unfold purge_step_r. destruct (decide (a ∈ P)) as [HaP|HaP].
      - eexists. split; [reflexivity|]. split_and!; [done|done| |done].
        intros r s. rewrite Hs'. set_solver.
      - assert (a <> node) by (intros ->; done).
        assert (node ∈ ds_get (g_seq g') a) as Hmem.
        { fold (seqs g' a). apply Hs'. split; [done|]. split; [|set_solver].
          fold (reqs ga node) in Ha. apply Hra in Ha as [Ha _]. apply Hrq in Ha as (Ha & _ & _).
          apply Hmir in Ha. apply Hsq. split; [done|]. split; [|tauto].
          intros Hp. by apply HaP, Hpre. }
        rewrite ds_remove_ok by done.
        eexists. split; [reflexivity|]. simpl. split_and!; [done|done| |].
        + intros r s. unfold seqs at 1. simpl. rewrite ds_get_insert.
          destruct (decide (r = a)) as [->|Hne].
          * fold (seqs g' a). rewrite elem_of_difference, elem_of_singleton, Hs'. set_solver.
          * fold (seqs g' r). rewrite Hs'. set_solver.
        + rewrite dom_insert_L. assert (a ∈ dom (g_seq g')); [|set_solver].
          apply elem_of_dom. unfold ds_get in Hmem. destruct (g_seq g' !! a); [eauto|set_solver]. }
    rewrite Hfb. simpl. eexists. split; [done|]. split_and!.
    - intros r s. unfold seqs at 1. simpl. fold (seqs gb r). rewrite Hsb, Hsq.
      rewrite !elem_of_app, !elem_of_list_singleton.
      rewrite (elem_of_enum enum Henum). fold (reqs ga node). rewrite Hra, Hrq.
      rewrite <- Hmir.
      assert (r ∈ pre -> r ∈ P) as Hp by apply Hpre. clear - HnP Hnpre Hp Hmir.
      destruct (decide (r = node)) as [->|]; [tauto|].
      destruct (decide (s = node)) as [->|]; [|tauto].
      destruct (decide (r ∈ P)); tauto.
    - intros r s. unfold reqs at 1. simpl. rewrite ds_get_delete, Hrb.
      rewrite !elem_of_app, !elem_of_list_singleton.
      destruct (decide (s = node)) as [->|Hne]; [set_solver|].
      fold (reqs ga s). rewrite Hra, Hrq. rewrite (elem_of_enum enum Henum).
      fold (seqs g node). rewrite Hsn, Hmir.
      destruct (decide (r = node)) as [->|]; [|tauto]. tauto.
    - intros r s Hne. simpl. rewrite Heb. by apply Hea.
    - intros r s. simpl. rewrite Heb. apply Hda.
    - done.
  Qed.

  Lemma purge_subgraph_ok (P : gset N) (g0 : graph) :
    (forall r s, s ∈ seqs g0 r <-> r ∈ reqs g0 s) ->
    exists g', purge_subgraph enum P g0 = Ok g' /\
      (forall r s, s ∈ seqs g' r <-> s ∈ seqs g0 r /\ r ∉ P /\ s ∉ P) /\
      (forall r s, r ∈ reqs g' s <-> s ∈ seqs g' r) /\
      (forall r s, r ∉ P -> g_em g' !! (r, s) = g_em g0 !! (r, s)) /\
      (forall r s, is_Some (g_em g' !! (r, s)) -> is_Some (g_em g0 !! (r, s))) /\
      dom (g_seq g') = dom (g_seq g0) ∖ P.
  Proof.
    intros Hmir. unfold purge_subgraph.
    edestruct (mfor_ind (purge_node enum P)
      (fun pre g =>
       (forall r s, s ∈ seqs g r <-> s ∈ seqs g0 r /\ r ∉ pre /\ ~ (s ∈ pre /\ r ∉ P)) /\
       (forall r s, r ∈ reqs g s <-> r ∈ reqs g0 s /\ s ∉ pre /\ ~ (r ∈ pre /\ s ∉ P)) /\
       (forall r s, r ∉ pre -> g_em g !! (r, s) = g_em g0 !! (r, s)) /\
       (forall r s, is_Some (g_em g !! (r, s)) -> is_Some (g_em g0 !! (r, s))) /\
       dom (g_seq g) = dom (g_seq g0) ∖ list_to_set pre) (enum P) g0)
      as (g' & Hf & Hs & Hr & He & Hd & Hdom).
    - split_and!; try done; set_solver.
    - intros pre a post g Hl (Hs & Hr & He & Hd & Hdom).
      apply enum_split in Hl as (Ha & Hap & Hpre); [|done].
      destruct (purge_node_ok P pre g0 g a) as (g' & Hf & Hs' & Hr' & He' & Hd' & Hdom'); try done.
      exists g'. split_and!; try done.
      + intros r s Hrs. rewrite He' by set_solver. apply He. set_solver.
      + intros r s Hrs. by apply Hd, Hd'.
      + rewrite Hdom', Hdom, list_to_set_app_L. set_solver.
    - assert (forall x, x ∈ enum P <-> x ∈ P) as Hen by (intros; by apply elem_of_enum).
      exists g'. split; [done|].
      assert (forall r s, s ∈ seqs g' r <-> s ∈ seqs g0 r /\ r ∉ P /\ s ∉ P) as Hs'.
      { intros r s. rewrite Hs, !Hen. destruct (decide (r ∈ P)); tauto. }
      split_and!; [done| | |done|].
      + intros r s. rewrite Hr, Hs', !Hen, Hmir. destruct (decide (s ∈ P)); tauto.
      + intros r s Hrs. apply He. by rewrite Hen.
      + rewrite Hdom. apply set_eq. intros x. rewrite !elem_of_difference, elem_of_list_to_set, Hen.
        done.
  Qed.

  (** the specification of both colour purges *)
  Lemma purge_reqless_ok start (g : graph) :
    (forall r s, s ∈ seqs g r <-> r ∈ reqs g s) ->
    exists (A : gset N) (g' : graph), purge_reqless enum pick start g = Ok g' /\
      (forall n, n ∈ A <-> reach_from (g_seq g) start n) /\
      (forall r s, s ∈ seqs g' r <-> s ∈ seqs g r /\ r ∈ A) /\
      (forall r s, r ∈ reqs g' s <-> s ∈ seqs g' r) /\
      (forall r s, r ∈ A -> g_em g' !! (r, s) = g_em g !! (r, s)) /\
      (forall r s, is_Some (g_em g' !! (r, s)) -> is_Some (g_em g !! (r, s))) /\
      (forall n, n ∈ A -> n ∈ dom (g_seq g')).
  Proof.
    intros Hmir. unfold purge_reqless, color_purge.
    destruct (color_loop_reach (g_seq g) start) as (A & -> & HA). simpl.
    set (g1 := Graph _ _ _). change (dom (ds_touch (g_seq g) A)) with (dom (g_seq g1)).
    assert (forall r, seqs g1 r = seqs g r) as Hs1 by (intros; apply ds_get_touch).
    destruct (purge_subgraph_ok (dom (g_seq g1) ∖ A) g1) as (g' & -> & Hs & Hr & He & Hd & Hdom).
    { intros r s. rewrite Hs1. apply Hmir. }
    exists A, g'. split_and!; [done|done| |done| |done|].
    - intros r s. rewrite Hs, Hs1. split.
      + intros (Hl & Hrp & _). split; [done|].
        destruct (decide (r ∈ A)) as [|Hna]; [done|]. exfalso. apply Hrp.
        apply elem_of_difference. split; [|done]. simpl. rewrite dom_touch.
        apply elem_of_union_l, elem_of_dom. unfold seqs, ds_get in Hl.
        destruct (g_seq g !! r); [eauto|set_solver].
      + intros (Hl & HrA). split; [done|]. split; [set_solver|].
        assert (s ∈ A); [|set_solver]. apply HA. eapply reach_from_closed; [|exact Hl]. by apply HA.
    - intros r s Hr'. apply He. set_solver.
    - intros x Hx. rewrite Hdom. simpl. rewrite dom_touch. set_solver.
  Qed.

  Lemma purge_seqless_ok start (g : graph) :
    (forall r s, s ∈ seqs g r <-> r ∈ reqs g s) ->
    exists (A : gset N) (g' : graph), purge_seqless enum pick start g = Ok g' /\
      (forall n, n ∈ A <-> reach_from (g_req g) start n) /\
      (forall r s, s ∈ seqs g' r <-> s ∈ seqs g r /\ r ∈ A /\ (s ∈ A \/ s ∉ dom (g_seq g))) /\
      (forall r s, r ∈ reqs g' s <-> s ∈ seqs g' r) /\
      (forall r s, r ∈ A \/ r ∉ dom (g_seq g) -> g_em g' !! (r, s) = g_em g !! (r, s)) /\
      (forall r s, is_Some (g_em g' !! (r, s)) -> is_Some (g_em g !! (r, s))).
  Proof.
    intros Hmir. unfold purge_seqless, color_purge.
    destruct (color_loop_reach (g_req g) start) as (A & -> & HA). simpl.
    set (g1 := Graph _ _ _).
    assert (forall r, seqs g1 r = seqs g r) as Hs1 by done.
    assert (forall r, reqs g1 r = reqs g r) as Hr1 by (intros; apply ds_get_touch).
    destruct (purge_subgraph_ok (dom (g_seq g) ∖ A) g1) as (g' & -> & Hs & Hr & He & Hd & Hdom).
    { intros r s. rewrite Hs1, Hr1. apply Hmir. }
    exists A, g'. split_and!; [done|done| |done| |done].
    - intros r s. rewrite Hs, Hs1. split.
      + intros (Hl & Hrp & Hsp). split; [done|]. split.
        * destruct (decide (r ∈ A)) as [|Hna]; [done|]. exfalso. apply Hrp.
          apply elem_of_difference. split; [|done].
          apply elem_of_dom. unfold seqs, ds_get in Hl.
          destruct (g_seq g !! r); [eauto|set_solver].
        * destruct (decide (s ∈ A)); [by left|]. right. set_solver.
      + intros (Hl & HrA & Hor). set_solver.
    - intros r s Hr'. apply He. set_solver.
  Qed.

End gp.
