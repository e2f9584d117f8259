(** Putting the LUQ inverse solve together. *)
From Verif Require Import Fld Py LinSpec LinAlg LinReduce LinIo Herm GraphModel GraphSpec GraphProofs GraphPurge GraphSolve GraphMain.
From Verif Require Import DagModel DagSpec DagElim DagLoops DagPurge.
Local Open Scope fld_scope.

(** ** dressing *)
Section dress.
  Context {K : fld} {N : Type} `{Countable N}.
  Notation W := (wnode N).
  Notation wgraph := (graph K W).
  Notation srabe := (srabe K W).
  Implicit Types s : srabe.

  Section alpha.
    Context {X : Type} (f1 : X -> N) (f2 : X -> W) (f3 : X -> K).
    Notation fold := (fold_left (fun s x => dag_alpha s (f1 x) (f2 x) (f3 x))).
    Lemma alpha_fold (l : list X) : forall s,
      q_seq (fold l s) = q_seq s /\ q_req (fold l s) = q_req s /\ q_sb (fold l s) = q_sb s /\
      (forall a n, a ∈ qra (fold l s) n <-> a ∈ qra s n \/ exists x, x ∈ l /\ n = Nd (f1 x) /\ a = f2 x) /\
      (forall n, n ∈ dom (q_ra (fold l s)) <-> n ∈ dom (q_ra s) \/ exists x, x ∈ l /\ n = Nd (f1 x)) /\
      (forall m n, (forall x, x ∈ l -> ~ (m = f2 x /\ n = Nd (f1 x))) -> q_em (fold l s) !! (m, n) = q_em s !! (m, n)) /\
      (NoDup ((fun x => (f2 x, Nd (f1 x))) <$> l) ->
       forall x, x ∈ l -> q_em (fold l s) !! (f2 x, Nd (f1 x)) = Some (f3 x)).
    Proof using Type.
      induction l as [|x l IH]; intros s.
      - cbn [fold_left]. split_and!; try done.
        + intros a n. split; [tauto|]. intros [?|(x & Hx & _)]; [done|by apply elem_of_nil in Hx].
        + intros n. split; [tauto|]. intros [?|(x & Hx & _)]; [done|by apply elem_of_nil in Hx].
        + intros _ x Hx. by apply elem_of_nil in Hx.
      - cbn [fold_left]. destruct (IH (dag_alpha s (f1 x) (f2 x) (f3 x))) as (I1 & I2 & I3 & I4 & I5 & I6 & I7).
        split_and!; [by rewrite I1|by rewrite I2|by rewrite I3| | | |].
        + intros a n. rewrite I4. unfold qra, dag_alpha. cbn [q_ra]. rewrite ds_get_add.
          setoid_rewrite elem_of_cons. destruct (decide (n = Nd (f1 x))) as [->|Hn].
          * rewrite elem_of_union, elem_of_singleton. split.
            -- intros [[->|?]|(y & ? & ? & ?)]; eauto 10.
            -- intros [?|(y & [->|?] & ? & ?)]; eauto 10.
          * split.
            -- intros [?|(y & ? & ? & ?)]; eauto 10.
            -- intros [?|(y & [->|?] & ? & ?)]; eauto 10. done.
        + intros n. rewrite I5. unfold dag_alpha. cbn [q_ra]. unfold ds_add. rewrite dom_insert_L, elem_of_union, elem_of_singleton.
          setoid_rewrite elem_of_cons. split.
          * intros [[->|?]|(y & ? & ?)]; eauto 10.
          * intros [?|(y & [->|?] & ?)]; eauto 10.
        + intros m n Hn. rewrite I6.
          * unfold dag_alpha. cbn [q_em]. apply lookup_insert_ne. intros [= <- <-]. apply (Hn x); [left|done].
          * intros y Hy. apply Hn. by right.
        + intros Hnd y Hy. rewrite fmap_cons in Hnd. apply NoDup_cons in Hnd as [Hni Hnd].
          apply elem_of_cons in Hy as [->|Hy]; [|by apply I7].
          rewrite I6.
          * unfold dag_alpha. cbn [q_em]. apply lookup_insert.
          * intros y Hy [He1 He2]. apply Hni. apply elem_of_list_fmap. exists y. by rewrite He1, He2.
    Qed.
  End alpha.

  Lemma beta_fold (v : K) (l : list N) : forall s,
    let s' := fold_left (dag_beta v) l s in
    q_seq s' = q_seq s /\ q_req s' = q_req s /\ q_ra s' = q_ra s /\
    (forall m b, b ∈ qsb s' m <-> b ∈ qsb s m \/ exists o, o ∈ l /\ m = Nd o /\ b = WOut o) /\
    (forall m, m ∈ dom (q_sb s') <-> m ∈ dom (q_sb s) \/ exists o, o ∈ l /\ m = Nd o) /\
    (forall m n, (forall o, o ∈ l -> ~ (m = Nd o /\ n = WOut o)) -> q_em s' !! (m, n) = q_em s !! (m, n)) /\
    (forall o, o ∈ l -> q_em s' !! (Nd o, WOut o) = Some v).
  Proof using Type.
    induction l as [|x l IH]; intros s; cbn zeta.
    - cbn [fold_left]. split_and!; try done.
      + intros a n. split; [tauto|]. intros [?|(x & Hx & _)]; [done|by apply elem_of_nil in Hx].
      + intros n. split; [tauto|]. intros [?|(x & Hx & _)]; [done|by apply elem_of_nil in Hx].
      + intros x Hx. by apply elem_of_nil in Hx.
    - cbn [fold_left]. destruct (IH (dag_beta v s x)) as (I1 & I2 & I3 & I4 & I5 & I6 & I7).
      split_and!; [by rewrite I1|by rewrite I2|by rewrite I3| | | |].
      + intros m b. rewrite I4. unfold qsb, dag_beta. cbn [q_sb]. rewrite ds_get_add.
        setoid_rewrite elem_of_cons. destruct (decide (m = Nd x)) as [->|Hn].
        * rewrite elem_of_union, elem_of_singleton. split.
          -- intros [[->|?]|(y & ? & ? & ?)]; eauto 10.
          -- intros [?|(y & [->|?] & ? & ?)]; eauto 10.
        * split.
          -- intros [?|(y & ? & ? & ?)]; eauto 10.
          -- intros [?|(y & [->|?] & ? & ?)]; eauto 10. done.
      + intros n. rewrite I5. unfold dag_beta. cbn [q_sb]. unfold ds_add. rewrite dom_insert_L, elem_of_union, elem_of_singleton.
        setoid_rewrite elem_of_cons. split.
        * intros [[->|?]|(y & ? & ?)]; eauto 10.
        * intros [?|(y & [->|?] & ?)]; eauto 10.
      + intros m n Hn. rewrite I6.
        * unfold dag_beta. cbn [q_em]. apply lookup_insert_ne. intros [= <- <-]. apply (Hn x); [left|done].
        * intros y Hy. apply Hn. by right.
      + intros y Hy. destruct (decide (y ∈ l)) as [Hl|Hl]; [by apply I7|].
        apply elem_of_cons in Hy as [->|Hy]; [|done].
        rewrite I6.
        * unfold dag_beta. cbn [q_em]. apply lookup_insert.
        * intros o Ho [[= ->] _]. done.
  Qed.
End dress.

Section core.
  Context {K : fld} {N : Type} `{Countable N} (h : herm K).
  Add Field FF : (f_theory K).
  Notation W := (wnode N).
  Notation wgraph := (graph K W).
  Notation srabe := (srabe K W).
  Context (V I O : list N) (om : option (list (N * K))).
  Context (Hrq : request_ok V I O om).
  Definition Vs : gset W := list_to_set (Nd <$> V).
  Definition As : gset W := list_to_set (WVac :: (WIn <$> I)).
  Definition Bs : gset W := list_to_set (WOut <$> O).
  Lemma in_Vs w : w ∈ Vs <-> exists n, w = Nd n /\ n ∈ V.
  Proof using Type. unfold Vs. rewrite elem_of_list_to_set, elem_of_list_fmap. done. Qed.
  Lemma in_As w : w ∈ As <-> w = WVac \/ exists n, w = WIn n /\ n ∈ I.
  Proof using Type. unfold As. rewrite elem_of_list_to_set, elem_of_cons, elem_of_list_fmap. done. Qed.
  Lemma in_Bs w : w ∈ Bs <-> exists n, w = WOut n /\ n ∈ O.
  Proof using Type. unfold Bs. rewrite elem_of_list_to_set, elem_of_list_fmap. done. Qed.

  (** a plain system: as a scattering input, and every node is a key *)
  Record plain_input (g : wgraph) : Prop := {
    pl_si : scattering_input V g;
    pl_seq : dom (g_seq g) = Vs;
    pl_req : dom (g_req g) = Vs;
  }.

  Context (negative : bool).
  Notation val := (if negative then 1 else - (1) : K).
  Notation s0 g := (dag_dress (pre_purge g) O I om negative).

  Lemma dom_imap_some {A B : Type} (f : W -> A -> B) (m : gmap W A) :
    dom (map_imap (fun k x => Some (f k x)) m) = dom m.
  Proof using Type.
    apply set_eq. intros x. rewrite !elem_of_dom, map_lookup_imap. destruct (m !! x); simpl; split; intros [? ?]; eauto; done.
  Qed.

  Lemma dress_spec g : plain_input g ->
    q_seq (s0 g) = g_seq (pre_purge g) /\ q_req (s0 g) = g_req (pre_purge g) /\
    (forall a n, a ∈ qra (s0 g) n <-> (exists i v, (i, v) ∈ default [] om /\ n = Nd i /\ a = WVac) \/
                                      (exists i, i ∈ I /\ n = Nd i /\ a = WIn i)) /\
    (forall m b, b ∈ qsb (s0 g) m <-> exists o, o ∈ O /\ m = Nd o /\ b = WOut o) /\
    dom (q_ra (s0 g)) ⊆ Vs /\ dom (q_sb (s0 g)) ⊆ Vs /\
    (forall m n, q_em (s0 g) !! (Nd m, Nd n) = g_em g !! (Nd m, Nd n)) /\
    (forall n, q_em (s0 g) !! (WVac, Nd n) = (list_to_map (default [] om) : gmap N K) !! n) /\
    (forall i n, q_em (s0 g) !! (WIn i, Nd n) = if decide (i = n /\ i ∈ I) then Some 1 else None) /\
    (forall m o, q_em (s0 g) !! (Nd m, WOut o) = if decide (m = o /\ o ∈ O) then Some val else None) /\
    (forall a o, a ∈ As -> q_em (s0 g) !! (a, WOut o) = None).
  Proof using Hrq.
    intros [[Hnd Hmir Hnodes Hem] Hds Hdr]. destruct Hrq as [HI HO Hom HIV HOV HmV].
    assert (forall r s, (exists a b, r = Nd a /\ s = Nd b) \/ g_em g !! (r, s) = None) as Hem'.
    { intros r s. destruct (g_em g !! (r, s)) eqn:He; [|auto]. left.
      destruct (Hnodes r s) as (a & b & -> & -> & _); [|eauto]. apply Hem. eauto. }
    unfold dag_dress. set (sa := SR (g_seq (pre_purge g)) (g_req (pre_purge g)) ∅ ∅ (g_em (pre_purge g))).
    destruct (alpha_fold (fun iv : N * K => iv.1) (fun _ => WVac) (fun iv => iv.2) (default [] om) sa)
      as (a1 & a2 & a3 & a4 & a5 & a6 & a7).
    set (sb := fold_left _ (default [] om) sa) in *.
    destruct (alpha_fold (fun i : N => i) (fun i => WIn i) (fun _ => 1 : K) I sb) as (b1 & b2 & b3 & b4 & b5 & b6 & b7).
    set (sc := fold_left (fun s i => dag_alpha s i (WIn i) 1) I sb) in *.
    destruct (beta_fold val O sc) as (c1 & c2 & c3 & c4 & c5 & c6 & c7).
    set (sd := fold_left (dag_beta val) O sc) in *.
    assert (NoDup ((fun x : N * K => (WVac : W, Nd x.1)) <$> default [] om)) as Hnd1.
    { assert (NoDup ((fun n : N => (WVac : W, Nd n)) <$> (default [] om).*1)) as Hx.
      { apply NoDup_fmap_2; [|done]. intros ? ? [= ->]. done. }
      by rewrite <- list_fmap_compose in Hx. }
    assert (NoDup ((fun x : N => (WIn x, Nd x)) <$> I)) as Hnd2.
    { apply NoDup_fmap_2; [|done]. intros ? ? [= ->]. done. }
    assert (forall m n, (forall i, m <> WIn i) -> (forall o, n <> WOut o) -> q_em sd !! (m, n) = q_em sb !! (m, n)) as Hsd.
    { intros m n Hm Hn. rewrite c6, b6; [done| |].
      - intros i _ [-> _]. by apply (Hm i).
      - intros o _ [_ ->]. by apply (Hn o). }
    split_and!.
    - by rewrite c1, b1, a1.
    - by rewrite c2, b2, a2.
    - intros a n. unfold qra. rewrite c3. fold (qra sc n). rewrite b4, a4. split.
      + intros [[Hx|([i v] & Hx & -> & ->)]|Hx]; [|left; eauto|tauto].
        unfold qra, sa in Hx. cbn [q_ra] in Hx. unfold ds_get in Hx. rewrite lookup_empty in Hx. by apply elem_of_empty in Hx.
      + intros [(i & v & Hx & -> & ->)|Hx]; [|tauto]. left. right. exists (i, v). done.
    - intros m b. rewrite c4. split; [|tauto]. intros [Hx|Hx]; [|done].
      unfold qsb in Hx. rewrite b3, a3 in Hx. unfold sa in Hx. cbn [q_sb] in Hx. unfold ds_get in Hx.
      rewrite lookup_empty in Hx. by apply elem_of_empty in Hx.
    - rewrite c3. intros n Hn. apply b5 in Hn. rewrite a5 in Hn. apply in_Vs.
      destruct Hn as [[Hn|([i v] & Hn & ->)]|(i & Hn & ->)].
      + unfold sa in Hn. cbn [q_ra] in Hn. rewrite dom_empty_L in Hn. by apply elem_of_empty in Hn.
      + exists i. split; [done|]. apply HmV. apply elem_of_list_fmap. by exists (i, v).
      + exists i. split; [done|]. auto.
    - intros n Hn. apply c5 in Hn. apply in_Vs. destruct Hn as [Hn|(o & Ho & ->)]; [|eauto].
      rewrite b3, a3 in Hn. unfold sa in Hn. cbn [q_sb] in Hn. rewrite dom_empty_L in Hn. by apply elem_of_empty in Hn.
    - intros m n. rewrite Hsd by done. rewrite a6; [done|]. by intros x _ [? _].
    - intros n. rewrite Hsd by done. destruct (list_to_map _ !! n) as [v|] eqn:Hl.
      + apply elem_of_list_to_map in Hl; [|done]. by apply (a7 Hnd1 (n, v)).
      + apply not_elem_of_list_to_map in Hl. rewrite a6.
        * unfold sa. cbn [q_em pre_purge g_em]. destruct (Hem' WVac (Nd n)) as [(? & ? & ? & _)|]; done.
        * intros x Hx [_ [= ->]]. apply Hl. apply elem_of_list_fmap. eauto.
    - intros i n. rewrite c6 by (intros o _ [? _]; done).
      destruct (decide (i = n /\ i ∈ I)) as [[-> Hi]|Hi].
      + by apply (b7 Hnd2 n).
      + rewrite b6, a6.
        * unfold sa. cbn [q_em pre_purge g_em]. destruct (Hem' (WIn i) (Nd n)) as [(? & ? & ? & _)|]; done.
        * by intros x _ [? _].
        * intros x Hx [[= ->] [= ->]]. by apply Hi.
    - intros m o. destruct (decide (m = o /\ o ∈ O)) as [[-> Ho]|Ho].
      + by apply c7.
      + rewrite c6, b6, a6.
        * unfold sa. cbn [q_em pre_purge g_em]. destruct (Hem' (Nd m) (WOut o)) as [(? & ? & ? & ?)|]; done.
        * by intros x _ [? _].
        * by intros x _ [? _].
        * intros x Hx [[= ->] [= ->]]. by apply Ho.
    - intros a o Ha. rewrite c6, b6, a6.
      + unfold sa. cbn [q_em pre_purge g_em]. destruct (Hem' a (WOut o)) as [(? & ? & ? & ?)|]; done.
      + by intros x _ [_ ?].
      + by intros x _ [_ ?].
      + intros x Hx [-> _]. apply in_As in Ha as [?|(? & ? & _)]; done.
  Qed.

  Lemma dress_fresh g : plain_input g -> dfresh Vs As Bs (s0 g).
  Proof using Hrq.
    intros Hpl. destruct (dress_spec g Hpl) as (d1 & d2 & d3 & d4 & d5 & d6 & e1 & e2 & e3 & e4 & e5).
    pose proof Hpl as [[Hnd Hmir Hnodes Hem] Hds Hdr]. destruct Hrq as [HI HO Hom HIV HOV HmV].
    assert (Vs ## As) as D1.
    { intros x Hx Hy. apply in_Vs in Hx as (? & -> & _). apply in_As in Hy as [?|(? & ? & _)]; done. }
    assert (Vs ## Bs) as D2.
    { intros x Hx Hy. apply in_Vs in Hx as (? & -> & _). apply in_Bs in Hy as (? & ? & _); done. }
    assert (As ## Bs) as D3.
    { intros x Hx Hy. apply in_Bs in Hy as (? & -> & _). apply in_As in Hx as [?|(? & ? & _)]; done. }
    assert (forall m n, n ∈ qseq (s0 g) m <-> (m ∈ Vs /\ n ∈ Vs) /\ is_Some (q_em (s0 g) !! (m, n))) as wseq.
    { intros m n. unfold qseq. rewrite d1. fold (seqs (pre_purge g) m). rewrite (proj1 (pre_purge_ok g m n)). split.
      - intros [Hl Hs]. destruct (Hnodes m n Hl) as (a & b & -> & -> & Ha & Hb). rewrite e1.
        split; [|done]. rewrite !in_Vs. split; eexists; (split; [reflexivity|done]).
      - intros [[Hm Hn] Hs]. apply in_Vs in Hm as (a & -> & Ha), Hn as (b & -> & Hb).
        rewrite e1 in Hs. split; [|done]. by apply Hem. }
    split; [split|done|done]; try done.
    - split; [done| | |].
      + intros m n. rewrite <- wseq. unfold qseq, qreq. rewrite d1, d2.
        fold (seqs (pre_purge g) m) (reqs (pre_purge g) n).
        rewrite (proj1 (pre_purge_ok g m n)), (proj2 (pre_purge_ok g m n)). unfold seqs, reqs. by rewrite Hmir.
      + intros a n. rewrite d3. split.
        * intros [(i & v & Hi & -> & ->)|(i & Hi & -> & ->)].
          -- assert (i ∈ (default [] om).*1) as Hk by (apply elem_of_list_fmap; by exists (i, v)).
             split; [split; [apply in_As; by left|left; apply in_Vs; eauto]|]. rewrite e2.
             destruct (list_to_map _ !! i) eqn:El; [eauto|]. by apply not_elem_of_list_to_map in El.
          -- split; [split; [apply in_As; eauto|left; apply in_Vs; eauto]|]. rewrite e3, decide_True by done. eauto.
        * intros [[Ha [Hn|Hn]] Hs].
          -- apply in_Vs in Hn as (n' & -> & Hn). apply in_As in Ha as [->|(i & -> & Hi)].
             ++ rewrite e2 in Hs. destruct Hs as [v Hv]. apply elem_of_list_to_map_2 in Hv. left. eauto 6.
             ++ rewrite e3 in Hs. destruct (decide _) as [[-> ?]|]; [eauto|]. by destruct Hs.
          -- exfalso. apply in_Bs in Hn as (o & -> & Ho). rewrite e5 in Hs by done. by destruct Hs.
      + intros m b. rewrite d4. split.
        * intros (o & Ho & -> & ->). split; [split; [left; apply in_Vs; eauto|apply in_Bs; eauto]|].
          rewrite e4, decide_True by done. eauto.
        * intros [[Hm Hb] Hs]. apply in_Bs in Hb as (o & -> & Ho). destruct Hm as [Hm|Hm].
          -- apply in_Vs in Hm as (m' & -> & Hm). rewrite e4 in Hs. destruct (decide _) as [[-> ?]|]; [eauto|]. by destruct Hs.
          -- rewrite e5 in Hs by done. by destruct Hs.
    - rewrite d1. unfold pre_purge. cbn [g_seq]. by rewrite dom_imap_some.
    - rewrite d2. unfold pre_purge. cbn [g_req]. by rewrite dom_imap_some.
  Qed.

  (** flows of the dressed system *)
  Lemma VAs_perm : NoDup V -> elements (Vs ∪ As) ≡ₚ (Nd <$> V) ++ WVac :: (WIn <$> I).
  Proof using Hrq.
    intros Hnd. apply NoDup_Permutation; [apply NoDup_elements| |].
    - apply NoDup_app. split_and!.
      + apply NoDup_fmap_2; [|done]. by intros ? ? [= ->].
      + intros x Hx Hy. apply elem_of_list_fmap in Hx as (? & -> & _). apply elem_of_cons in Hy as [?|Hy]; [done|].
        apply elem_of_list_fmap in Hy as (? & ? & _). done.
      + apply NoDup_cons. split.
        * intros Hx. apply elem_of_list_fmap in Hx as (? & ? & _). done.
        * apply NoDup_fmap_2; [|apply Hrq]. by intros ? ? [= ->].
    - intros x. rewrite elem_of_elements, elem_of_union, elem_of_app, in_Vs, in_As, elem_of_cons, !elem_of_list_fmap. done.
  Qed.
  Lemma flow_dress (e : W -> W -> K) X n : NoDup V ->
    flow (Vs ∪ As) e X n = fsum (fun m => e (Nd m) n * X (Nd m)) V + e WVac n * X WVac + fsum (fun i => e (WIn i) n * X (WIn i)) I.
  Proof using Hrq.
    intros Hnd. unfold flow, gsum. rewrite (fsum_perm _ _ _ (VAs_perm Hnd)), fsum_app. cbn [fsum]. rewrite !fsum_map. ring.
  Qed.
  Lemma flow_As (e : W -> W -> K) X n :
    flow (∅ ∪ As) e X n = e WVac n * X WVac + fsum (fun i => e (WIn i) n * X (WIn i)) I.
  Proof using Hrq.
    unfold flow. rewrite union_empty_l_L. unfold As. rewrite gsum_list.
    - cbn [fsum]. by rewrite !fsum_map.
    - apply NoDup_cons. split.
      + intros Hx. apply elem_of_list_fmap in Hx as (? & ? & _). done.
      + apply NoDup_fmap_2; [|apply Hrq]. by intros ? ? [= ->].
  Qed.

  Definition Xd (x a : N -> K) (t : K) (w : W) : K :=
    match w with Nd n => x n | WIn i => a i | WVac => t | WOut _ => 0 end.
  Lemma dress_flow_node g X n : plain_input g -> n ∈ V ->
    flow (Vs ∪ As) (qe (s0 g)) X (Nd n)
    = fsum (fun m => S_of g m n * X (Nd m)) V + source I om (fun i => X (WIn i)) (X WVac) n.
  Proof using Hrq.
    intros Hpl Hn. destruct (dress_spec g Hpl) as (_ & _ & _ & _ & _ & _ & e1 & e2 & e3 & e4 & e5).
    rewrite flow_dress by apply Hpl. unfold source.
    rewrite (fsum_ext (fun m => qe (s0 g) (Nd m) (Nd n) * X (Nd m)) (fun m => S_of g m n * X (Nd m))).
    2: { intros m _. unfold qe. by rewrite e1. }
    rewrite (fsum_ext (fun i => qe (s0 g) (WIn i) (Nd n) * X (WIn i)) (fun i => if decide (i = n) then X (WIn i) else 0)).
    2: { intros i Hi. unfold qe. rewrite e3. destruct (decide (i = n)) as [->|Hne].
         - rewrite decide_True by done. simpl. ring.
         - rewrite decide_False by tauto. simpl. ring. }
    rewrite fsum_delta by apply Hrq. unfold qe at 1. rewrite e2. unfold m_of.
    destruct (decide (n ∈ I)); ring.
  Qed.
  Lemma dress_flow_out g X o : plain_input g -> o ∈ O ->
    flow (Vs ∪ As) (qe (s0 g)) X (WOut o) = val * X (Nd o).
  Proof using Hrq.
    intros Hpl Ho. destruct (dress_spec g Hpl) as (_ & _ & _ & _ & _ & _ & e1 & e2 & e3 & e4 & e5).
    rewrite flow_dress by apply Hpl.
    rewrite (fsum_ext (fun m => qe (s0 g) (Nd m) (WOut o) * X (Nd m)) (fun m => if decide (m = o) then val * X (Nd m) else 0)).
    2: { intros i Hi. unfold qe. rewrite e4. destruct (decide (i = o)) as [->|Hne].
         - rewrite decide_True by done. done.
         - rewrite decide_False by tauto. simpl. ring. }
    rewrite fsum_delta by apply Hpl. rewrite decide_True by (by apply (rq_OV _ _ _ _ Hrq)).
    rewrite (fsum_0 (fun i => qe (s0 g) (WIn i) (WOut o) * X (WIn i))).
    2: { intros i Hi. unfold qe. rewrite e5; [simpl; ring|]. apply in_As. eauto. }
    unfold qe. rewrite e5 by (apply in_As; by left). simpl. ring.
  Qed.

  Lemma dress_nonsing g : plain_input g -> injective_sys V (S_of g) <-> nonsing Vs As (qe (s0 g)).
  Proof using Hrq.
    intros Hpl. split.
    - intros Hi X Ha HX w Hw. apply in_Vs in Hw as (n & -> & Hn).
      apply (Hi (fun n => X (Nd n))); [|done]. intros m Hm.
      specialize (HX (Nd m)). rewrite dress_flow_node in HX by done. rewrite <- HX by (apply in_Vs; eauto).
      unfold source. rewrite (Ha WVac) by (apply in_As; by left).
      destruct (decide (m ∈ I)).
      + rewrite (Ha (WIn m)) by (apply in_As; eauto). ring.
      + ring.
    - intros Hns x Hx n Hn. apply (Hns (Xd x (fun _ => 0) 0) ) with (n := Nd n).
      + intros a Ha. apply in_As in Ha as [->|(i & -> & _)]; done.
      + intros w Hw. apply in_Vs in Hw as (m & -> & Hm). rewrite dress_flow_node by done. unfold source. cbn [Xd].
        rewrite Hx by done. destruct (decide _); ring.
      + apply in_Vs. eauto.
  Qed.

  (** ** unwrapping an eliminated system *)
  Context (enum : gset W -> list W) (Henum : forall X, enum X ≡ₚ elements X).
  Notation unwrap s := (unwrap enum (ds_get (q_sb s)) (q_em s) O I (match om with Some _ => true | None => false end)).
  Lemma dag_unwrap_ok (s : srabe) : dinv ∅ As Bs s ->
    exists sol, unwrap s = Ok sol /\
      (forall i o, i ∈ I -> o ∈ O -> R_of sol i o = qe s (WIn i) (WOut o)) /\
      (forall o, o ∈ O -> om <> None -> m_out sol o = qe s WVac (WOut o)).
  Proof using Hrq Henum.
    intros Hd. pose proof (di_wf _ _ _ _ Hd) as [wseq wreq wra wsb].
    set (gg := Graph (q_sb s) ∅ (q_em s) : wgraph).
    assert (forall i w, w ∈ seqs gg (WIn i) -> is_out w /\ is_Some (q_em s !! (WIn i, w))) as Hg.
    { intros i w Hw. apply wsb in Hw as [[_ Hb] Hs]. split; [|done]. apply in_Bs in Hb as (o & -> & _). done. }
    unfold GraphModel.unwrap.
    destruct (unwrap_total enum Henum gg I) with (um := (∅ : gmap (N * N) K)) as (um & Hum).
    { intros i w Hw. by apply Hg in Hw as [_ ?]. }
    { intros i w _ Hw. by apply Hg in Hw as [? _]. }
    pose proof (unwrap_outer enum Henum gg I _ _ Hum) as Hlk. cbn [g_seq g_em gg] in Hum. rewrite Hum.
    cbn [mbind res_bind]. eexists. split; [done|]. split.
    - intros i o Hi Ho. unfold R_of, qe. cbn [sol_edge_map]. rewrite Hlk.
      destruct (decide _) as [_|Hn]; [done|]. cbn [gg g_em].
      destruct (q_em s !! (WIn i, WOut o)) eqn:He; [|done]. exfalso. apply Hn. split; [done|].
      apply wsb. rewrite He. split; [|eauto]. split; [right; apply in_As; eauto|apply in_Bs; eauto].
    - intros o Ho Hom. destruct om as [l|]; [|done]. unfold m_out. cbn [sol_outputs_map default].
      pose proof (unwrap_map enum Henum gg O ∅ o (rq_O _ _ _ _ Hrq)) as Hum'. cbn [g_em gg] in Hum'.
      rewrite decide_True in Hum' by done. cbn [from_option id]. setoid_rewrite Hum'. unfold qe.
      by destruct (q_em s !! (WVac, WOut o)).
  Qed.
End core.

(** ** dressing and purging *)
Section purged.
  Context {K : fld} {N : Type} `{Countable N}.
  Notation W := (wnode N).
  Notation wgraph := (graph K W).
  Context (V I O : list N) (om : option (list (N * K))) (Hrq : request_ok V I O om).
  Context (enum : gset W -> list W) (Henum : forall X, enum X ≡ₚ elements X).
  Context (pick : gset W -> option W)
          (Hpick : forall X n, pick X = Some n -> n ∈ X)
          (Hpick_none : forall X, pick X = None -> X = ∅).
  Lemma dag_purged (g : wgraph) (pi po neg : bool) : plain_input V g -> injective_sys V (S_of g) ->
    let s0 := dag_dress (pre_purge g) O I om neg in
    exists (s1 : srabe K W) (P2 : gset W) (s2 : srabe K W),
      (if pi then dag_purge_in enum pick s0 else Ok s0) = Ok s1 /\
      (if po then dag_purge_out enum pick s1 else Ok s1) = Ok s2 /\
      dfresh P2 (As I) (Bs O) s2 /\ io_equiv (As I) (Bs O) (Vs V) (qe s0) P2 (qe s2) /\
      forall m b, b ∈ qsb s2 m -> exists o, m = Nd o /\ b = WOut o.
  Proof using Hrq Henum Hpick Hpick_none.
    intros Hpl Hinj s0.
    pose proof (dress_fresh V I O om Hrq neg g Hpl) as Hf0. fold s0 in Hf0.
    assert (forall m b, b ∈ qsb s0 m -> exists o, m = Nd o /\ b = WOut o) as Hsb0.
    { destruct (dress_spec V I O om Hrq neg g Hpl) as (_ & _ & _ & Hsb & _). intros m b Hb.
      apply Hsb in Hb as (o & _ & -> & ->). eauto. }
    assert (nonsing (Vs V) (As I) (qe s0)) as Hns0 by (by apply dress_nonsing).
    assert (exists (P : gset W) (s1 : srabe K W), (if pi then dag_purge_in enum pick s0 else Ok s0) = Ok s1 /\
       dfresh P (As I) (Bs O) s1 /\ io_equiv (As I) (Bs O) (Vs V) (qe s0) P (qe s1) /\
       forall m, qsb s1 m ⊆ qsb s0 m) as (P1 & s1 & E1 & Hf1 & Hio1 & Hsb1).
    { destruct pi; [by apply purge_in_ok|]. exists (Vs V), s0. split_and!; [done|done|apply io_refl|done]. }
    assert (exists (P : gset W) (s2 : srabe K W), (if po then dag_purge_out enum pick s1 else Ok s1) = Ok s2 /\
       dfresh P (As I) (Bs O) s2 /\ io_equiv (As I) (Bs O) P1 (qe s1) P (qe s2) /\
       forall m, qsb s2 m ⊆ qsb s1 m) as (P2 & s2 & E2 & Hf2 & Hio2 & Hsb2).
    { destruct po; [|exists P1, s1; split_and!; [done|done|apply io_refl|done]].
      apply purge_out_ok; try done. by apply Hio1. }
    exists s1, P2, s2. split_and!; try done.
    - exact (io_trans _ _ _ _ _ _ _ _ Hio1 Hio2).
    - intros m b Hb. by apply Hsb0, Hsb1, Hsb2.
  Qed.
End purged.

(** ** the inverse solve *)
Section main.
  Context {K : fld} {N : Type} `{Countable N} (h : herm K).
  Add Field FF2 : (f_theory K).
  Notation W := (wnode N).
  Notation wgraph := (graph K W).
  Context (rt : dag_runtime K N) (Hrt : dag_runtime_ok h rt).
  Context (V I O : list N) (om : option (list (N * K))) (Hrq : request_ok V I O om).

  (** what a solution must satisfy, for the system  sum_m M(m,n) x_m + u_n = 0 *)
  Definition dag_answer (M : N -> N -> K) (v : K) (sol : solution (K := K) (N := N)) : Prop :=
    forall x a t, (om = None -> t = 0) ->
      (forall n, n ∈ V -> fsum (fun m => M m n * x m) V + source I om a t n = 0) ->
      forall o, o ∈ O -> v * x o = fsum (fun i => R_of sol i o * a i) I + m_out sol o * t.

  Lemma dag_plain_core (sorted : bool) g pi po neg :
    plain_input V g -> injective_sys V (S_of g) ->
    (sorted = false -> exists sol, loop_LUQ h rt sorted g O I om pi po neg false = Ok sol) /\
    (forall sol, loop_LUQ h rt sorted g O I om pi po neg false = Ok sol ->
       dag_answer (S_of g) (if neg then 1 else - (1)) sol).
  Proof using Hrt Hrq.
    intros Hpl Hinj. destruct Hrt as [R1 R2 R3 R4 R5 R6 R7 R8].
    set (s0 := dag_dress (pre_purge g) O I om neg).
    assert (nonsing (Vs V) (As I) (qe s0)) as Hns0 by (by apply dress_nonsing).
    destruct (dag_purged V I O om Hrq (dr_enum rt) R1 (dr_pick rt) R2 R3 g pi po neg Hpl Hinj)
      as (s1 & P2 & s2 & E1 & E2 & Hf2 & Hio & _). fold s0 in E1, Hio.
    assert (nonsing P2 (As I) (qe s2)) as Hns2 by (by apply Hio).
    set (simp := dag_simplify (dr_enum rt) (h_conj h) (h_sqrt h) (h_abs h) (dr_big rt) (dr_order rt)
         (dr_bad rt) (dr_cost rt) (dr_drift rt) (dr_pop rt) sorted).
    assert (loop_LUQ h rt sorted g O I om pi po neg false =
      (s ← simp s2; unwrap (dr_enum rt) (ds_get (q_sb s)) (q_em s) O I (match om with Some _ => true | None => false end))) as Heq.
    { unfold loop_LUQ, dag_inverse_solve. cbn [mbind res_bind]. fold s0. rewrite E1. cbn [mbind res_bind]. rewrite E2. done. }
    rewrite Heq. split.
    - intros ->. destruct (dag_simplify_ok h (dr_enum rt) R1 (dr_big rt) R8 (dr_order rt) (dr_bad rt) (dr_cost rt)
        (dr_drift rt) (dr_pop rt) R5 R6 R7 P2 (As I) (Bs O) s2 R4) as (s3 & E3 & Hd3 & _); [apply Hf2|done|].
      unfold simp. rewrite E3. cbn [mbind res_bind].
      destruct (dag_unwrap_ok V I O om Hrq (dr_enum rt) R1 s3 Hd3) as (sol & -> & _). eauto.
    - intros sol. destruct (simp s2) as [s3|] eqn:E3; [|done]. cbn [mbind res_bind]. intros Hun.
      assert (dinv ∅ (As I) (Bs O) s3 /\ io_equiv (As I) (Bs O) P2 (qe s2) ∅ (qe s3)) as [Hd3 Hio3].
      { destruct sorted.
        - exact (dag_sorted_ok h (dr_enum rt) R1 (dr_big rt) (dr_order rt) (dr_bad rt) (dr_cost rt)
            (dr_drift rt) (dr_pop rt) P2 (As I) (Bs O) s2 s3 (df_inv _ _ _ _ Hf2) E3).
        - destruct (dag_simplify_ok h (dr_enum rt) R1 (dr_big rt) R8 (dr_order rt) (dr_bad rt) (dr_cost rt)
            (dr_drift rt) (dr_pop rt) R5 R6 R7 P2 (As I) (Bs O) s2 R4) as (s3' & E3' & ? & ?); [apply Hf2|done|].
          unfold simp in E3. rewrite E3 in E3'. injection E3' as <-. done. }
      destruct (dag_unwrap_ok V I O om Hrq (dr_enum rt) R1 s3 Hd3) as (sol' & Hun' & HR & Hm).
      rewrite Hun in Hun'. injection Hun' as <-.
      intros x a t Ht Hx o Ho.
      pose proof (io_trans _ _ _ _ _ _ _ _ Hio Hio3) as [Hfw _ _].
      destruct (Hfw (Xd x a t)) as (X' & _ & Ha & Hb).
      { intros w Hw. apply in_Vs in Hw as (n & -> & Hn). unfold s0. rewrite (dress_flow_node V I O om Hrq neg g) by done. by apply Hx. }
      specialize (Hb (WOut o)). unfold s0 in Hb. rewrite (dress_flow_out V I O om Hrq neg g) in Hb by done.
      cbn [Xd] in Hb. rewrite <- Hb by (apply in_Bs; eauto). rewrite (flow_As V I O om Hrq).
      rewrite (fsum_ext (fun i => R_of sol i o * a i) (fun i => qe s3 (WIn i) (WOut o) * X' (WIn i))).
      2: { intros i Hi. rewrite HR, (Ha (WIn i)) by (done || apply in_As; eauto). done. }
      rewrite (Ha WVac) by (apply in_As; by left). cbn [Xd].
      destruct (decide (om = None)) as [He|He]; [rewrite (Ht He); ring|]. rewrite Hm by done. ring.
  Qed.
End main.
