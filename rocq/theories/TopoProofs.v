From Coq Require Import ZArith Lia.
From stdpp Require Import base tactics list numbers gmap relations.
From Verif Require Import Py TopoModel TopoSpec.
Local Open Scope Z_scope.

Section proofs.
  Context {N : Type} `{Countable N}.
  Context (succ : N -> list N) (single : bool).
  Context (V : list N) (nodes : list N).
  Context (V_nodup : NoDup V).
  Notation edge := (dep succ).

  Definition node_ok (low index : gmap N Z) (cnt : Z) (O : list N) (above : option N) (n : N) (it st : list N) : Prop :=
    exists ll ix, low !! n = Some ll /\ index !! n = Some ix /\ 0 < ll <= ix /\ ix < cnt /\
      (ll < ix -> exists s, s ∈ st /\ edge n s) /\
      (forall s, s ∈ st -> exists ixs, index !! s = Some ixs /\ ixs < ix) /\
      (forall a, above = Some a -> edge n a) /\
      (forall s, edge n s -> s ∈ it \/ s ∈ O \/ s = n \/ above = Some s \/ (s ∈ st /\ ll < ix)) /\
      (forall s, s ∈ it -> edge n s).
  Fixpoint frames (low index : gmap N Z) (cnt : Z) (O : list N) (above : option N) (st : list N) (its : list (list N)) : Prop :=
    match st, its with
    | [], [] => True
    | n :: st, it :: its => node_ok low index cnt O above n it st /\ frames low index cnt O (Some n) st its
    | _, _ => False
    end.

  Definition inv (O : list N) (s : tstate (N := N)) : Prop :=
    t_out s = ynode single <$> O /\
    NoDup (t_stack s ++ O) /\
    (forall n, is_Some (t_low s !! n) <-> n ∈ t_stack s \/ n ∈ O) /\
    (forall n, n ∈ O -> exists z, t_low s !! n = Some z /\ z < 0) /\
    0 < t_counter s /\
    frames (t_low s) (t_index s) (t_counter s) O None (t_stack s) (t_iters s) /\
    (forall n, n ∈ t_stack s \/ n ∈ O -> needed succ nodes n /\ n ∈ V) /\
    dependencies_first succ O.

  Lemma frames_low low low' index cnt O st : forall above its,
    (forall n, n ∈ st -> low' !! n = low !! n) ->
    frames low index cnt O above st its -> frames low' index cnt O above st its.
  Proof using.
    induction st as [|n st IH]; intros above [|it its] Hl; cbn [frames]; [done..|].
    intros [Hn Hf]. split.
    - destruct Hn as (ll & ix & H1 & H2 & Hn). exists ll, ix. rewrite Hl by left. by repeat (split; [done|]).
    - apply IH; [|done]. intros m Hm. apply Hl. by right.
  Qed.
  Lemma frames_cnt low index cnt cnt' O st : forall above its,
    cnt <= cnt' -> frames low index cnt O above st its -> frames low index cnt' O above st its.
  Proof using.
    induction st as [|n st IH]; intros above [|it its] Hl; cbn [frames]; [done..|].
    intros [Hn Hf]. split; [|by apply IH].
    destruct Hn as (ll & ix & H1 & H2 & H3 & H4 & Hn). exists ll, ix. split_and!; try done; try apply Hn; lia.
  Qed.
  Lemma frames_index low index index' cnt O st : forall above its,
    (forall n, n ∈ st -> index' !! n = index !! n) ->
    frames low index cnt O above st its -> frames low index' cnt O above st its.
  Proof using.
    induction st as [|n st IH]; intros above [|it its] Hl; cbn [frames]; [done..|].
    intros [Hn Hf]. split.
    - destruct Hn as (ll & ix & H1 & H2 & H3 & H4 & H5 & H6 & Hn). exists ll, ix.
      rewrite Hl by left. split_and!; try done; try apply Hn; try lia.
      intros s Hs. rewrite Hl by (by right). by apply H6.
    - apply IH; [|done]. intros m Hm. apply Hl. by right.
  Qed.
  Lemma frames_above low index cnt O x st its :
    frames low index cnt O (Some x) st its -> frames low index cnt (O ++ [x]) None st its.
  Proof using.
    assert (forall st its above, frames low index cnt O above st its -> frames low index cnt (O ++ [x]) above st its) as G.
    { clear st its. induction st as [|n st IH]; intros [|it its] above; cbn [frames]; [done..|].
      intros [Hn Hf]. split; [|by apply IH].
      destruct Hn as (ll & ix & H1 & H2 & H3 & H4 & H5 & H6 & H7 & H8 & H9). exists ll, ix. split_and!; try done; try lia.
      intros s Hs. destruct (H8 s Hs) as [?|[?|[?|[?|?]]]]; try tauto. right. left. apply elem_of_app. by left. }
    destruct st as [|n st], its as [|it its]; cbn [frames]; try done.
    intros [Hn Hf]. split; [|by apply G].
    destruct Hn as (ll & ix & H1 & H2 & H3 & H4 & H5 & H6 & H7 & H8 & H9). exists ll, ix. split_and!; try done; try lia.
    intros s Hs. destruct (H8 s Hs) as [?|[?|[?|[[= ->]|?]]]]; try tauto.
    - right. left. apply elem_of_app. by left.
    - right. left. apply elem_of_app. right. by apply elem_of_list_singleton.
  Qed.
  Lemma frames_push low index cnt O n st its :
    (match st with [] => True | m :: _ => edge m n end) ->
    frames low index cnt O None st its -> frames low index cnt O (Some n) st its.
  Proof using.
    destruct st as [|m st], its as [|it its]; cbn [frames]; try done. intros He [Hn Hf]. split; [|done].
    destruct Hn as (ll & ix & H1 & H2 & H3 & H4 & H5 & H6 & H7 & H8 & H9). exists ll, ix. split_and!; try done; try lia.
    - by intros a [= <-].
    - intros s Hs. destruct (H8 s Hs) as [?|[?|[?|[?|?]]]]; try tauto. done.
  Qed.

  (** everything on the stack leads up to its top *)
  Lemma frames_path low index cnt O st : forall above its a s,
    frames low index cnt O above st its -> above = Some a -> s ∈ st -> tc edge s a.
  Proof using.
    induction st as [|n st IH]; intros above [|it its] a s; cbn [frames]; try done.
    { intros _ _ Hs. by apply elem_of_nil in Hs. }
    intros [Hn Hf] -> Hs.
    assert (edge n a) as He.
    { destruct Hn as (ll & ix & _ & _ & _ & _ & _ & _ & H7 & _). by apply H7. }
    apply elem_of_cons in Hs as [->|Hs]; [by apply tc_once|].
    eapply tc_r; [by eapply (IH (Some n))|done].
  Qed.

  Definition undiscovered (low : gmap N Z) : list N := filter (fun n => low !! n = None) V.
  Definition weight (l : list N) : nat := sum_list_with (fun n => 2 + length (succ n))%nat l.
  Definition measure (s : tstate (N := N)) : nat :=
    (weight (undiscovered (t_low s)) + sum_list_with length (t_iters s) + length (t_stack s))%nat.

  Lemma weight_insert (low : gmap N Z) n z : n ∈ V -> low !! n = None ->
    (weight (undiscovered (<[n := z]> low)) + (2 + length (succ n)) = weight (undiscovered low))%nat.
  Proof using V_nodup.
    intros Hn Hl. unfold undiscovered, weight. induction V as [|v l IH]; [by apply elem_of_nil in Hn|].
    apply NoDup_cons in V_nodup as [Hv Hnd]. rewrite !filter_cons.
    destruct (decide (v = n)) as [->|Hne].
    - rewrite decide_False by (by rewrite lookup_insert).
      rewrite decide_True by done. cbn [sum_list_with].
      assert (filter (fun m => <[n := z]> low !! m = None) l = filter (fun m => low !! m = None) l) as ->; [|lia].
      clear IH Hn Hnd. induction l as [|w l IHl]; [done|]. apply not_elem_of_cons in Hv as [Hwn Hv].
      rewrite !filter_cons. rewrite lookup_insert_ne by done. by rewrite IHl.
    - rewrite lookup_insert_ne by done.
      apply elem_of_cons in Hn as [|Hn]; [done|].
      destruct (decide (low !! v = None)); cbn [sum_list_with]; specialize (IH Hnd Hn); lia.
  Qed.
  Lemma weight_same (low : gmap N Z) n z : is_Some (low !! n) ->
    weight (undiscovered (<[n := z]> low)) = weight (undiscovered low).
  Proof using.
    intros [y Hl]. unfold undiscovered. f_equal. clear V_nodup. induction V as [|v l IH]; [done|].
    rewrite !filter_cons, IH. destruct (decide (v = n)) as [->|Hne].
    - rewrite lookup_insert, Hl. by rewrite !decide_False.
    - by rewrite lookup_insert_ne.
  Qed.

  (** a new node pushed on a consistent state *)
  Lemma insert_inv O s n :
    inv O s -> t_low s !! n = None -> needed succ nodes n -> n ∈ V ->
    (match t_stack s with [] => True | m :: _ => edge m n end) ->
    inv O (insert_node succ s n).
  Proof using.
    intros (I1 & I2 & I3 & I4 & I5 & I6 & I7 & I8) Hl Hr HV He.
    assert (n ∉ t_stack s /\ n ∉ O) as [Hns HnO].
    { split; intros Hin; assert (is_Some (t_low s !! n)) as [? ?] by (apply I3; tauto); congruence. }
    unfold insert_node. split_and!; cbn [t_out t_stack t_low t_index t_counter t_iters].
    - done.
    - cbn. apply NoDup_cons. split; [|done]. rewrite elem_of_app. tauto.
    - intros m. destruct (decide (m = n)) as [->|Hne].
      + rewrite lookup_insert. split; [|eauto]. intros _. left. by left.
      + rewrite lookup_insert_ne, I3 by done. rewrite elem_of_cons. tauto.
    - intros m Hm. rewrite lookup_insert_ne by congruence. by apply I4.
    - lia.
    - cbn [frames]. split.
      + exists (t_counter s), (t_counter s). rewrite !lookup_insert. split_and!; try done; try lia.
        * intros m Hm.
          assert (exists ix, t_index s !! m = Some ix /\ ix < t_counter s) as (ix & E & Hlt).
          { clear -Hm I6. revert I6. generalize (None : option N), (t_iters s).
            induction (t_stack s) as [|k st IH]; intros ab [|it its]; cbn [frames]; try done.
            { by apply elem_of_nil in Hm. }
            intros [(ll & ix & _ & E & _ & Hlt & _) Hf]. apply elem_of_cons in Hm as [->|Hm]; [eauto|]. by eapply IH. }
          exists ix. rewrite lookup_insert_ne by congruence. done.
        * intros m Hm. by left.
      + apply frames_push; [done|]. eapply frames_cnt; [|eapply frames_index; [|eapply frames_low; [|exact I6]]].
        * lia.
        * intros m Hm. rewrite lookup_insert_ne; [done|congruence].
        * intros m Hm. rewrite lookup_insert_ne; [done|congruence].
    - intros m. rewrite elem_of_cons. intros [[->|?]|?]; [done|apply I7; tauto..].
    - done.
  Qed.

  Lemma insert_measure s n : n ∈ V -> t_low s !! n = None ->
    (S (measure (insert_node succ s n)) = measure s)%nat.
  Proof using V_nodup.
    intros HV Hl. unfold measure, insert_node. cbn [t_low t_iters t_stack].
    pose proof (weight_insert (t_low s) n (t_counter s) HV Hl). cbn [sum_list_with length]. lia.
  Qed.

  (** popping a component: it is strongly connected *)
  Lemma pop_scc_ok low0 index cnt O : forall st its above a low comp,
    frames low0 index cnt O above st its -> above = Some a -> NoDup (comp ++ st) ->
    (forall n, n ∈ st -> low !! n = low0 !! n) ->
    a ∈ comp -> (forall x y, x ∈ comp -> y ∈ comp -> rtc edge x y) ->
    (exists s, s ∈ st /\ edge a s) ->
    exists st' low' comp', pop_scc st low index comp = Ok (true, st', low', comp') /\
      (length comp < length comp')%nat /\ NoDup comp' /\
      (forall x, x ∈ comp' -> x ∈ comp \/ x ∈ st) /\
      (forall x y, x ∈ comp' -> y ∈ comp' -> rtc edge x y).
  Proof using.
    induction st as [|nd st IH]; intros [|it its] above a low comp; cbn [frames]; try done.
    { intros _ _ _ _ _ _ (s & Hs & _). by apply elem_of_nil in Hs. }
    intros [Hn Hf] -> Hnd Hlow Ha Hsc (s & Hs & Has).
    destruct Hn as (ll & ix & H1 & H2 & H3 & H4 & H5 & H6 & H7 & H8 & H9).
    cbn [pop_scc]. rewrite Hlow by left. rewrite H1, H2. rewrite decide_True by lia.
    assert (edge nd a) as Hea by (by apply H7).
    assert (rtc edge a nd) as Hand.
    { apply elem_of_cons in Hs as [->|Hs]; [by apply rtc_once|].
      eapply rtc_l; [done|]. apply tc_rtc. by eapply frames_path. }
    assert (forall x y, x ∈ comp ++ [nd] -> y ∈ comp ++ [nd] -> rtc edge x y) as Hsc'.
    { assert (forall x, x ∈ comp -> rtc edge x nd) as Hto by (intros x Hx; etrans; [by apply (Hsc x a)|done]).
      assert (forall x, x ∈ comp -> rtc edge nd x) as Hfrom by (intros x Hx; eapply rtc_l; [done|by apply Hsc]).
      intros x y. rewrite !elem_of_app, !elem_of_list_singleton. intros [Hx| ->] [Hy| ->]; [by apply Hsc|by apply Hto|by apply Hfrom|apply rtc_refl]. }
    assert (NoDup ((comp ++ [nd]) ++ st)) as Hnd'.
    { by rewrite <- app_assoc. }
    destruct (decide (ll = ix)) as [->|Hne].
    - do 3 eexists. split; [done|]. split_and!.
      + rewrite app_length. cbn. lia.
      + by apply NoDup_app in Hnd' as (? & _).
      + intros x. rewrite elem_of_app, elem_of_list_singleton, elem_of_cons. tauto.
      + done.
    - destruct (IH its (Some nd) nd (<[nd := - ll]> low) (comp ++ [nd])) as (st' & low' & comp' & Hr & Hlen & Hnd2 & Hsub & Hsc2).
      + done.
      + done.
      + done.
      + intros m Hm. apply NoDup_app in Hnd as (_ & _ & Hnd). apply NoDup_cons in Hnd as [Hns _].
        rewrite lookup_insert_ne by (intros ->; done). apply Hlow. by right.
      + apply elem_of_app. right. by apply elem_of_list_singleton.
      + done.
      + apply H5. lia.
      + exists st', low', comp'. split; [done|]. split_and!; [rewrite app_length in Hlen; cbn in Hlen; lia|done| |done].
        intros x Hx. apply Hsub in Hx. rewrite elem_of_app, elem_of_list_singleton in Hx. rewrite elem_of_cons. tauto.
  Qed.

  Definition loop_good (s : tstate (N := N)) (O : list N) (r : tres (N := N)) : Prop :=
    (exists O' s', r = TDone s' /\ inv O' s' /\ t_stack s' = [] /\
       (forall x, x ∈ t_stack s \/ x ∈ O -> x ∈ O')) \/
    (single = true /\ exists O' s' comp, r = TScc s' comp /\ t_out s' = ynode single <$> O' /\
       NoDup O' /\ dependencies_first succ O' /\ (forall x, x ∈ O' -> needed succ nodes x) /\
       knotted succ comp /\ (forall x, x ∈ comp -> needed succ nodes x)).

  Lemma deps_snoc O n : dependencies_first succ O -> (forall s, edge n s -> s <> n -> s ∈ O) ->
    dependencies_first succ (O ++ [n]).
  Proof using.
    intros Hd Hn pre x post E s Hs Hne.
    destruct (decide (post = [])) as [->|Hp].
    - apply app_inj_tail in E as [-> ->]. by apply Hn.
    - destruct (exists_last Hp) as (post' & y & ->).
      rewrite app_comm_cons, app_assoc in E. apply app_inj_tail in E as [-> _]. by eapply Hd.
  Qed.

  Context (V_closed : forall a b, a ∈ V -> dep succ a b -> b ∈ V).
  Context (mode : single = true \/ acyclic succ).

  Lemma topo_loop_ok : forall (b : nat) O s, (measure s < b)%nat -> inv O s -> t_stack s <> [] ->
    exists c r, (forall f, (c <= f)%nat -> topo_loop succ single f s = r) /\ loop_good s O r.
  Proof using V_closed V_nodup mode.
    induction b as [|b IH]; intros O s Hb I Hne; [lia|].
    pose proof I as (I1 & I2 & I3 & I4 & I5 & I6 & I7 & I8).
    destruct s as [cnt low index stack iters out]. cbn [t_stack t_low t_index t_counter t_iters t_out] in *.
    destruct stack as [|n st]; [done|]. destruct iters as [|it its]; [done|].
    destruct I6 as [Hn Hf].
    pose proof Hn as (ll & ix & H1 & H2 & H3 & H4 & H5 & H6 & H7 & H8 & H9).
    assert (n ∉ st /\ n ∉ O) as [Hnst HnO].
    { cbn in I2. apply NoDup_cons in I2 as [Hx _]. rewrite elem_of_app in Hx. tauto. }
    destruct it as [|k it].
    - (* the iterator is exhausted *)
      assert (forall s, edge n s -> s <> n -> ll = ix -> s ∈ O) as Hdone.
      { intros s Hs Hsn E. destruct (H8 s Hs) as [Hx|[?|[?|[?|[_ ?]]]]]; [by apply elem_of_nil in Hx|done|done|done|lia]. }
      assert (forall cnt', inv (O ++ [n]) (TState cnt (<[n := - ll]> low) index st its (ynode single <$> (O ++ [n]))) \/ cnt' = 0 \/ ll <> ix) as Hpop.
      { intros cnt'. destruct (decide (ll = ix)) as [E|]; [left|by right; right].
        split_and!; cbn [t_out t_stack t_low t_index t_counter t_iters]; try done.
        - assert (st ++ O ++ [n] ≡ₚ n :: st ++ O) as -> by (rewrite app_assoc, Permutation_app_comm; done). done.
        - intros m. destruct (decide (m = n)) as [->|Hmn].
          + rewrite lookup_insert. split; [|eauto]. intros _. right. apply elem_of_app. right. by apply elem_of_list_singleton.
          + rewrite lookup_insert_ne, I3 by done. rewrite elem_of_cons, elem_of_app, elem_of_list_singleton. naive_solver.
        - intros m Hm. apply elem_of_app in Hm as [Hm|Hm].
          + rewrite lookup_insert_ne by congruence. by apply I4.
          + apply elem_of_list_singleton in Hm as ->. rewrite lookup_insert. exists (- ll). split; [done|lia].
        - apply frames_above. eapply frames_low; [|exact Hf]. intros m Hm. rewrite lookup_insert_ne; [done|congruence].
        - intros m Hm. apply I7. rewrite elem_of_cons. rewrite elem_of_app, elem_of_list_singleton in Hm. naive_solver.
        - apply deps_snoc; [done|]. intros s Hs Hsn. by apply Hdone. }
      destruct (decide (ll < ix)) as [Hlt|Hge].
      + (* a cycle *)
        destruct (H5 Hlt) as (s & Hs & Hes).
        assert (tc edge n n) as Hcyc.
        { eapply tc_l; [exact Hes|]. by eapply frames_path. }
        destruct mode as [Hsingle|Hac]; [|by destruct (Hac n)].
        destruct st as [|m st]; [by apply elem_of_nil in Hs|].
        destruct (pop_scc_ok low index cnt O (m :: st) its (Some n) n (<[n := - ll]> (<[n := ll]> low)) [n])
          as (st' & low' & comp' & Hr & Hlen & Hnd & Hsub & Hsc).
        * done.
        * done.
        * cbn. cbn in I2. change (n :: m :: st ++ O) with ((n :: m :: st) ++ O) in I2. by apply NoDup_app in I2 as (? & _).
        * intros x Hx. rewrite !lookup_insert_ne by congruence. done.
        * by left.
        * intros x y ->%elem_of_list_singleton ->%elem_of_list_singleton. done.
        * eauto.
        * exists 1%nat. eexists. split.
          { intros f Hfu. destruct f as [|f]; [lia|].
            cbn [topo_loop t_stack t_iters t_low t_index t_counter t_out]. rewrite H1, H2. rewrite Z.min_id.
            rewrite decide_True by lia. rewrite decide_True by lia. rewrite Hr. rewrite Hsingle. reflexivity. }
          right. split; [done|]. exists O. do 2 eexists. split; [done|].
          cbn [t_out]. split_and!; try done.
          -- cbn in I2. change (n :: m :: st ++ O) with ((n :: m :: st) ++ O) in I2. by apply NoDup_app in I2 as (_ & _ & ?).
          -- intros x Hx. apply I7. by right.
          -- intros x Hx. apply I7. left. apply Hsub in Hx. rewrite elem_of_list_singleton in Hx. rewrite elem_of_cons. tauto.
      + assert (ll = ix) as E by lia. destruct (Hpop 1) as [Hi|[|]]; [|done..].
        destruct st as [|m st].
        * rewrite fmap_app in Hi. cbn [fmap list_fmap] in Hi. rewrite <- I1 in Hi.
          exists 1%nat. eexists. split.
          { intros f Hfu. destruct f as [|f]; [lia|].
            cbn [topo_loop t_stack t_iters t_low t_index t_counter t_out]. rewrite H1, H2. rewrite Z.min_id.
            rewrite decide_True by lia. rewrite insert_insert. reflexivity. }
          left. exists (O ++ [n]). eexists. split; [done|]. split_and!; [done|done|].
          intros x. rewrite elem_of_app. tauto.
        * destruct (fun Hm Hs => IH _ _ Hm Hi Hs) as (c & r & Hc & Hgood).
          { unfold measure in Hb |- *. cbn [t_stack t_low t_iters] in Hb |- *. rewrite weight_same by (rewrite H1; eauto).
            cbn [sum_list_with length] in Hb |- *. lia. }
          { done. }
          rewrite fmap_app in Hc. cbn [fmap list_fmap] in Hc. rewrite <- I1 in Hc.
          exists (S c), r. split.
          { intros f Hfu. destruct f as [|f]; [lia|].
            cbn [topo_loop t_stack t_iters t_low t_index t_counter t_out]. rewrite H1, H2. rewrite Z.min_id.
            rewrite decide_False by lia. rewrite decide_True by done. rewrite decide_True by lia.
            rewrite insert_insert. apply Hc. lia. }
          destruct Hgood as [(O' & s' & Hr & Hi' & Hst & Hsub)|[Hsg Hc']].
          -- left. exists O', s'. split_and!; try done. intros x Hx. apply Hsub. cbn [t_stack] in *.
             rewrite elem_of_app, elem_of_list_singleton. rewrite elem_of_cons in Hx. tauto.
          -- right. split; [done|]. exact Hc'.
    - (* one more successor *)
      assert (edge n k) as Hek by (apply H9; by left).
      assert (k ∈ V) as HkV.
      { eapply V_closed; [|exact Hek]. apply I7. left. by left. }
      assert (needed succ nodes k) as Hkr.
      { destruct (I7 n) as [(x & Hx & Hp) _]; [left; by left|]. exists x. split; [done|]. by eapply rtc_r. }
      destruct (low !! k) as [kll|] eqn:Hk.
      + assert (forall ll', 0 < ll' <= ll -> (ll' = ll /\ (k ∈ O \/ k = n)) \/ (k ∈ st /\ ll' < ix) ->
          inv O (TState cnt (<[n := ll']> low) index (n :: st) (it :: its) out)) as Hnext.
        { intros ll' Hll Hcase.
          split_and!; cbn [t_out t_stack t_low t_index t_counter t_iters]; try done.
          - intros m. destruct (decide (m = n)) as [->|Hmn].
            + rewrite lookup_insert. split; [|eauto]. intros _. left. by left.
            + by rewrite lookup_insert_ne, I3.
          - intros m Hm. rewrite lookup_insert_ne by congruence. by apply I4.
          - cbn [frames]. split.
            + exists ll', ix. rewrite lookup_insert. split_and!; try done; try lia.
              * intros Hlt. destruct Hcase as [[-> _]|[Hkst _]]; [by apply H5|eauto].
              * intros s Hs. destruct (H8 s Hs) as [Hx|[?|[?|[?|[? ?]]]]]; try tauto.
                -- apply elem_of_cons in Hx as [->|]; tauto.
                -- right. right. right. right. split; [done|lia].
              * intros s Hs. apply H9. by right.
            + eapply frames_low; [|exact Hf]. intros m Hm. rewrite lookup_insert_ne; [done|congruence]. }
        assert (exists ll', 0 < ll' <= ll /\ ((ll' = ll /\ (k ∈ O \/ k = n)) \/ (k ∈ st /\ ll' < ix)) /\
          forall f, topo_loop succ single (S f) (TState cnt low index (n :: st) ((k :: it) :: its) out)
                    = topo_loop succ single f (TState cnt (<[n := ll']> low) index (n :: st) (it :: its) out))
          as (ll' & Hll & Hcase & Hstep).
        { destruct (proj1 (I3 k)) as [Hkst|HkO]; [rewrite Hk; eauto| |].
          - apply elem_of_cons in Hkst as [->|Hkst].
            + assert (kll = ll) as -> by congruence. exists ll. split; [lia|]. split; [left; tauto|].
              intros f. cbn [topo_loop t_stack t_iters t_low t_index t_counter t_out].
              rewrite Hk. rewrite decide_False by lia. by rewrite Z.min_id.
            + assert (exists ixk, index !! k = Some ixk /\ 0 < kll <= ixk) as (ixk & Eix & Hkll).
              { clear -Hkst Hf Hk. revert Hf. generalize (Some n), its.
                induction st as [|x st IH]; intros ab [|it0 its0]; cbn [frames]; try done.
                { by apply elem_of_nil in Hkst. }
                intros [(ll & ix & E1 & E2 & E3 & _) Hf]. apply elem_of_cons in Hkst as [->|Hm].
                - exists ix. split; [done|]. congruence.
                - by eapply IH. }
              destruct (H6 k Hkst) as (ixk' & Eix' & Hlt). assert (ixk' = ixk) as -> by congruence.
              exists (Z.min ll kll). split; [lia|]. split; [right; split; [done|lia]|].
              intros f. cbn [topo_loop t_stack t_iters t_low t_index t_counter t_out].
              rewrite Hk. rewrite decide_False by lia. by rewrite H1.
          - destruct (I4 k HkO) as (z & Ez & Hz). exists ll. split; [lia|]. split; [left; tauto|].
            intros f. cbn [topo_loop t_stack t_iters t_low t_index t_counter t_out].
            rewrite Ez, decide_True by done. by rewrite insert_id. }
        destruct (fun Hm Hs => IH _ _ Hm (Hnext ll' Hll Hcase) Hs) as (c & r & Hc & Hgood).
        { unfold measure in Hb |- *. cbn [t_stack t_low t_iters] in Hb |- *. rewrite weight_same by (rewrite H1; eauto).
          cbn [sum_list_with length] in Hb |- *. lia. }
        { done. }
        exists (S c), r. split; [|exact Hgood]. intros f Hfu. destruct f as [|f]; [lia|]. rewrite Hstep. apply (Hc f). lia.
      + (* an undiscovered successor *)
        set (s1 := TState cnt low index (n :: st) (it :: its) out).
        assert (inv O (insert_node succ s1 k)) as Hi.
        { assert (k ∉ n :: st /\ k ∉ O) as [Hks HkO].
          { split; intros Hin; assert (is_Some (low !! k)) as [? ?] by (apply I3; tauto); congruence. }
          unfold insert_node, s1. split_and!; cbn [t_out t_stack t_low t_index t_counter t_iters].
          - done.
          - cbn. apply NoDup_cons. split; [|done]. change (k ∉ (n :: st) ++ O). rewrite elem_of_app. tauto.
          - intros m. destruct (decide (m = k)) as [->|Hmk].
            + rewrite lookup_insert. split; [|eauto]. intros _. left. by left.
            + rewrite lookup_insert_ne, I3 by done. rewrite (elem_of_cons _ m k). tauto.
          - intros m Hm. rewrite lookup_insert_ne by congruence. by apply I4.
          - lia.
          - assert (forall (m : gmap N Z) x, x ∈ n :: st -> <[k := cnt]> m !! x = m !! x) as Hsame.
            { intros m x Hx. rewrite lookup_insert_ne; [done|congruence]. }
            cbn [frames]. split_and!.
            + exists cnt, cnt. rewrite !lookup_insert. split_and!; try done; try lia.
              * intros m Hm. rewrite Hsame by done. apply elem_of_cons in Hm as [->|Hm].
                -- exists ix. split; [done|lia].
                -- destruct (H6 m Hm) as (ixs & E & Hlt). exists ixs. split; [done|lia].
              * intros m Hm. by left.
            + exists ll, ix. rewrite !Hsame by left. split_and!; try done; try lia.
              * intros s Hs. rewrite Hsame by (by right). by apply H6.
              * by intros a [= <-].
              * intros s Hs. destruct (H8 s Hs) as [Hx|[?|[?|[?|[? ?]]]]]; try tauto; [|done].
                apply elem_of_cons in Hx as [->|]; tauto.
              * intros s Hs. apply H9. by right.
            + eapply frames_cnt; [|eapply frames_index; [|eapply frames_low; [|exact Hf]]].
              * lia.
              * intros m Hm. apply Hsame. by right.
              * intros m Hm. apply Hsame. by right.
          - intros m. rewrite (elem_of_cons _ m k). intros [[->|?]|?]; [done|apply I7; tauto..].
          - done. }
        destruct (IH O (insert_node succ s1 k)) as (c & r & Hc & Hgood).
        { pose proof (insert_measure s1 k HkV Hk). unfold measure in Hb. unfold measure, s1 in H0.
          unfold measure, s1. cbn [t_stack t_low t_iters sum_list_with length] in *. lia. }
        { done. }
        { done. }
        exists (S c), r. split.
        { intros f Hfu. destruct f as [|f]; [lia|].
          cbn [topo_loop t_stack t_iters t_low t_index t_counter t_out]. rewrite Hk. apply Hc. lia. }
        destruct Hgood as [(O' & s' & Hr & Hi' & Hst & Hsub)|Hc'].
        * left. exists O', s'. split_and!; try done. intros x Hx. apply Hsub. unfold insert_node, s1. cbn [t_stack] in *.
          rewrite (elem_of_cons _ x k). tauto.
        * right. exact Hc'.
  Qed.

  Lemma topo_nodes_ok l : forall O s, inv O s -> t_stack s = [] -> (forall n, n ∈ l -> n ∈ nodes /\ n ∈ V) ->
    exists c r, (forall f, (c <= f)%nat -> topo_nodes succ single f s l = r) /\
      ((exists O' s', r = TDone s' /\ inv O' s' /\ t_stack s' = [] /\
         (forall x, x ∈ l \/ x ∈ O -> x ∈ O')) \/
      (single = true /\ exists O' s' comp, r = TScc s' comp /\ t_out s' = ynode single <$> O' /\
       NoDup O' /\ dependencies_first succ O' /\ (forall x, x ∈ O' -> needed succ nodes x) /\
       knotted succ comp /\ (forall x, x ∈ comp -> needed succ nodes x))).
  Proof using V_closed V_nodup mode.
    induction l as [|n l IH]; intros O s I Hst Hl.
    - exists 0%nat, (TDone s). split; [by intros f _; destruct f|]. left. exists O, s. split_and!; try done.
      intros x [Hx|]; [by apply elem_of_nil in Hx|done].
    - destruct (Hl n) as [Hn HnV]; [by left|].
      assert (forall m, m ∈ l -> m ∈ nodes /\ m ∈ V) as Hl' by (intros m Hm; apply Hl; by right).
      destruct (t_low s !! n) as [z|] eqn:Hz.
      + destruct (IH O s I Hst Hl') as (c & r & Hc & Hg). exists c, r. split.
        { intros f Hf. cbn [topo_nodes]. unfold strongconnect. rewrite Hz. by apply Hc. }
        destruct Hg as [(O' & s' & -> & Hi & Hs' & Hsub)|Hg]; [left|by right].
        exists O', s'. split_and!; try done. intros x [Hx|Hx]; [|by apply Hsub; right].
        apply elem_of_cons in Hx as [->|Hx]; [|by apply Hsub; left].
        apply Hsub. right. destruct I as (_ & _ & I3 & _).
        destruct (proj1 (I3 n)) as [Hx|Hx]; [rewrite Hz; eauto| |done]. rewrite Hst in Hx. by apply elem_of_nil in Hx.
      + assert (needed succ nodes n) as Hneed by (exists n; by split).
        assert (inv O (insert_node succ s n)) as Hi.
        { apply insert_inv; try done. by rewrite Hst. }
        destruct (topo_loop_ok (S (measure (insert_node succ s n))) O (insert_node succ s n) ltac:(lia) Hi)
          as (c & r & Hc & Hg); [done|].
        destruct Hg as [(O' & s' & -> & Hi' & Hs' & Hsub)|[Hsg (O' & s' & comp & -> & Hrest)]].
        * destruct (IH O' s' Hi' Hs' Hl') as (c2 & r2 & Hc2 & Hg2). exists (c + c2)%nat, r2. split.
          { intros f Hf. cbn [topo_nodes]. unfold strongconnect. rewrite Hz, Hc by lia. apply Hc2. lia. }
          destruct Hg2 as [(O2 & s2 & -> & Hi2 & Hs2 & Hsub2)|Hg2]; [left|by right].
          exists O2, s2. split_and!; try done. intros x [Hx|Hx].
          -- apply elem_of_cons in Hx as [->|Hx]; [|by apply Hsub2; left].
             apply Hsub2. right. apply Hsub. left. cbn. by left.
          -- apply Hsub2. right. apply Hsub. by right.
        * exists c. eexists. split.
          { intros f Hf. cbn [topo_nodes]. unfold strongconnect. rewrite Hz, Hc by lia. reflexivity. }
          right. split; [done|]. exists O', s', comp. by split.
  Qed.

  Lemma inv_init : inv [] topo_init.
  Proof using.
    unfold topo_init. split_and!; cbn [t_out t_stack t_low t_index t_counter t_iters]; try done.
    - constructor.
    - intros n. rewrite lookup_empty. split; [by intros [? ?]|]. intros [Hx|Hx]; by apply elem_of_nil in Hx.
    - intros n Hx. by apply elem_of_nil in Hx.
    - intros n [Hx|Hx]; by apply elem_of_nil in Hx.
    - intros pre x post E. by destruct pre.
  Qed.

  Lemma topo_ok : (forall n, n ∈ nodes -> n ∈ V) ->
    exists c out scc, (forall f, (c <= f)%nat -> topological_sort succ single f nodes = Ok (ynode single <$> out, scc)) /\
      NoDup out /\ dependencies_first succ out /\ (forall x, x ∈ out -> needed succ nodes x) /\
      match scc with
      | None => forall x, needed succ nodes x -> x ∈ out
      | Some comp => single = true /\ knotted succ comp /\ (forall x, x ∈ comp -> needed succ nodes x)
      end.
  Proof using V_closed V_nodup mode.
    intros HV. destruct (topo_nodes_ok nodes [] topo_init inv_init eq_refl) as (c & r & Hc & Hg); [auto|].
    destruct Hg as [(O' & s' & -> & Hi & Hs' & Hsub)|[Hsg (O' & s' & comp & -> & Ho & H1 & H2 & H3 & H4 & H5)]].
    - destruct Hi as (I1 & I2 & I3 & I4 & I5 & I6 & I7 & I8). exists c, O', None. split_and!; try done.
      + intros f Hf. unfold topological_sort. rewrite Hc by done. by rewrite I1.
      + by rewrite Hs' in I2.
      + intros x Hx. apply I7. by right.
      + intros x (n & Hn & Hp). assert (n ∈ O') as HnO by (apply Hsub; by left). clear Hn Hsub.
        induction Hp as [|x y z Hxy Hyz IH]; [done|]. apply IH.
        apply elem_of_list_split in HnO as (l1 & l2 & E).
        destruct (decide (y = x)) as [->|Hne]; [rewrite E; set_solver|].
        pose proof (I8 l1 x l2 E y Hxy Hne) as Hy. rewrite E. apply elem_of_app. by left.
    - exists c, O', (Some comp). split_and!; try done.
      intros f Hf. unfold topological_sort. rewrite Hc by done. by rewrite Ho.
  Qed.
End proofs.

Section consequences.
  Context {N : Type} `{Countable N} (succ : N -> list N).

  (** an order with dependencies first admits no knot *)
  Lemma first_no_knot (out : list N) : NoDup out -> dependencies_first succ out ->
    (forall x y, x ∈ out -> dep succ x y -> y ∈ out) ->
    forall x y, x ∈ out -> rtc (dep succ) x y -> rtc (dep succ) y x -> x = y.
  Proof.
    intros Hnd Hd Hcl.
    assert (forall x y i, out !! i = Some x -> rtc (dep succ) x y -> exists j, out !! j = Some y /\ (j <= i)%nat) as G.
    { intros x y i Hi Hp. revert i Hi. induction Hp as [x|x y z Hxy Hyz IH]; intros i Hi; [eauto|].
      destruct (decide (y = x)) as [->|Hne]; [by apply IH|].
      assert (y ∈ take i out) as Hy.
      { apply (Hd (take i out) x (drop (S i) out)); [|done|done]. by rewrite take_drop_middle. }
      apply elem_of_take in Hy as (j & Hj & Hlt). destruct (IH j Hj) as (k & Hk & Hle). exists k. split; [done|lia]. }
    intros x y Hx Hxy Hyx. apply elem_of_list_lookup in Hx as [i Hi].
    destruct (G x y i Hi Hxy) as (j & Hj & Hji). destruct (G y x j Hj Hyx) as (k & Hk & Hkj).
    assert (k = i) as -> by (eapply NoDup_lookup; done). assert (j = i) as -> by lia. congruence.
  Qed.

  Lemma topo_acyclic (single : bool) (V nodes : list N) :
    acyclic succ -> NoDup V -> (forall a b, a ∈ V -> dep succ a b -> b ∈ V) -> (forall n, n ∈ nodes -> n ∈ V) ->
    exists c out, (forall f, (c <= f)%nat -> topological_sort succ single f nodes = Ok (ynode single <$> out, None)) /\
      NoDup out /\ dependencies_first succ out /\ (forall x, x ∈ out <-> needed succ nodes x).
  Proof.
    intros Hac Hnd Hcl Hn.
    destruct (topo_ok succ single V nodes Hnd Hcl (or_intror Hac) Hn) as (c & out & [comp|] & Hc & H1 & H2 & H3 & H4).
    - destruct H4 as (_ & (Hnd' & Hlen & Hk) & _). exfalso.
      destruct comp as [|a [|b comp]]; cbn in Hlen; [lia|lia|].
      assert (a <> b) as Hab.
      { apply NoDup_cons in Hnd' as [Hx _]. intros ->. apply Hx. by left. }
      apply (Hac a). assert (rtc (dep succ) a b) as Hp by (apply Hk; set_solver).
      assert (rtc (dep succ) b a) as Hq by (apply Hk; set_solver).
      inversion Hp as [|? z ? Haz Hzb]; subst; [done|]. eapply tc_rtc_r; [by apply tc_once|]. by etrans.
    - exists c, out. split_and!; try done. intros x. split; auto.
  Qed.

  Lemma topo_single (V nodes : list N) :
    NoDup V -> (forall a b, a ∈ V -> dep succ a b -> b ∈ V) -> (forall n, n ∈ nodes -> n ∈ V) ->
    exists c out scc, (forall f, (c <= f)%nat -> topological_sort succ true f nodes = Ok (YNode <$> out, scc)) /\
      NoDup out /\ dependencies_first succ out /\ (forall x, x ∈ out -> needed succ nodes x) /\
      match scc with
      | None => (forall x, needed succ nodes x -> x ∈ out) /\
                (forall l, (forall x, x ∈ l -> needed succ nodes x) -> ~ knotted succ l)
      | Some comp => knotted succ comp /\ (forall x, x ∈ comp -> needed succ nodes x)
      end.
  Proof.
    intros Hnd Hcl Hn.
    destruct (topo_ok succ true V nodes Hnd Hcl (or_introl eq_refl) Hn) as (c & out & scc & Hc & H1 & H2 & H3 & H4).
    exists c, out, scc. split_and!; try done. destruct scc as [comp|]; [by destruct H4 as (_ & ? & ?)|].
    split; [done|]. intros l Hl (Hnd' & Hlen & Hk).
    destruct l as [|a [|b l]]; cbn in Hlen; [lia|lia|].
    assert (a <> b) as Hab.
    { apply NoDup_cons in Hnd' as [Hx _]. intros ->. apply Hx. by left. }
    apply Hab. apply (first_no_knot out); try done.
    - intros x y Hx Hxy. apply H4. apply H3 in Hx as (n & Hnn & Hp). exists n. split; [done|]. by eapply rtc_r.
    - apply H4, Hl. by left.
    - apply Hk; set_solver.
    - apply Hk; set_solver.
  Qed.
End consequences.

(** what goes wrong on cycles *)
Definition cycle3 (n : nat) : list nat := match n with 0 => [1] | 1 => [2] | 2 => [0] | _ => [] end%nat.
Definition cycle2 (n : nat) : list nat := match n with 0 => [1] | 1 => [0] | _ => [] end%nat.
Definition loop1 (n : nat) : list nat := match n with 0 => [0] | _ => [] end%nat.
Lemma cycles_wrong :
  topological_sort cycle3 false 100 [0%nat] = Ok ([YTuple [2; 1]; YTuple [0]]%nat, None) /\
  topological_sort cycle3 true 100 [0%nat] = Ok ([], Some [2; 1]%nat) /\
  topological_sort cycle2 false 100 [0%nat] = Err IndexError /\
  topological_sort loop1 true 100 [0%nat] = Ok ([YNode 0%nat], None).
Proof. vm_compute. done. Qed.
