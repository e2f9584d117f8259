(** Lemmas about DagModel: the purges preserve the input/output relation. *)
From Verif Require Import Fld Py LinSpec LinAlg LinReduce LinIo GraphModel GraphProofs GraphPurge DagModel DagSpec DagElim.
Local Open Scope fld_scope.

(** set reasoning with only the membership facts in the context *)
Ltac ssolve := repeat match goal with
  | H : ?T |- _ => lazymatch type of T with Prop => lazymatch T with
      | _ ∈ _ => fail | ~ (_ ∈ _) => fail | _ ⊆ _ => fail | _ ## _ => fail | _ => clear H end end
  end; set_solver.

Section io.
  Context {K : fld} {N : Type} `{Countable N}.
  Add Field FF : (f_theory K).
  Implicit Types V A B P : gset N.
  Implicit Types e : N -> N -> K.

  Lemma flow_sub V V' e (X : N -> K) n :
    V ⊆ V' -> (forall m, m ∈ V' -> m ∉ V -> e m n * X m = 0) -> flow V e X n = flow V' e X n.
  Proof. intros. by apply gsum_subset. Qed.

  Lemma io_purge_in A B V P e :
    V ## A -> P ⊆ V -> nonsing V A e ->
    (forall m n, m ∈ P ∪ A -> n ∈ V -> n ∉ P -> e m n = 0) ->
    io_equiv A B V e P e.
  Proof.
    intros HVA HPV Hns Hz.
    assert (injective_sys (elements (V ∖ P)) e) as HQ.
    { apply (injective_block (elements V)); try apply NoDup_elements.
      - intros p. rewrite !elem_of_elements. ssolve.
      - intros m p. rewrite !elem_of_elements. intros Hm Hp Hmp. destruct (decide (m ∈ P)); [|ssolve]. apply Hz; ssolve.
      - by apply (nonsing_inj V A). }
    assert (forall X, sol V A e X -> forall n, n ∈ V -> n ∉ P -> X n = 0) as HX0.
    { intros X HX n Hn HnP. apply HQ; [|apply elem_of_elements; ssolve].
      intros m Hm%elem_of_elements. rewrite <- (HX m) by ssolve.
      fold (gsum (fun k => e k m * X k) (V ∖ P)). apply gsum_subset; [ssolve|].
      intros k Hk Hk'. destruct (decide (k ∈ P)); rewrite Hz by ssolve; ring. }
    assert (forall X, (forall n, n ∈ V -> n ∉ P -> X n = 0) ->
              forall n, flow (P ∪ A) e X n = flow (V ∪ A) e X n) as Hf.
    { intros X HX n. apply flow_sub; [ssolve|]. intros m Hm Hm'. rewrite (HX m) by ssolve. ring. }
    assert (forall X, sol P A e X -> exists X', sol V A e X' /\ (forall a, a ∈ P ∪ A -> X' a = X a) /\
              forall n, n ∈ V -> n ∉ P -> X' n = 0) as Hext.
    { intros X HX. set (X' m := if decide (m ∈ V ∖ P) then 0 else X m).
      assert (forall a, a ∈ P ∪ A -> X' a = X a) as HXa.
      { intros a Ha. unfold X'. rewrite decide_False; [done|ssolve]. }
      assert (forall n, n ∈ V -> n ∉ P -> X' n = 0) as HX0'.
      { intros n Hn HnP. unfold X'. rewrite decide_True; [done|ssolve]. }
      exists X'. split_and!; [|done|done]. intros n Hn. rewrite <- Hf by done.
      destruct (decide (n ∈ P)) as [HnP|HnP].
      - rewrite <- (HX n HnP). apply gsum_ext. intros m Hm. by rewrite HXa.
      - unfold flow. apply gsum_0. intros m Hm. rewrite Hz by done. ring. }
    split.
    - intros X HX. exists X. split_and!; [|done|].
      + intros n Hn. rewrite Hf by auto. apply HX. ssolve.
      + intros b Hb. apply Hf. auto.
    - intros X HX. destruct (Hext X HX) as (X' & HX' & Ha & H0). exists X'. split_and!; [done| |].
      + intros a Hin. apply Ha. ssolve.
      + intros b Hb. rewrite <- Hf by done. apply gsum_ext. intros m Hm. by rewrite Ha.
    - intros _ X Ha HX n Hn. destruct (Hext X HX) as (X' & HX' & Ha' & H0).
      rewrite <- Ha' by ssolve. apply Hns; [|done|ssolve].
      intros a Hin. rewrite Ha' by ssolve. auto.
  Qed.

  Lemma io_purge_out A B V P e :
    V ## A -> P ⊆ V -> nonsing V A e ->
    (forall m n, m ∈ V -> m ∉ P -> n ∈ P ∪ B -> e m n = 0) ->
    io_equiv A B V e P e.
  Proof.
    intros HVA HPV Hns Hz.
    assert (forall X n, n ∈ P ∪ B -> flow (P ∪ A) e X n = flow (V ∪ A) e X n) as Hf.
    { intros X n Hn. apply flow_sub; [ssolve|]. intros m Hm Hm'. assert (m ∈ V) by ssolve. assert (m ∉ P) by ssolve. rewrite Hz by done. ring. }
    assert (injective_sys (elements (V ∖ P)) e) as HQ.
    { intros x Hx n Hn%elem_of_elements. set (X m := if decide (m ∈ V ∖ P) then x m else 0).
      assert (X n = 0) as HXn.
      { apply Hns; [| |ssolve].
        - intros a Ha. unfold X. rewrite decide_False; [done|ssolve].
        - intros m Hm. rewrite <- (flow_sub (V ∖ P)).
          2: ssolve.
          2: { intros k Hk Hk'. unfold X. rewrite decide_False by done. ring. }
          destruct (decide (m ∈ P)) as [HmP|HmP].
          + apply gsum_0. intros k Hk. rewrite Hz by ssolve. ring.
          + rewrite <- (Hx m) by (apply elem_of_elements; ssolve).
            apply fsum_ext. intros k Hk%elem_of_elements. unfold X. by rewrite decide_True. }
      unfold X in HXn. by rewrite decide_True in HXn. }
    assert (forall X, sol P A e X -> exists X', sol V A e X' /\ (forall a, a ∈ P ∪ A -> X' a = X a)) as Hext.
    { intros X HX. apply injective_surjective in HQ; [|apply NoDup_elements].
      destruct (HQ (fun n => - flow (P ∪ A) e X n)) as (y & Hy).
      set (X' m := if decide (m ∈ V ∖ P) then y m else X m).
      assert (forall a, a ∈ P ∪ A -> X' a = X a) as HXa.
      { intros a Ha. unfold X'. rewrite decide_False; [done|ssolve]. }
      exists X'. split; [|done]. intros n Hn.
      destruct (decide (n ∈ P)) as [HnP|HnP].
      - rewrite <- Hf by ssolve. rewrite <- (HX n HnP). apply gsum_ext. intros m Hm. by rewrite HXa.
      - assert (flow (V ∪ A) e X' n = flow (V ∖ P) e y n + flow (P ∪ A) e X n) as ->.
        { replace (V ∪ A) with ((V ∖ P) ∪ (P ∪ A)).
          2: { apply set_eq. intros x. rewrite !elem_of_union, elem_of_difference.
               destruct (decide (x ∈ P)); ssolve. }
          unfold flow, gsum.
          rewrite (fsum_perm _ (elements ((V ∖ P) ∪ (P ∪ A))) (elements (V ∖ P) ++ elements (P ∪ A))).
          2: { apply elements_disj_union. ssolve. }
          rewrite fsum_app. f_equal; apply fsum_ext; intros m Hm%elem_of_elements.
          - unfold X'. by rewrite decide_True.
          - by rewrite HXa. }
        unfold flow at 1, gsum at 1. rewrite Hy by (apply elem_of_elements; ssolve). ring. }
    split.
    - intros X HX. exists X. split_and!; [|done|].
      + intros n Hn. rewrite Hf by ssolve. apply HX. ssolve.
      + intros b Hb. apply Hf. ssolve.
    - intros X HX. destruct (Hext X HX) as (X' & HX' & Ha). exists X'. split_and!; [done| |].
      + intros a Hin. apply Ha. ssolve.
      + intros b Hb. rewrite <- Hf by ssolve. apply gsum_ext. intros m Hm. by rewrite Ha.
    - intros _ X Ha HX n Hn. destruct (Hext X HX) as (X' & HX' & Ha').
      rewrite <- Ha' by ssolve. apply Hns; [|done|ssolve].
      intros a Hin. rewrite Ha' by ssolve. auto.
  Qed.
End io.

Section doms.
  Context {K : fld} {N : Type} `{Countable N}.
  Notation graph := (graph K N).
  Context (enum : gset N -> list N) (Henum : forall X, enum X ≡ₚ elements X).
  Lemma dom_remove (m m' : gmap N (gset N)) n v : ds_remove m n v = Ok m' -> dom m' = dom m.
  Proof.
    unfold ds_remove, ds_get. destruct (decide _) as [Hd|]; [|done]. intros [= <-].
    rewrite dom_insert_L. destruct (m !! n) eqn:Hm; [|by apply elem_of_empty in Hd].
    assert (n ∈ dom m) as Hn by (apply elem_of_dom; eauto). clear -Hn. set_solver.
  Qed.
  Lemma ds_get_dom (m : gmap N (gset N)) n v : v ∈ ds_get m n -> n ∈ dom m.
  Proof. unfold ds_get. intros Hv. apply elem_of_dom. destruct (m !! n); [eauto|by apply elem_of_empty in Hv]. Qed.
  Lemma purge_subgraph_req P (g g' : graph) :
    purge_subgraph enum P g = Ok g' -> dom (g_req g') = dom (g_req g) ∖ P.
  Proof using Henum.
    intros Hp.
    assert (dom (g_req g') = dom (g_req g) ∖ list_to_set (enum P)) as ->.
    - revert Hp. unfold purge_subgraph. intros Hp.
      refine (mfor_ind_ok (purge_node enum P)
        (fun pre (g' : graph) => dom (g_req g') = dom (g_req g) ∖ list_to_set pre) _ _ _ Hp _ _); [set_solver|].
      intros pre a post s s' _ Hs. unfold purge_node.
      destruct (mfor (purge_step_s P a) _ s) as [s1|] eqn:H1; [|done]. cbn [mbind res_bind].
      assert (dom (g_req s1) = dom (g_req s)) as D1.
      { refine (mfor_ind_ok (purge_step_s P a) (fun _ (x : graph) => dom (g_req x) = dom (g_req s)) _ _ _ H1 _ _); [done|].
        clear. intros pre b post x x' _ Hx. unfold purge_step_s. destruct (decide _); [by intros [= <-]|].
        destruct (ds_remove _ _ _) eqn:Hr; [|done]. intros [= <-]. simpl. apply dom_remove in Hr. congruence. }
      destruct (mfor (purge_step_r P a) _ _) as [s2|] eqn:H2; [|done]. cbn [mbind res_bind].
      intros [= <-]. simpl.
      assert (dom (g_req s2) = dom (g_req s1)) as D2.
      { refine (mfor_ind_ok (purge_step_r P a) (fun _ (x : graph) => dom (g_req x) = dom (g_req s1)) _ _ _ H2 _ _); [done|].
        clear. intros pre b post x x' _ Hx. unfold purge_step_r. destruct (decide _); [by intros [= <-]|].
        destruct (ds_remove _ _ _) eqn:Hr; [|done]. intros [= <-]. done. }
      rewrite dom_delete_L, D2, D1, Hs, list_to_set_app_L. clear. set_solver.
    - f_equal. apply set_eq. intros x. rewrite elem_of_list_to_set. by apply elem_of_enum.
  Qed.
End doms.

Section purge.
  Context {K : fld} {N : Type} `{Countable N}.
  Notation W := (wnode N).
  Notation srabe := (srabe K W).
  Context (enum : gset W -> list W) (Henum : forall X, enum X ≡ₚ elements X).
  Context (pick : gset W -> option W)
          (Hpick : forall X n, pick X = Some n -> n ∈ X)
          (Hpick_none : forall X, pick X = None -> X = ∅).
  Implicit Types V A B P : gset W.
  Implicit Types s : srabe.

  (** a freshly dressed system *)
  Record dfresh V A B s : Prop := {
    df_inv : dinv V A B s;
    df_ra : dom (q_ra s) ⊆ V;
    df_sb : dom (q_sb s) ⊆ V;
  }.

  Lemma reach_sub V A B s (m : gmap W (gset W)) (start : gset W) n :
    start ⊆ V -> (forall a b, b ∈ ds_get m a -> a ∈ V -> b ∈ V) -> reach_from m start n -> n ∈ V.
  Proof using Type.
    intros Hs Hcl (a & Ha & Hr). apply Hs in Ha. induction Hr as [|a b c Hab Hr IH]; eauto.
  Qed.

  Lemma purge_in_ok V A B s :
    dfresh V A B s -> nonsing V A (qe s) ->
    exists P s', dag_purge_in enum pick s = Ok s' /\ dfresh P A B s' /\ io_equiv A B V (qe s) P (qe s') /\
      forall m, qsb s' m ⊆ qsb s m.
  Proof using Henum Hpick Hpick_none.
    intros [Hd Hra Hsb] Hns. pose proof Hd as [HVA HVB HAB [wseq wreq wra wsb] Ds Dr].
    unfold dag_purge_in, color_purge. cbn [g_seq g_req g_em].
    destruct (color_loop_reach enum Henum pick Hpick Hpick_none (q_seq s) (dom (q_ra s))) as (P & -> & HP). cbn [mbind res_bind].
    set (g1 := Graph (ds_touch (q_seq s) P) (q_req s) (q_em s)).
    assert (P ⊆ V) as HPV.
    { intros n Hn. apply HP in Hn. eapply (reach_sub V A B s); [exact Hra| |exact Hn].
      intros a b Hb _. apply wseq in Hb. tauto. }
    assert (dom (g_seq g1) = V) as Hdg.
    { unfold g1. cbn [g_seq]. rewrite dom_touch, Ds. clear -HPV. set_solver. }
    assert (forall r, seqs g1 r = qseq s r) as Hs1 by (intros; apply ds_get_touch).
    destruct (purge_subgraph_ok enum Henum pick Hpick Hpick_none (V ∖ P) g1) as (g' & Hps & Hs & Hr & He & _ & Hdom).
    { intros r t. rewrite Hs1, wseq. unfold reqs. cbn [g_req g1]. fold (qreq s t). rewrite wreq. done. }
    match goal with |- context [purge_subgraph enum ?X ?Y] =>
      change (purge_subgraph enum X Y) with (purge_subgraph enum (dom (g_seq g1) ∖ P) g1) end. rewrite Hdg, Hps. cbn [mbind res_bind].
    pose proof (purge_subgraph_req enum Henum _ _ _ Hps) as Hdomr. cbn [g_req g1] in Hdomr.
    rewrite Hdg in Hdom. rewrite Dr in Hdomr.
    assert (V ∖ (V ∖ P) = P) as HVP.
    { apply set_eq. intros x. rewrite !elem_of_difference. split; [|intros Hx; split; [by apply HPV|tauto]].
      intros [Hx Hn]. destruct (decide (x ∈ P)); tauto. }
    rewrite HVP in Hdom, Hdomr.
    set (s' := SR _ _ _ _ _). 
    assert (forall m n, m ∈ P \/ m ∈ A -> q_em s' !! (m, n) = q_em s !! (m, n)) as Hem.
    { intros m n Hm. unfold s'. cbn [q_em]. rewrite He; [done|]. rewrite elem_of_difference.
      intros [HmV HmP]. destruct Hm as [|Hm]; [done|]. by apply (HVA m). }
    assert (forall m n, m ∈ P \/ m ∈ A -> n ∈ V -> n ∉ P -> ~ is_Some (q_em s !! (m, n))) as Hcut.
    { intros m n Hm Hn HnP Hsm. apply HnP. apply HP. destruct Hm as [Hm|Hm].
      - eapply reach_from_closed; [by apply HP|]. apply wseq. split; [|done]. split; [by apply HPV|done].
      - exists n. split; [|constructor]. apply (ds_get_dom _ _ m). apply wra. tauto. }
    assert (io_equiv A B V (qe s) P (qe s')) as Hio.
    { eapply io_trans; [apply (io_purge_in _ _ _ P)|apply io_ext]; [done|done|done| |].
      - intros m n Hm Hn HnP. apply qe_none, Hcut; try done. by apply elem_of_union in Hm.
      - intros m n Hm _. unfold qe. rewrite Hem; [done|]. by apply elem_of_union in Hm. }
    exists P, s'. split_and!; [done| |done|].
    2: { intros m b. unfold qsb, s', ds_get. cbn [q_sb]. destruct (filter _ (q_sb s) !! m) as [X|] eqn:HX.
         - apply map_filter_lookup_Some in HX as [-> _]. done.
         - intros Hb. by apply elem_of_empty in Hb. }
    assert (P ## A) as HPA by (intros x Hx Hx'; apply (HVA x); [by apply HPV|done]).
    assert (forall m n, m ∈ qreq s' n <-> (m ∈ P /\ n ∈ P) /\ is_Some (q_em s' !! (m, n))) as wreq'.
    { intros m n. change (qreq s' n) with (reqs g' n). rewrite Hr, Hs, Hs1, wseq.
      rewrite !elem_of_difference. split.
      - intros ([[Hm Hn] Hsm] & Hm' & Hn').
        assert (m ∈ P) by (destruct (decide (m ∈ P)); tauto).
        assert (n ∈ P) by (destruct (decide (n ∈ P)); tauto).
        split; [tauto|]. rewrite Hem; tauto.
      - intros ([Hm Hn] & Hsm). rewrite Hem in Hsm by tauto. split; [|tauto]. split; [|done]. split; by apply HPV. }
    assert (forall k, k ∈ P -> ds_get (g_req g') k <> ∅) as Hkne.
    { intros k Hk Hemp. destruct (nonsing_row P A (qe s') k) as (m & Hm & Hmz); [done|by apply Hio|done|].
      assert (m ∈ ds_get (g_req g') k) as Hx; [|rewrite Hemp in Hx; by apply elem_of_empty in Hx].
      change (ds_get (g_req g') k) with (qreq s' k). apply wreq'. split; [tauto|].
      destruct (decide (is_Some (q_em s' !! (m, k)))) as [|Hn]; [done|]. by apply qe_none in Hn. }
    assert (forall m, qsb s' m = if decide (ds_get (g_req g') m <> ∅) then qsb s m else ∅) as Hqsb.
    { intros m. unfold qsb, s', ds_get at 1. cbn [q_sb]. destruct (decide _) as [Hne|Hne].
      - destruct (q_sb s !! m) as [X|] eqn:HX.
        + rewrite (map_filter_lookup_Some_2 _ _ _ X); [|done|done]. unfold ds_get. by rewrite HX.
        + rewrite map_filter_lookup_None_2; [|by left]. unfold ds_get. by rewrite HX.
      - rewrite map_filter_lookup_None_2; [done|]. right. intros X HX. exact Hne. }
    assert (forall m, ds_get (g_req g') m <> ∅ -> m ∈ P) as Hkin.
    { intros m Hm. apply set_choose_L in Hm as [k Hk]. apply ds_get_dom in Hk. by rewrite Hdomr in Hk. }
    split.
    - split; try done.
      + intros x Hx Hx'. apply (HVB x); [by apply HPV|done].
      + split.
        * intros m n. rewrite <- wreq'. change (qreq s' n) with (reqs g' n). by rewrite Hr.
        * done.
        * intros a n. change (qra s' n) with (qra s n). rewrite wra. split.
          -- intros [[Ha Hn] Hsm]. rewrite Hem by tauto. split; [|done]. split; [done|].
             destruct Hn as [Hn|]; [|tauto]. left. destruct (decide (n ∈ P)) as [|Hnp]; [done|].
             exfalso. eapply Hcut; [right; exact Ha|exact Hn|done|done].
          -- intros [[Ha Hn] Hsm]. rewrite Hem in Hsm by tauto. split; [|done]. split; [done|].
             destruct Hn; [left; by apply HPV|tauto].
        * intros m b. rewrite Hqsb. split.
          -- destruct (decide _) as [Hne|Hne]; [|intros Hx; by apply elem_of_empty in Hx]. intros Hb.
             apply wsb in Hb as [[Hm Hb] Hsm]. apply Hkin in Hne. rewrite Hem by tauto. tauto.
          -- intros [[Hm Hb] Hsm]. rewrite Hem in Hsm by tauto.
             assert (b ∈ qsb s m) as Hbs.
             { apply wsb. split; [|done]. split; [|done]. destruct Hm; [left; by apply HPV|tauto]. }
             assert (m ∈ P) as HmP.
             { destruct Hm as [|Hm]; [done|]. exfalso. apply ds_get_dom in Hbs. apply Hsb in Hbs. by apply (HVA m). }
             rewrite decide_True by (by apply Hkne). done.
    - unfold s'. cbn [q_ra]. intros n Hn. apply HP. exists n. split; [done|constructor].
    - unfold s'. cbn [q_sb]. intros n Hn. apply elem_of_dom in Hn as [X HX].
      apply map_filter_lookup_Some in HX as [_ HX]. by apply Hkin.
  Qed.

  Lemma purge_out_ok V A B s :
    dfresh V A B s -> nonsing V A (qe s) ->
    exists P s', dag_purge_out enum pick s = Ok s' /\ dfresh P A B s' /\ io_equiv A B V (qe s) P (qe s') /\
      forall m, qsb s' m ⊆ qsb s m.
  Proof using Henum Hpick Hpick_none.
    intros [Hd Hra Hsb] Hns. pose proof Hd as [HVA HVB HAB [wseq wreq wra wsb] Ds Dr].
    unfold dag_purge_out, color_purge. cbn [g_seq g_req g_em].
    destruct (color_loop_reach enum Henum pick Hpick Hpick_none (q_req s) (dom (q_sb s))) as (P & -> & HP). cbn [mbind res_bind].
    set (g1 := Graph (q_seq s) (ds_touch (q_req s) P) (q_em s)).
    assert (P ⊆ V) as HPV.
    { intros n Hn. apply HP in Hn. eapply (reach_sub V A B s); [exact Hsb| |exact Hn].
      intros a b Hb _. apply wreq in Hb. tauto. }
    assert (dom (g_req g1) = V) as Hdg.
    { unfold g1. cbn [g_req]. rewrite dom_touch, Dr. clear -HPV. set_solver. }
    assert (forall r, reqs g1 r = qreq s r) as Hs1 by (intros; apply ds_get_touch).
    destruct (purge_subgraph_ok enum Henum pick Hpick Hpick_none (V ∖ P) g1) as (g' & Hps & Hs & Hr & He & _ & Hdom).
    { intros r t. rewrite Hs1, wreq. unfold seqs. cbn [g_seq g1]. fold (qseq s r). rewrite wseq. done. }
    match goal with |- context [purge_subgraph enum ?X ?Y] =>
      change (purge_subgraph enum X Y) with (purge_subgraph enum (dom (g_seq g1) ∖ P) g1) end. 
    replace (dom (g_seq g1)) with V by (symmetry; exact Ds). rewrite Hps. cbn [mbind res_bind].
    pose proof (purge_subgraph_req enum Henum _ _ _ Hps) as Hdomr.
    rewrite Hdg in Hdomr. replace (dom (g_seq g1)) with V in Hdom by (symmetry; exact Ds).
    assert (V ∖ (V ∖ P) = P) as HVP.
    { apply set_eq. intros x. rewrite !elem_of_difference. split; [|intros Hx; split; [by apply HPV|tauto]].
      intros [Hx Hn]. destruct (decide (x ∈ P)); tauto. }
    rewrite HVP in Hdom, Hdomr.
    set (s' := SR _ _ _ _ _).
    assert (forall m n, m ∈ P \/ m ∈ A -> q_em s' !! (m, n) = q_em s !! (m, n)) as Hem.
    { intros m n Hm. unfold s'. cbn [q_em]. rewrite He; [done|]. rewrite elem_of_difference.
      intros [HmV HmP]. destruct Hm as [|Hm]; [done|]. by apply (HVA m). }
    assert (forall m n, m ∈ V -> m ∉ P -> n ∈ P \/ n ∈ B -> ~ is_Some (q_em s !! (m, n))) as Hcut.
    { intros m n Hm HmP Hn Hsm. apply HmP. apply HP. destruct Hn as [Hn|Hn].
      - eapply reach_from_closed; [by apply HP|]. apply wreq. split; [|done]. split; [done|by apply HPV].
      - exists m. split; [|constructor]. apply (ds_get_dom _ _ n). apply wsb. tauto. }
    assert (io_equiv A B V (qe s) P (qe s')) as Hio.
    { eapply io_trans; [apply (io_purge_out _ _ _ P)|apply io_ext]; [done|done|done| |].
      - intros m n Hm Hn HnP. apply qe_none, Hcut; try done. by apply elem_of_union in HnP.
      - intros m n Hm _. unfold qe. rewrite Hem; [done|]. by apply elem_of_union in Hm. }
    exists P, s'. split_and!; [done| |done|done].
    assert (P ## A) as HPA by (intros x Hx Hx'; apply (HVA x); [by apply HPV|done]).
    assert (forall m n, n ∈ qseq s' m <-> (m ∈ P /\ n ∈ P) /\ is_Some (q_em s' !! (m, n))) as wseq'.
    { intros m n. change (qseq s' m) with (seqs g' m). rewrite Hs. unfold seqs. cbn [g_seq g1]. fold (qseq s m). rewrite wseq.
      rewrite !elem_of_difference. split.
      - intros ([[Hm Hn] Hsm] & Hm' & Hn').
        assert (m ∈ P) by (destruct (decide (m ∈ P)); tauto).
        assert (n ∈ P) by (destruct (decide (n ∈ P)); tauto).
        split; [tauto|]. rewrite Hem; tauto.
      - intros ([Hm Hn] & Hsm). rewrite Hem in Hsm by tauto. split; [|tauto]. split; [|done]. split; by apply HPV. }
    assert (forall k, k ∈ P -> ds_get (g_seq g') k <> ∅) as Hkne.
    { intros k Hk Hemp. destruct (nonsing_col P A (qe s') k) as (m & Hm & Hmz); [done|by apply Hio|done|].
      assert (m ∈ ds_get (g_seq g') k) as Hx; [|rewrite Hemp in Hx; by apply elem_of_empty in Hx].
      change (ds_get (g_seq g') k) with (qseq s' k). apply wseq'. split; [tauto|].
      destruct (decide (is_Some (q_em s' !! (k, m)))) as [|Hn]; [done|]. by apply qe_none in Hn. }
    assert (forall m, qra s' m = if decide (ds_get (g_seq g') m <> ∅) then qra s m else ∅) as Hqra.
    { intros m. unfold qra, s', ds_get at 1. cbn [q_ra]. destruct (decide _) as [Hne|Hne].
      - destruct (q_ra s !! m) as [X|] eqn:HX.
        + rewrite (map_filter_lookup_Some_2 _ _ _ X); [|done|done]. unfold ds_get. by rewrite HX.
        + rewrite map_filter_lookup_None_2; [|by left]. unfold ds_get. by rewrite HX.
      - rewrite map_filter_lookup_None_2; [done|]. right. intros X HX. exact Hne. }
    assert (forall m, ds_get (g_seq g') m <> ∅ -> m ∈ P) as Hkin.
    { intros m Hm. apply set_choose_L in Hm as [k Hk]. apply ds_get_dom in Hk. by rewrite Hdom in Hk. }
    split.
    - split; try done.
      + intros x Hx Hx'. apply (HVB x); [by apply HPV|done].
      + split.
        * done.
        * intros m n. rewrite <- wseq'. change (qreq s' n) with (reqs g' n). by rewrite Hr.
        * intros a n. rewrite Hqra. split.
          -- destruct (decide _) as [Hne|Hne]; [|intros Hx; by apply elem_of_empty in Hx]. intros Hb.
             apply wra in Hb as [[Ha Hn] Hsm]. apply Hkin in Hne. rewrite Hem by tauto. tauto.
          -- intros [[Ha Hn] Hsm]. rewrite Hem in Hsm by tauto.
             assert (a ∈ qra s n) as Has.
             { apply wra. split; [|done]. split; [done|]. destruct Hn; [left; by apply HPV|tauto]. }
             assert (n ∈ P) as HnP.
             { destruct Hn as [|Hn]; [done|]. exfalso. apply ds_get_dom in Has. apply Hra in Has. by apply (HVB n). }
             rewrite decide_True by (by apply Hkne). done.
        * intros m b. change (qsb s' m) with (qsb s m). rewrite wsb. split.
          -- intros [[Hm Hb] Hsm]. assert (m ∈ P \/ m ∈ A) as Hm'.
             { destruct Hm as [Hm|]; [|tauto]. left. destruct (decide (m ∈ P)) as [|Hnp]; [done|].
               exfalso. eapply Hcut; [exact Hm|done|right; exact Hb|done]. }
             rewrite Hem by done. tauto.
          -- intros [[Hm Hb] Hsm]. rewrite Hem in Hsm by tauto. split; [|done]. split; [|done].
             destruct Hm; [left; by apply HPV|tauto].
    - unfold s'. cbn [q_ra]. intros n Hn. apply elem_of_dom in Hn as [X HX].
      apply map_filter_lookup_Some in HX as [_ HX]. by apply Hkin.
    - unfold s'. cbn [q_sb]. intros n Hn. apply HP. exists n. split; [done|constructor].
  Qed.
End purge.
