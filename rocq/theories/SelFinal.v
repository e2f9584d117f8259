(** Proofs of the theorems of SelProps.v. *)
From stdpp Require Import base tactics numbers gmap list fin_maps.
From Verif Require Import Fld Py Herm InjModel InjSpec OptModel SigModel SigSpec PdModel PdProofs SelModel SelSpec SelProofs.
Local Open Scope fld_scope.
Add Field FFc : (f_theory C_fld).

Section final.
  Context {P A V : Type} `{Countable P} `{Countable A} `{Countable V}.
  Notation key := (gmap A V).
  Notation node := (P * key)%type.
  Notation bk := (back (P := P) (A := A) (V := V)).
  Notation js := (list (inj C_fld P key)).

  Lemma C90_accepts_lem fr_i fr_o (bs : list bk) have : NoDup bs ->
    ((exists r, selector true fr_i fr_o bs have = Ok r) <-> (forall k, k ∈ have fr_i -> exists b, selected bs k b)) /\
    ((exists k, k ∈ have fr_i /\ ~ exists b, selected bs k b) -> selector true fr_i fr_o bs have = Err AssertionError).
  Proof.
    intros Hnd. split; [split|].
    - intros [r E]. apply selector_ok in E as [E _]. intros k Hk. destruct (E k Hk) as [l El].
      apply chosen_one_ok in El as (b & _ & Hb); eauto.
    - intros Hs. eexists. apply selector_ok. split; [|done]. intros k Hk. destruct (Hs k Hk) as [b Hb]. exists [b].
      apply chosen_one_ok; eauto.
    - intros (k & Hk & Hn). unfold selector. rewrite (collect_err (fun k => chosen_one true k bs) _ _ _ AssertionError); [done|intros k' e'; apply chosen_one_err|].
      exists k. split; [done|]. destruct (chosen_one true k bs) as [l|e] eqn:E; [|eauto].
      exfalso. apply Hn. apply chosen_one_ok in E as (b & _ & Hb); eauto.
  Qed.

  Lemma arrives_sel check fr_i fr_o (bs : list bk) have r x n : within have x -> selector check fr_i fr_o bs have = Ok r ->
    arrives r x n = (match chosen_one check n.2 bs with Ok l => fsum (fun b => if decide (b_o b = n.1) then x (fr_i, n.2) else 0) l | Err _ => 0 end) +
      if decide (n.1 = fr_o) then fsum (fun b => x (b_i b, n.2)) bs else 0.
  Proof.
    intros Hw E. apply selector_ok in E as [_ ->]. rewrite arr_eq, fsum_app, bwd_sum by done. f_equal. by apply fwd_sum.
  Qed.
  Lemma unheard (have : P -> list key) (x : node -> C_fld) p k : within have x -> x (p, k) <> 0 -> k ∈ have p.
  Proof. intros [_ Hx] Hn. destruct (decide (k ∈ have p)); [done|]. exfalso. by apply Hn, Hx. Qed.
  Lemma C90_splits_lem fr_i fr_o (bs : list bk) have r x b k : distinct fr_i fr_o bs -> within have x ->
    selector true fr_i fr_o bs have = Ok r -> b ∈ bs -> arrives r x (b_o b, k) = part_for (b_key b) (fun k => x (fr_i, k)) k.
  Proof.
    intros Hd Hw E Hb. rewrite (arrives_sel true fr_i fr_o bs have) by done. cbn [fst snd].
    rewrite (decide_False (P := b_o b = fr_o)) by (by eapply bo_fr). rewrite cadd_0.
    assert (Hnd := distinct_nodup _ _ _ Hd).
    destruct (chosen_one true k bs) as [l|e] eqn:El.
    - apply (chosen_one_ok bs k l Hnd) in El as (b' & -> & Hi & Hs & Hu). cbn [fsum]. rewrite cadd_0. unfold part_for.
      destruct (decide (b_o b' = b_o b)) as [Eb|Nb].
      + apply (bo_inj fr_i fr_o bs) in Eb; [|done..]. subst b'. by rewrite decide_True.
      + rewrite decide_False; [done|]. intros Hs'. apply Nb. by rewrite (Hu b).
    - unfold part_for. case_decide; [|done]. destruct (decide (k ∈ have fr_i)) as [Hk|Hk]; [|symmetry; by apply (proj2 Hw)].
      exfalso. apply selector_ok in E as [E _]. destruct (E k Hk) as [l E']. congruence.
  Qed.
  Lemma C90_merges_lem fr_i fr_o (bs : list bk) have r x k : distinct fr_i fr_o bs -> within have x ->
    selector true fr_i fr_o bs have = Ok r -> arrives r x (fr_o, k) = fsum (fun b => x (b_i b, k)) bs.
  Proof.
    intros Hd Hw E. rewrite (arrives_sel true fr_i fr_o bs have) by done. cbn [fst snd].
    rewrite (decide_True (P := fr_o = fr_o)) by done.
    assert (Hnd := distinct_nodup _ _ _ Hd).
    destruct (chosen_one true k bs) as [l|e] eqn:El; [|apply c0_add].
    apply (chosen_one_ok bs k l Hnd) in El as (b' & -> & Hi & _). cbn [fsum].
    rewrite decide_False by (by eapply bo_fr). by rewrite !c0_add.
  Qed.
  Lemma C90_nowhere_lem fr_i fr_o (bs : list bk) have r x p k : NoDup bs -> within have x ->
    selector true fr_i fr_o bs have = Ok r -> p <> fr_o -> (forall b, b ∈ bs -> b_o b <> p) -> arrives r x (p, k) = 0.
  Proof.
    intros Hnd Hw E Hf Hp. rewrite (arrives_sel true fr_i fr_o bs have) by done. cbn [fst snd].
    rewrite (decide_False (P := p = fr_o)) by done. rewrite cadd_0. destruct (chosen_one true k bs) as [l|e] eqn:El; [|done].
    apply (chosen_one_ok bs k l Hnd) in El as (b' & -> & Hi & _). cbn [fsum]. rewrite decide_False by auto. apply cadd_0.
  Qed.
  Lemma C90_complete_lem fr_i fr_o (bs : list bk) have r x k : distinct fr_i fr_o bs -> within have x ->
    selector true fr_i fr_o bs have = Ok r -> fsum (fun b => arrives r x (b_o b, k)) bs = x (fr_i, k).
  Proof.
    intros Hd Hw E. assert (Hnd := distinct_nodup _ _ _ Hd).
    rewrite (fsum_ext _ (fun b => part_for (b_key b) (fun k => x (fr_i, k)) k)) by (intros; by eapply C90_splits_lem).
    destruct (decide (k ∈ have fr_i)) as [Hk|Hk].
    - apply selector_ok in E as [E _]. destruct (E k Hk) as [l El]. apply (chosen_one_ok bs k l Hnd) in El as (b & -> & Hs).
      apply filter_selected in Hs; [|done]. clear -Hs.
      assert (G : forall l, fsum (fun b : bk => part_for (b_key b) (fun k => x (fr_i, k)) k) l = fsum (fun _ => x (fr_i, k)) (filter (fun b : bk => shares (b_key b) k) l)).
      { intros l. induction l as [|a l IH]; [done|]. rewrite filter_cons. cbn [fsum]. unfold part_for at 1. rewrite IH. case_decide; cbn [fsum]; [done|apply c0_add]. }
      rewrite G, Hs. cbn [fsum]. apply cadd_0.
    - rewrite (proj2 Hw _ _ Hk). apply fsum_0. intros b _. unfold part_for. case_decide; [|done]. by apply (proj2 Hw).
  Qed.
  (** without the check the first selection takes the light *)
  Lemma C90_unchecked_lem fr_i fr_o (bs1 bs2 : list bk) b have r x k : distinct fr_i fr_o (bs1 ++ b :: bs2) -> within have x ->
    selector false fr_i fr_o (bs1 ++ b :: bs2) have = Ok r -> shares (b_key b) k -> (forall b', b' ∈ bs1 -> ~ shares (b_key b') k) ->
    arrives r x (b_o b, k) = x (fr_i, k) /\ forall b', b' ∈ bs1 ++ bs2 -> arrives r x (b_o b', k) = 0.
  Proof.
    intros Hd Hw E Hs Hn.
    assert (Ec : chosen false k (bs1 ++ b :: bs2) = [b]).
    { rewrite chosen_false, filter_app. assert (F0 : filter (fun b => shares (b_key b) k) bs1 = []).
      2: { rewrite F0. cbn [app]. rewrite filter_cons, decide_True by done. done. }
      clear -Hn. induction bs1 as [|a l IH]; [done|]. rewrite filter_cons, decide_False by (apply Hn; by left). apply IH. intros b' Hb. apply Hn. by right. }
    assert (Eo : chosen_one false k (bs1 ++ b :: bs2) = Ok [b]) by (unfold chosen_one; rewrite Ec; done).
    assert (Hb : b ∈ bs1 ++ b :: bs2) by (apply elem_of_app; right; by left).
    split.
    - rewrite (arrives_sel false fr_i fr_o _ have) by done. cbn [fst snd]. rewrite Eo. cbn [fsum].
      rewrite (decide_False (P := b_o b = fr_o)) by (by eapply bo_fr). rewrite decide_True by done. by rewrite !cadd_0.
    - intros b' Hb'. assert (Hb2 : b' ∈ bs1 ++ b :: bs2) by (rewrite elem_of_app, elem_of_cons; apply elem_of_app in Hb'; tauto).
      rewrite (arrives_sel false fr_i fr_o _ have) by done. cbn [fst snd]. rewrite Eo. cbn [fsum].
      rewrite (decide_False (P := b_o b' = fr_o)) by (by eapply bo_fr). rewrite decide_False; [by rewrite !cadd_0|].
      intros Eb. apply (bo_inj fr_i fr_o (bs1 ++ b :: bs2)) in Eb; [|done..]. subst b'.
      assert (Hnd := distinct_nodup _ _ _ Hd). apply NoDup_app in Hnd as (_ & Hx & Hy). apply NoDup_cons in Hy as [Hy _].
      apply elem_of_app in Hb' as [Hb'|Hb']; [|done]. apply (Hx b); [done|by left].
  Qed.

  (** what is requested *)
  Lemma C90_requests_lem fr_i fr_o (bs : list bk) up r p k : NoDup bs -> selector_ports true fr_i fr_o bs up = Ok r ->
    (p, k) ∈ r <->
    (k ∈ up fr_i /\ exists b, selected bs k b /\ p = b_o b) \/ (p = fr_o /\ exists b, b ∈ bs /\ k ∈ up (b_i b)) \/
    (k ∈ up fr_o /\ exists b, b ∈ bs /\ shares (b_key b) k /\ p = b_i b) \/ (p = fr_i /\ exists b, b ∈ bs /\ k ∈ up (b_o b)).
  Proof.
    intros Hnd. unfold selector_ports. destruct (mfor _ _ _) as [r1|e] eqn:E; cbn; [|done]. intros [= <-].
    apply collect_ok in E as [E1 ->]. cbn [app]. rewrite !elem_of_app.
    assert (G1 : (p, k) ∈ (up fr_i ≫= fun k => match chosen_one true k bs with Ok l => (fun b => (b_o b, k)) <$> l | Err _ => [] end) <->
      (k ∈ up fr_i /\ exists b, selected bs k b /\ p = b_o b)).
    { rewrite elem_of_list_bind. split.
      - intros (k' & Hk & Hi). destruct (chosen_one true k' bs) as [l|e] eqn:El; [|by apply elem_of_nil in Hk].
        apply (chosen_one_ok bs k' l Hnd) in El as (b & -> & Hb). apply elem_of_list_fmap in Hk as (b' & [= -> ->] & Hb'%elem_of_list_singleton). subst b'. eauto.
      - intros (Hk & b & Hb & ->). exists k. split; [|done].
        assert (El : chosen_one true k bs = Ok [b]) by (apply chosen_one_ok; eauto). rewrite El. apply elem_of_list_fmap. exists b. split; [done|by left]. }
    assert (G2 : forall q (f : bk -> P), (p, k) ∈ (bs ≫= fun b => (fun k => (q, k)) <$> up (f b)) <-> p = q /\ exists b, b ∈ bs /\ k ∈ up (f b)).
    { intros q f. rewrite elem_of_list_bind. split.
      - intros (b & (k' & [= -> ->] & Hk)%elem_of_list_fmap & Hb). eauto.
      - intros (-> & b & Hb & Hk). exists b. split; [|done]. apply elem_of_list_fmap. eauto. }
    assert (G3 : (p, k) ∈ (up fr_o ≫= fun k => (fun b => (b_i b, k)) <$> chosen true k bs) <-> (k ∈ up fr_o /\ exists b, b ∈ bs /\ shares (b_key b) k /\ p = b_i b)).
    { rewrite elem_of_list_bind. split.
      - intros (k' & (b & [= -> ->] & Hb)%elem_of_list_fmap & Hk). rewrite chosen_true in Hb. apply elem_of_list_filter in Hb as [? ?]. eauto.
      - intros (Hk & b & Hb & Hs & ->). exists k. split; [|done]. apply elem_of_list_fmap. exists b. split; [done|]. rewrite chosen_true. by apply elem_of_list_filter. }
    rewrite G1, G3, (G2 fr_o b_i), (G2 fr_i b_o). tauto.
  Qed.
  (** if all that is requested is there, all couplings end at keys that are there *)
  Lemma C90_closed_lem fr_i fr_o (bs : list bk) have r c : selector_ports true fr_i fr_o bs have = Ok r -> (forall p k, (p, k) ∈ r -> k ∈ have p) ->
    selector true fr_i fr_o bs have = Ok c -> forall j, j ∈ c -> (target j).2 ∈ have (target j).1.
  Proof.
    intros Er Hr Ec j Hj. apply selector_ok in Ec as [_ ->]. unfold selector_ports in Er. destruct (mfor _ _ _) as [r1|e] eqn:E; cbn in Er; [|done]. injection Er as <-.
    apply collect_ok in E as [_ ->]. cbn [app] in Hr. apply elem_of_app in Hj as [Hj|Hj].
    - unfold fwd in Hj. apply elem_of_list_bind in Hj as (k & Hj & Hk). apply Hr. apply elem_of_app. left. apply elem_of_list_bind.
      exists k. split; [|done]. destruct (chosen_one true k bs) as [l|e]; [|by apply elem_of_nil in Hj].
      apply elem_of_list_fmap in Hj as (b & -> & Hb). cbn. apply elem_of_list_fmap. eauto.
    - unfold bwd in Hj. apply elem_of_list_bind in Hj as (b & (k & -> & Hk)%elem_of_list_fmap & Hb). cbn. apply Hr.
      apply elem_of_app; right. apply elem_of_app; left. apply elem_of_list_bind. exists b. split; [|done]. apply elem_of_list_fmap. eauto.
  Qed.

  (** selecting by one entry *)
  Lemma shares_entry (e : A) (v : V) (k : key) : shares {[e := v]} k <-> k !! e = Some v.
  Proof.
    split.
    - intros (e' & v' & [-> ->]%lookup_singleton_Some & Hk). done.
    - intros Hk. exists e, v. by rewrite lookup_singleton.
  Qed.
  Lemma C90_by_entry_lem (e : A) (l : list ((P * P) * V)) (k : key) b : NoDup l.*2 ->
    selected (by_entry e l) k b <-> exists i o v, ((i, o), v) ∈ l /\ b = Back i o {[e := v]} /\ k !! e = Some v.
  Proof.
    intros Hnd. unfold selected, by_entry. split.
    - intros (([[i o] v] & -> & Hi)%elem_of_list_fmap & Hs & _). cbn in Hs. apply shares_entry in Hs. eauto 10.
    - intros (i & o & v & Hi & -> & Hk). split; [|split].
      + apply elem_of_list_fmap. by exists ((i, o), v).
      + by apply shares_entry.
      + intros b' ([[i' o'] v'] & -> & Hi')%elem_of_list_fmap Hs. cbn in Hs. apply shares_entry in Hs. assert (v' = v) by congruence. subst v'.
        apply elem_of_list_lookup in Hi as [n Hn]. apply elem_of_list_lookup in Hi' as [n' Hn'].
        assert (n = n'); [|by simplify_eq]. eapply NoDup_lookup; [exact Hnd| |]; rewrite list_lookup_fmap; [by rewrite Hn|by rewrite Hn'].
  Qed.

  (** PolSelector *)
  Lemma pol_of_err (bP bS : bk) (k : key) e : pol_of bP bS k = Err e -> e = AssertionError.
  Proof. unfold pol_of. by repeat case_match; intros [= <-]. Qed.
  Lemma pol_ok fr_i fr_o (bP bS : bk) have r : pol_selector fr_i fr_o bP bS have = Ok r <->
    (forall k, k ∈ have fr_i -> exists b, pol_of bP bS k = Ok b) /\
    r = (have fr_i ≫= fun k => match pol_of bP bS k with Ok b => [ConstantEdge (fr_i, k) (b_o b, k) 1] | Err _ => [] end)
      ++ ((fun k => ConstantEdge (b_i bP, k) (fr_o, k) 1) <$> have (b_i bP)) ++ ((fun k => ConstantEdge (b_i bP, k) (fr_o, k) 1) <$> have (b_i bS)).
  Proof.
    unfold pol_selector. destruct (mfor _ _ _) as [r1|e] eqn:E; cbn.
    - apply collect_ok in E as [E1 ->]. cbn [app]. split; [intros [= <-]; done|intros [_ ->]; done].
    - split; [done|]. intros [Hk _]. exfalso.
      match type of E with ?m = _ => assert (E2 : exists r, m = Ok r) by (eexists; apply collect_ok; split; [exact Hk|reflexivity]) end.
      destruct E2 as [r2 E2]. unfold C_fld in *. rewrite E in E2. done.
  Qed.
  Lemma pol_of_eq (bP bS : bk) (k : key) : pol_of bP bS k = if decide (shares (b_key bP) k) then Ok bP else if decide (shares (b_key bS) k) then Ok bS else Err AssertionError.
  Proof. unfold pol_of. rewrite !true_shares. by repeat case_decide; repeat case_bool_decide. Qed.
  Lemma back_sum (b : bk) fr_o ks (x : node -> C_fld) p k : NoDup ks ->
    fsum (warr x (p, k)) ((fun k => ConstantEdge (b_i b, k) (fr_o, k) 1) <$> ks) = if decide (p = fr_o /\ k ∈ ks) then x (b_i b, k) else 0.
  Proof.
    intros Hnd. rewrite fsum_map. destruct (decide (p = fr_o)) as [->|Np].
    - rewrite <- (fsum_pick (fun k => if decide (fr_o = fr_o /\ k ∈ ks) then x (b_i b, k) else 0) ks k); [|done|].
      + apply fsum_ext. intros k' Hk. unfold warr. cbn [target amount]. destruct (decide (k' = k)) as [->|].
        * rewrite !decide_True by done. apply c1_mul.
        * by rewrite decide_False by congruence.
      + intros Hk. rewrite decide_False; [done|tauto].
    - rewrite (decide_False (P := p = fr_o /\ _)) by tauto. apply fsum_0. intros k' _. unfold warr. cbn [target]. by rewrite decide_False by congruence.
  Qed.
  Lemma pol_arrives fr_i fr_o (bP bS : bk) have r x p k : within have x -> pol_selector fr_i fr_o bP bS have = Ok r ->
    arrives r x (p, k) = (match pol_of bP bS k with Ok b => if decide (b_o b = p) then x (fr_i, k) else 0 | Err _ => 0 end) +
      ((if decide (p = fr_o /\ k ∈ have (b_i bP)) then x (b_i bP, k) else 0) + (if decide (p = fr_o /\ k ∈ have (b_i bS)) then x (b_i bP, k) else 0)).
  Proof.
    intros [Hnd Hx] E. apply pol_ok in E as [_ ->]. rewrite arr_eq, !fsum_app, !back_sum by done. f_equal.
    rewrite fsum_bindl. set (F k' := match pol_of bP bS k' with Ok b => if decide (b_o b = p) then x (fr_i, k') else 0 | Err _ => 0 end).
    change (match pol_of bP bS k with Ok b => if decide (b_o b = p) then x (fr_i, k) else 0 | Err _ => 0 end) with (F k).
    rewrite <- (fsum_pick F (have fr_i) k); [|done|].
    - apply fsum_ext. intros k' _. unfold F. destruct (pol_of bP bS k') as [b|e]; cbn [fsum]; [|by case_decide]. rewrite cadd_0.
      unfold warr. cbn [target amount]. destruct (decide (k' = k)) as [->|].
      + destruct (decide (b_o b = p)) as [->|]; [rewrite decide_True by done; apply c1_mul|by rewrite decide_False by congruence].
      + by rewrite decide_False by congruence.
    - intros Hk. unfold F. destruct (pol_of bP bS k); [|done]. rewrite (Hx _ _ Hk). by case_decide.
  Qed.
  Lemma C90_pol_accepts_lem fr_i fr_o (bP bS : bk) have :
    ((exists r, pol_selector fr_i fr_o bP bS have = Ok r) <-> (forall k, k ∈ have fr_i -> shares (b_key bP) k \/ shares (b_key bS) k)) /\
    ((exists k, k ∈ have fr_i /\ ~ shares (b_key bP) k /\ ~ shares (b_key bS) k) -> pol_selector fr_i fr_o bP bS have = Err AssertionError).
  Proof.
    split; [split|].
    - intros [r E]. apply pol_ok in E as [E _]. intros k Hk. destruct (E k Hk) as [b Eb]. rewrite pol_of_eq in Eb. repeat case_decide; auto; done.
    - intros Hs. eexists. apply pol_ok. split; [|done]. intros k Hk. rewrite pol_of_eq. specialize (Hs k Hk). repeat case_decide; eauto. tauto.
    - intros (k & Hk & HP & HS). unfold pol_selector. rewrite (collect_err (pol_of bP bS) (fun k b => [ConstantEdge (fr_i, k) (b_o b, k) 1]) _ _ AssertionError); [done|intros ? ?; apply pol_of_err|].
      exists k. split; [done|]. exists AssertionError. rewrite pol_of_eq. by rewrite !decide_False.
  Qed.
  Lemma C90_pol_splits_lem fr_i fr_o (bP bS : bk) have r x b k : distinct fr_i fr_o [bP; bS] -> within have x ->
    (forall k, k ∈ have fr_i -> ~ (shares (b_key bP) k /\ shares (b_key bS) k)) ->
    pol_selector fr_i fr_o bP bS have = Ok r -> b ∈ [bP; bS] -> arrives r x (b_o b, k) = part_for (b_key b) (fun k => x (fr_i, k)) k.
  Proof.
    intros Hd Hw Hn E Hb. rewrite (pol_arrives fr_i fr_o bP bS have) by done.
    assert (Nb : b_o b <> fr_o) by (by eapply bo_fr). rewrite !(decide_False (P := b_o b = fr_o /\ _)) by tauto. rewrite !cadd_0.
    unfold part_for. destruct (decide (k ∈ have fr_i)) as [Hk|Hk].
    2: { rewrite (proj2 Hw _ _ Hk). by repeat case_match. }
    specialize (Hn k Hk). rewrite pol_of_eq. assert (Hne : b_o bP <> b_o bS).
    { intros Eb. apply (bo_inj fr_i fr_o [bP; bS]) in Eb; [|done|left|right; left]. subst bS.
      apply distinct_nodup in Hd. apply NoDup_cons in Hd as [Hd _]. apply Hd. by left. }
    apply elem_of_cons in Hb as [->|Hb%elem_of_list_singleton]; [|subst b].
    - destruct (decide (shares (b_key bP) k)); [by rewrite decide_True|]. destruct (decide (shares (b_key bS) k)); [by rewrite decide_False by congruence|done].
    - destruct (decide (shares (b_key bP) k)); [rewrite decide_False by congruence; rewrite decide_False; [done|tauto]|]. destruct (decide (shares (b_key bS) k)); [by rewrite decide_True|done].
  Qed.
  Lemma C90_pol_returns_lem fr_i fr_o (bP bS : bk) have r x k : distinct fr_i fr_o [bP; bS] -> within have x ->
    pol_selector fr_i fr_o bP bS have = Ok r ->
    arrives r x (fr_o, k) = x (b_i bP, k) + (if decide (k ∈ have (b_i bS)) then x (b_i bP, k) else 0).
  Proof.
    intros Hd Hw E. rewrite (pol_arrives fr_i fr_o bP bS have) by done.
    assert (E0 : match pol_of bP bS k with Ok b => if decide (b_o b = fr_o) then x (fr_i, k) else 0 | Err _ => 0 end = (0 : C_fld)).
    { destruct (pol_of bP bS k) as [b|e] eqn:Eb; [|done]. rewrite decide_False; [done|]. apply (bo_fr fr_i fr_o [bP; bS]); [done|].
         rewrite pol_of_eq in Eb. repeat case_decide; simplify_eq; [left|right; left]. }
    rewrite E0, c0_add. f_equal.
    - case_decide as D; [done|]. symmetry. apply (proj2 Hw). tauto.
    - destruct (decide (k ∈ have (b_i bS))); [by rewrite decide_True|rewrite decide_False; [done|tauto]].
  Qed.
  Lemma C90_pol_closed_lem fr_i fr_o (bP bS : bk) have r c : pol_ports fr_i fr_o bP bS have = Ok r -> (forall p k, (p, k) ∈ r -> k ∈ have p) ->
    pol_selector fr_i fr_o bP bS have = Ok c -> forall j, j ∈ c -> (target j).2 ∈ have (target j).1.
  Proof.
    intros Er Hr Ec j Hj. apply pol_ok in Ec as [_ ->]. unfold pol_ports in Er.
    destruct (mfor (fun acc k => b ← pol_of bP bS k; Ok (acc ++ [(b_o b, k)])) (have fr_i) []) as [r1|e] eqn:E; cbn in Er; [|done].
    destruct (mfor _ (have fr_o) _) as [r2|e]; cbn in Er; [|done]. injection Er as <-.
    apply (collect_ok (pol_of bP bS) (fun k b => [(b_o b, k)])) in E as [_ ->]. cbn [app] in Hr. rewrite !elem_of_app in Hj. destruct Hj as [Hj|[Hj|Hj]].
    - apply elem_of_list_bind in Hj as (k & Hj & Hk). apply Hr. apply elem_of_app. left. apply elem_of_list_bind.
      exists k. split; [|done]. destruct (pol_of bP bS k) as [l|e]; [|by apply elem_of_nil in Hj].
      apply elem_of_list_singleton in Hj as ->. cbn. by left.
    - apply elem_of_list_fmap in Hj as (k & -> & Hk). cbn. apply Hr. rewrite !elem_of_app. right; left. apply elem_of_list_fmap. eauto.
    - apply elem_of_list_fmap in Hj as (k & -> & Hk). cbn. apply Hr. rewrite !elem_of_app. right; right; left. apply elem_of_list_fmap. eauto.
  Qed.
  (** and the keys asked for on the way back and upstream *)
  Lemma C90_pol_requests_lem fr_i fr_o (bP bS : bk) up r p k : pol_ports fr_i fr_o bP bS up = Ok r ->
    (forall k, ~ (shares (b_key bP) k /\ shares (b_key bS) k)) ->
    (p, k) ∈ r <->
    exists b, b ∈ [bP; bS] /\ ((k ∈ up fr_i /\ shares (b_key b) k /\ p = b_o b) \/ (p = fr_o /\ k ∈ up (b_i b)) \/
      (k ∈ up fr_o /\ shares (b_key b) k /\ p = b_i b) \/ (p = fr_i /\ k ∈ up (b_o b))).
  Proof.
    intros Er Hn. unfold pol_ports in Er.
    destruct (mfor (fun acc k => b ← pol_of bP bS k; Ok (acc ++ [(b_o b, k)])) (up fr_i) []) as [r1|e] eqn:E; cbn in Er; [|done].
    destruct (mfor (fun acc k => b ← pol_of bP bS k; Ok (acc ++ [(b_i b, k)])) (up fr_o) []) as [r2|e] eqn:E2; cbn in Er; [|done]. injection Er as <-.
    apply (collect_ok (pol_of bP bS) (fun k b => [(b_o b, k)])) in E as [_ ->]. apply (collect_ok (pol_of bP bS) (fun k b => [(b_i b, k)])) in E2 as [_ ->].
    cbn [app]. rewrite !elem_of_app.
    assert (G : forall (f : bk -> P) ks, (p, k) ∈ (ks ≫= fun k => match pol_of bP bS k with Ok b => [(f b, k)] | Err _ => [] end) <->
      exists b, b ∈ [bP; bS] /\ k ∈ ks /\ shares (b_key b) k /\ p = f b).
    { intros f ks. rewrite elem_of_list_bind. split.
      - intros (k' & Hk & Hi). rewrite pol_of_eq in Hk. repeat case_decide; [| |by apply elem_of_nil in Hk]; apply elem_of_list_singleton in Hk as [= -> ->].
        + exists bP. split; [left|done].
        + exists bS. split; [right; left|done].
      - intros (b & Hb & Hk & Hs & ->). exists k. split; [|done]. rewrite pol_of_eq.
        apply elem_of_cons in Hb as [->|Hb%elem_of_list_singleton]; [|subst b].
        + rewrite decide_True by done. by left.
        + rewrite decide_False by (intros ?; apply (Hn k); done). rewrite decide_True by done. by left. }
    assert (G2 : forall (q : P) (ks : list key), (p, k) ∈ ((fun k : key => (q, k)) <$> ks) <-> p = q /\ k ∈ ks).
    { intros q ks. rewrite elem_of_list_fmap. split; [intros (? & [= -> ->] & ?); done|intros [-> ?]; eauto]. }
    rewrite (G b_o), (G b_i), !G2. split.
    - intros [(b & Hb & Hx)|[Hx|[Hx|[(b & Hb & Hx)|[Hx|Hx]]]]];
        [exists b|exists bP|exists bS|exists b|exists bP|exists bS]; (split; [first [exact Hb|left|right; left]|tauto]).
    - intros (b & Hb & Hx). assert (Hb' := Hb). apply elem_of_cons in Hb' as [->|Hb'%elem_of_list_singleton]; [|subst b];
        destruct Hx as [Hx|[Hx|[Hx|Hx]]]; try tauto; [left|do 3 right; left|left|do 3 right; left]; eexists; (split; [exact Hb|done]).
  Qed.
End final.
