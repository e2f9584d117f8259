(** Proofs about the port-request algorithm. *)
From stdpp Require Import base tactics list numbers gmap fin_sets relations.
From Verif Require Import Fld Py PortModel PortSpec.

Definition is_Ok {A} (r : res A) : Prop := exists a, r = Ok a.

Section proofs.
  Context {E P K : Type} `{Countable E} `{Countable P} `{Countable K}.
  Context (S : sys E P K).
  Implicit Types (s : st E P K) (e o v : E) (p q : P) (k j : K).

  Lemma bonded_sym p q : bonded S p q -> bonded S q p.
  Proof. unfold bonded. tauto. Qed.

  (** *** one request *)
  Definition adds s p k o : Prop := owner S p = Some o /\ ~ (k ∈ cplgs s p \/ in_current s p k).
  Record csn1_eff s p k o s' : Prop := {
    ce_cplgs : forall q, cplgs s' q = cplgs s q;
    ce_cur : cur s' = cur s;
    ce_upd : forall e q j, j ∈ upd s' (e, q) <-> j ∈ upd s (e, q) \/
       (j = k /\ q = p /\ ((e = o /\ cur s <> Some o) \/ e ∈ vowners S p));
    ce_updX : forall q j, j ∈ updX s' q <-> j ∈ updX s q \/ (j = k /\ q = p /\ cur s = Some o);
    ce_dirty : forall e, e ∈ dirty s' <-> e ∈ dirty s \/ e = o \/ e ∈ vowners S p;
  }.

  Lemma fupd_eq {A B} `{EqDecision A} (f : A -> B) a b : fupd f a b a = b.
  Proof. unfold fupd. by rewrite decide_True. Qed.
  Lemma elem_upd_add u e p k e' q j :
    j ∈ upd_add u e p k (e', q) <-> j ∈ u (e', q) \/ (j = k /\ e' = e /\ q = p).
  Proof.
    unfold upd_add, fupd. destruct (decide ((e', q) = (e, p))) as [[= -> ->]|Hne].
    - rewrite elem_of_union, elem_of_singleton. naive_solver.
    - naive_solver.
  Qed.
  Lemma foldr_v s p k (l : list E) :
    let s' := foldr (fun v s => St (cplgs s) (upd_add (upd s) v p k) (updX s) ({[v]} ∪ dirty s) (cur s)) s l in
    cplgs s' = cplgs s /\ cur s' = cur s /\ updX s' = updX s /\
    (forall e q j, j ∈ upd s' (e, q) <-> j ∈ upd s (e, q) \/ (j = k /\ q = p /\ e ∈ l)) /\
    (forall e, e ∈ dirty s' <-> e ∈ dirty s \/ e ∈ l).
  Proof.
    cbn zeta. induction l as [|v l IH]; cbn [foldr].
    - split_and!; [done..| |]; intros; set_solver.
    - destruct IH as (H1' & H2' & H3' & H4' & H5'). cbn [cplgs cur updX upd dirty]. split_and!; [done..| |].
      + intros e q j. rewrite elem_upd_add, H4', elem_of_cons. naive_solver.
      + intros e. rewrite elem_of_union, elem_of_singleton, H5', elem_of_cons. naive_solver.
  Qed.
  Lemma csn1_cases s p k :
    (csn1 S s p k = s /\ (owned S p -> k ∈ cplgs s p \/ in_current s p k)) \/
    exists o, adds s p k o /\ csn1_eff s p k o (csn1 S s p k).
  Proof.
    unfold csn1, owned, adds. destruct (owner S p) as [o|]; [|left; split; [done|by intros [? ?]]].
    destruct (decide (k ∈ cplgs s p \/ in_current s p k)) as [Hk|Hk]; [by left|].
    right. exists o. split; [done|].
    match goal with |- context [foldr _ ?s1 _] => set (s1' := s1) end.
    destruct (foldr_v s1' p k (elements (vowners S p))) as (G1 & G2 & G3 & G4 & G5).
    split.
    - intros q. rewrite G1. subst s1'. by destruct (decide _).
    - rewrite G2. subst s1'. by destruct (decide _).
    - intros e q j. rewrite G4, elem_of_elements. subst s1'. destruct (decide (cur s = Some o)); cbn [upd].
      + naive_solver.
      + rewrite elem_upd_add. naive_solver.
    - intros q j. rewrite G3. subst s1'. destruct (decide (cur s = Some o)); cbn [updX].
      + unfold fupd. destruct (decide (q = p)) as [->|]; [rewrite elem_of_union, elem_of_singleton|]; naive_solver.
      + naive_solver.
    - intros e. rewrite G5, elem_of_elements. subst s1'.
      destruct (decide (cur s = Some o)); cbn [dirty]; rewrite elem_of_union, elem_of_singleton; tauto.
  Qed.

  (** *** the extension loop *)
  Definition feed s (L : list (P * K)) : st E P K := foldl (fun s pk => csn1 S s pk.1 pk.2) s L.
  Lemma elem_nbrs p q : q ∈ nbrs S p <-> bonded S p q.
  Proof.
    unfold nbrs, bonded. rewrite elem_of_app, !elem_of_list_fmap. split.
    - intros [([a b] & -> & Hb)|([a b] & -> & Hb)]; apply elem_of_list_filter in Hb as [Hb Hin]; cbn in *; subst; auto.
    - intros [Hb|Hb]; [left; exists (p, q)|right; exists (q, p)]; (split; [done|]); by apply elem_of_list_filter.
  Qed.

  Section loop.
    Context (popP : nat -> gset P -> P) (HpopP : forall t X, X <> ∅ -> popP t X ∈ X).
    Lemma csn_loop_ok fuel s k (todo done : gset P) s' p0 :
      csn_loop S popP fuel s k todo done = Ok s' ->
      (forall p, p ∈ todo -> rtc (bonded S) p0 p) ->
      (forall p q, p ∈ done -> bonded S p q -> q ∈ done \/ q ∈ todo) ->
      exists l : list P, s' = feed s ((fun p => (p, k)) <$> l) /\
        (forall p, p ∈ l -> rtc (bonded S) p0 p) /\
        (forall p, p ∈ todo -> p ∈ done \/ p ∈ l) /\
        (forall p q, p ∈ done \/ p ∈ l -> bonded S p q -> q ∈ done \/ q ∈ l).
    Proof.
      revert s todo done. induction fuel as [|fuel IH]; intros s todo dn Hok Ht Hd; [done|].
      cbn [csn_loop] in Hok. destruct (decide (todo = ∅)) as [->|Hne].
      { injection Hok as <-. exists []. split_and!; [done| | |].
        - intros p Hp. by apply elem_of_nil in Hp.
        - intros p Hp. set_solver.
        - intros p q [Hp|Hp] Hb; [|by apply elem_of_nil in Hp]. destruct (Hd p q Hp Hb); set_solver. }
      pose proof (HpopP fuel todo Hne) as Hp. set (p := popP fuel todo) in *. cbn zeta in Hok.
      destruct (decide (p ∈ dn)) as [Hin|Hni].
      - apply IH in Hok as (l & Hs & Hl & Htl & Hcl).
        + exists l. split_and!; [done|done| |done]. intros q Hq. destruct (decide (q = p)) as [->|]; [by left|].
          apply Htl. set_solver.
        + intros q Hq. apply Ht. set_solver.
        + intros a b Ha Hb. destruct (Hd a b Ha Hb) as [?|?]; [by left|].
          destruct (decide (b = p)) as [->|]; [by left|]. right. set_solver.
      - apply IH in Hok as (l & Hs & Hl & Htl & Hcl).
        + exists (p :: l). split_and!.
          * done.
          * intros q Hq. apply elem_of_cons in Hq as [->|Hq]; [by apply Ht|by apply Hl].
          * intros q Hq. destruct (decide (q = p)) as [->|]; [right; by left|].
            destruct (Htl q ltac:(set_solver)) as [Hq'|Hq']; [|right; by right].
            apply elem_of_union in Hq' as [Hq'%elem_of_singleton|?]; [done|by left].
          * intros a b Ha Hb. destruct (Hcl a b) as [Hq'|Hq']; [|done| |right; by right].
            -- destruct Ha as [Ha|Ha]; [left; set_solver|]. apply elem_of_cons in Ha as [->|Ha]; [left; set_solver|by right].
            -- apply elem_of_union in Hq' as [Hq'%elem_of_singleton|?]; [subst; right; by left|by left].
        + intros q Hq. apply elem_of_union in Hq as [Hq|Hq]; [apply Ht; set_solver|].
          apply elem_of_list_to_set in Hq. apply elem_nbrs in Hq. eapply rtc_r; [by apply Ht|done].
        + intros a b Ha Hb. apply elem_of_union in Ha as [Ha%elem_of_singleton|Ha].
          * subst a. right. apply elem_of_union_r, elem_of_list_to_set, elem_nbrs. done.
          * destruct (Hd a b Ha Hb) as [?|?]; [left; set_solver|].
            destruct (decide (b = p)) as [->|]; [left; set_solver|right; set_solver].
    Qed.
    Lemma csn_ok fuel s pk s' :
      csn S popP fuel s pk = Ok s' ->
      exists L, s' = feed s L /\ forall q j, (q, j) ∈ L <-> j = pk.2 /\ rtc (bonded S) pk.1 q.
    Proof.
      destruct pk as [p k]. unfold csn. cbn [fst snd]. intros Hok.
      apply (csn_loop_ok _ _ _ _ _ _ p) in Hok as (l & Hs & Hl & Htl & Hcl).
      - exists ((p, k) :: ((fun p => (p, k)) <$> l)). split; [done|]. intros q j.
        rewrite elem_of_cons, elem_of_list_fmap. split.
        + intros [[= -> ->]|(q' & [= -> ->] & Hq')]; [done|]. split; [done|by apply Hl].
        + intros [-> Hrtc]. right. exists q. split; [done|].
          assert (p ∈ l) as Hp by (destruct (Htl p); set_solver).
          clear -Hrtc Hcl Hp. induction Hrtc as [x|x y z Hxy _ IH]; [done|].
          apply IH. destruct (Hcl x y) as [Hy|Hy]; [by right|done|set_solver|done].
      - intros q Hq%elem_of_singleton. by subst.
      - intros a b Ha. set_solver.
    Qed.
    Lemma mfor_csn_ok fuel reqs s s' :
      mfor (csn S popP fuel) reqs s = Ok s' ->
      exists L, s' = feed s L /\ forall q j, (q, j) ∈ L <-> exists p, (p, j) ∈ reqs /\ rtc (bonded S) p q.
    Proof.
      revert s. induction reqs as [|[p k] reqs IH]; intros s; cbn [mfor].
      - intros [= <-]. exists []. split; [done|]. intros q j. split; [by intros ?%elem_of_nil|].
        intros (p & Hp & _). by apply elem_of_nil in Hp.
      - destruct (csn S popP fuel s (p, k)) as [s1|] eqn:E1; [|done]. cbn [mbind res_bind]. intros Hok.
        apply csn_ok in E1 as (L1 & -> & HL1). apply IH in Hok as (L2 & -> & HL2).
        exists (L1 ++ L2). split; [unfold feed; by rewrite foldl_app|]. intros q j. rewrite elem_of_app, HL1, HL2. cbn [fst snd].
        split.
        + intros [[-> ?]|(p' & Hp' & ?)]; [exists p; split; [by left|done]|exists p'; split; [by right|done]].
        + intros (p' & Hp' & Hr). apply elem_of_cons in Hp' as [[= -> ->]|Hp']; [by left|right; eauto].
    Qed.

    (** termination of the extension loop *)
    Definition ends : gset P := list_to_set ((bonds S).*1 ++ (bonds S).*2).
    Lemma bonded_ends p q : bonded S p q -> q ∈ ends.
    Proof.
      unfold bonded, ends. intros [Hb|Hb]; apply elem_of_list_to_set, elem_of_app; [right|left];
        apply elem_of_list_fmap; eexists; split; try done; done.
    Qed.
    Lemma csn_loop_terminates (V : gset P) : ends ⊆ V ->
      forall m fuel s k (todo dn : gset P), todo ⊆ V ->
      size (V ∖ dn) * (size V + 1) + size todo <= m -> m < fuel ->
      is_Ok (csn_loop S popP fuel s k todo dn).
    Proof.
      intros HV m. induction m as [m IH] using lt_wf_ind. intros fuel s k todo dn Hsub Hm Hf.
      destruct fuel as [|fuel]; [lia|]. cbn [csn_loop].
      destruct (decide (todo = ∅)) as [->|Hne]; [by eexists|].
      pose proof (HpopP fuel todo Hne) as Hp. set (p := popP fuel todo) in *. cbn zeta.
      assert (size todo = Datatypes.S (size (todo ∖ {[p]}))) as Hsz.
      { rewrite (union_difference_singleton_L p todo) at 1 by done.
        rewrite size_union by set_solver. rewrite size_singleton. lia. }
      destruct (decide (p ∈ dn)) as [Hin|Hni].
      - apply (IH (m - 1)); [lia|set_solver|lia|lia].
      - set (todo' := (todo ∖ {[p]}) ∪ list_to_set (nbrs S p)).
        assert (todo' ⊆ V) as Ht'.
        { intros q Hq. apply elem_of_union in Hq as [Hq|Hq]; [set_solver|].
          apply elem_of_list_to_set, elem_nbrs in Hq. apply HV. by eapply bonded_ends. }
        assert (size todo' <= size V) by by apply subseteq_size.
        assert (size (V ∖ dn) = Datatypes.S (size (V ∖ ({[p]} ∪ dn)))) as Hsd.
        { rewrite (union_difference_singleton_L p (V ∖ dn)) at 1 by set_solver.
          rewrite size_union by set_solver. rewrite size_singleton. f_equal. f_equal. set_solver. }
        apply (IH (size (V ∖ ({[p]} ∪ dn)) * (size V + 1) + size todo')).
        + rewrite Hsd in Hm. lia.
        + done.
        + lia.
        + rewrite Hsd in Hm. lia.
    Qed.
    Definition csn_fuel : nat := (size ends + 1) * (size ends + 2) + 2.
    Lemma csn_terminates fuel s pk : csn_fuel <= fuel -> is_Ok (csn S popP fuel s pk).
    Proof.
      intros Hf. unfold csn. destruct pk as [p k]. cbn [fst snd].
      assert (size ({[p]} ∪ ends) <= size ends + 1) as Hs.
      { rewrite size_union_alt, size_singleton.
        assert (size (ends ∖ {[p]}) <= size ends); [|lia]. apply subseteq_size. set_solver. }
      eapply (csn_loop_terminates ({[p]} ∪ ends)); [set_solver|set_solver|reflexivity|].
      rewrite size_singleton. rewrite difference_empty_L. unfold csn_fuel in Hf. nia.
    Qed.
    Lemma mfor_csn_terminates fuel reqs s : csn_fuel <= fuel -> is_Ok (mfor (csn S popP fuel) reqs s).
    Proof.
      intros Hf. revert s. induction reqs as [|pk reqs IH]; intros s; cbn [mfor]; [by eexists|].
      destruct (csn_terminates fuel s pk Hf) as [s1 ->]. apply IH.
    Qed.
  End loop.

  Global Instance owned_dec p : Decision (owned S p).
  Proof. unfold owned. apply _. Defined.

  (** *** invariants *)
  Context (Hok : sys_ok S).
  Context (D : demand (E := E) (P := P) (K := K)).
  Context (init : list (P * K)).
  Notation need := (needed S D init).

  Definition known s p k : Prop :=
    match owner S p with Some o => k ∈ cplgs s p \/ k ∈ upd s (o, p) \/ k ∈ updX s p | None => False end.
  Global Instance known_dec s p k : Decision (known s p k).
  Proof. unfold known. destruct (owner S p); apply _. Defined.
  (** key at hand for element [e] at port [p] *)
  Definition hand s e p k : Prop := k ∈ cplgs s p \/ k ∈ upd s (e, p) \/ (owner S p = Some e /\ k ∈ updX s p).

  Record J s : Prop := {
    j_sound1 p k : k ∈ cplgs s p -> need p k;
    j_sound2 e p k : k ∈ upd s (e, p) -> sees S e p /\ need p k;
    j_sound3 p k : k ∈ updX s p -> need p k /\ exists o, owner S p = Some o /\ cur s = Some o /\ o ∈ dirty s;
    j_cons p k e : known s p k -> sees S e p -> hand s e p k;
    j_cons' p k e : hand s e p k -> sees S e p -> known s p k;
    j_dirty e p k : active S e -> k ∈ upd s (e, p) -> e ∈ dirty s \/ cur s = Some e;
    j_seer e : e ∈ dirty s -> exists p k, sees S e p /\ need p k /\ known s p k;
  }.

  Lemma sees_owner e p : owner S p = Some e -> sees S e p.
  Proof. by left. Qed.
  Lemma sees_v e p : e ∈ vowners S p -> sees S e p.
  Proof. right. split; [by eapply ok_vowned|done]. Qed.
  Lemma sees_owned e p : sees S e p -> owned S p.
  Proof. intros [?|[? _]]; [by exists e|done]. Qed.

  Lemma csn1_J s p k : J s -> (owned S p -> need p k) ->
    J (csn1 S s p k) /\
    (owned S p -> known (csn1 S s p k) p k) /\
    (forall q j, known s q j -> known (csn1 S s p k) q j) /\
    (forall q j, known (csn1 S s p k) q j -> known s q j \/ (q = p /\ j = k)) /\
    (known s p k -> forall e, active S e -> e ∈ dirty (csn1 S s p k) -> e ∈ dirty s) /\
    (forall e, e ∈ dirty s -> e ∈ dirty (csn1 S s p k)).
  Proof.
    intros HJ Hneed. destruct (csn1_cases s p k) as [[-> Hin]|(o & [Ho Hnot] & Heff)].
    - split_and!; [done| |done|by left|done|done]. intros Hown. destruct (Hin Hown) as [Hc|Hc].
      + unfold known. destruct Hown as [o ->]. by left.
      + unfold in_current in Hc. destruct (cur s) as [e|] eqn:Ec; [|done].
        eapply j_cons'; [done|right; left; exact Hc|]. by apply (j_sound2 s HJ) in Hc as [? _].
    - set (s' := csn1 S s p k) in *. destruct Heff as [Ec Ecur Eu Ex Ed].
      assert (owned S p) as Hown by by exists o.
      assert (forall q j, known s' q j <-> known s q j \/ (q = p /\ j = k)) as Hkn.
      { intros q j. unfold known. destruct (owner S q) as [o'|] eqn:Eo'.
        - rewrite Ec, Eu, Ex. split.
          + intros [?|[[?|(-> & -> & _)]|[?|(-> & -> & _)]]]; auto.
          + intros [[?|[?|?]]|[-> ->]]; auto. rewrite Ho in Eo'. injection Eo' as <-.
            destruct (decide (cur s = Some o)); auto 10.
        - split; [done|]. intros [?|[-> ->]]; [done|congruence]. }
      assert (forall e q j, sees S e q -> hand s' e q j <-> hand s e q j \/ (q = p /\ j = k)) as Hha.
      { intros e q j Hsee. unfold hand. rewrite Ec, Eu, Ex. split.
        - intros [?|[[?|(-> & -> & _)]|[? [?|(-> & -> & _)]]]]; auto 10.
        - intros [[?|[?|[? ?]]]|[-> ->]]; auto 10. destruct Hsee as [Hs|[_ Hs]].
          + rewrite Ho in Hs. injection Hs as <-. destruct (decide (cur s = Some o)); auto 10.
          + auto 10. }
      split_and!.
      + split.
        * intros q j. rewrite Ec. apply j_sound1, HJ.
        * intros e q j Hj. apply Eu in Hj as [Hj|(-> & -> & He)]; [by apply (j_sound2 s HJ)|].
          split; [|by apply Hneed]. destruct He as [[-> _]|He]; [by apply sees_owner|by apply sees_v].
        * intros q j Hj. apply Ex in Hj as [Hj|(-> & -> & Hcur)].
          -- destruct (j_sound3 s HJ q j Hj) as (Hn & o' & Ho' & Hc' & Hd'). split; [done|]. exists o'.
             rewrite Ecur, Ed. auto.
          -- split; [by apply Hneed|]. exists o. rewrite Ecur, Ed. auto.
        * intros q j e Hk Hs. apply Hha; [done|]. apply Hkn in Hk as [Hk|?]; [left; by eapply j_cons|by right].
        * intros q j e Hh Hs. apply Hkn. apply Hha in Hh as [Hh|?]; [left; by eapply j_cons'|by right|done].
        * intros e q j Ha Hj. rewrite Ecur, Ed. apply Eu in Hj as [Hj|(-> & -> & He)].
          -- destruct (j_dirty s HJ e q j Ha Hj); auto.
          -- left. right. naive_solver.
        * intros e He. apply Ed in He as [He|[->|He]].
          -- destruct (j_seer s HJ e He) as (q & j & ? & ? & ?). exists q, j. split_and!; [done|done|]. apply Hkn. by left.
          -- exists p, k. split_and!; [by apply sees_owner|by apply Hneed|]. apply Hkn. by right.
          -- exists p, k. split_and!; [by apply sees_v|by apply Hneed|]. apply Hkn. by right.
      + intros _. apply Hkn. by right.
      + intros q j Hk. apply Hkn. by left.
      + intros q j Hk. by apply Hkn.
      + intros Hk e Ha He. apply Ed in He as [He|He]; [done|].
        assert (sees S e p) as Hs by (destruct He as [->|He]; [by apply sees_owner|by apply sees_v]).
        destruct (j_cons s HJ p k e Hk Hs) as [Hc|[Hc|[Hc1 Hc2]]].
        * destruct Hnot. by left.
        * destruct (j_dirty s HJ e p k Ha Hc) as [?|Hcur]; [done|]. destruct Hnot. right. unfold in_current. by rewrite Hcur.
        * destruct (j_sound3 s HJ p k Hc2) as (_ & o' & Ho' & _ & Hd'). congruence.
      + intros e He. apply Ed. by left.
  Qed.

  Lemma feed_cplgs s L p : cplgs (feed s L) p = cplgs s p.
  Proof.
    revert s. induction L as [|[q k] L IH]; intros s; [done|]. unfold feed. cbn [foldl fst snd].
    fold (feed (csn1 S s q k) L). rewrite IH. destruct (csn1_cases s q k) as [[-> _]|(o & _ & Heff)]; [done|]. apply Heff.
  Qed.
  Lemma feed_cur s L : cur (feed s L) = cur s.
  Proof.
    revert s. induction L as [|[q k] L IH]; intros s; [done|]. unfold feed. cbn [foldl fst snd].
    fold (feed (csn1 S s q k) L). rewrite IH. destruct (csn1_cases s q k) as [[-> _]|(o & _ & Heff)]; [done|]. apply Heff.
  Qed.
  (** a running element's own update sets are not touched *)
  Lemma feed_own s L e : cur s = Some e -> (forall q j, (q, j) ∈ L -> e ∉ vowners S q) ->
    forall p j, j ∈ upd (feed s L) (e, p) <-> j ∈ upd s (e, p).
  Proof.
    revert s. induction L as [|[q k] L IH]; intros s Hcur Hv p j; [done|]. unfold feed. cbn [foldl fst snd].
    fold (feed (csn1 S s q k) L). rewrite IH.
    - destruct (csn1_cases s q k) as [[-> _]|(o & [Ho _] & Heff)]; [done|]. rewrite (ce_upd _ _ _ _ _ Heff).
      split; [|by left]. intros [?|(-> & -> & [[-> Hc]|Hc])]; [done|congruence|].
      by destruct (Hv q k); [left|].
    - destruct (csn1_cases s q k) as [[-> _]|(o & _ & Heff)]; [done|]. by rewrite (ce_cur _ _ _ _ _ Heff).
    - intros q' j' Hin. apply (Hv q' j'). by right.
  Qed.
  (** and only grow in general *)
  Lemma feed_upd_mono s L e p j : j ∈ upd s (e, p) -> j ∈ upd (feed s L) (e, p).
  Proof.
    revert s. induction L as [|[q k] L IH]; intros s Hj; [done|]. unfold feed. cbn [foldl fst snd].
    fold (feed (csn1 S s q k) L). apply IH. destruct (csn1_cases s q k) as [[-> _]|(o & _ & Heff)]; [done|].
    apply (ce_upd _ _ _ _ _ Heff). by left.
  Qed.

  Lemma feed_upd_new s L e p j : j ∈ upd (feed s L) (e, p) -> j ∈ upd s (e, p) \/ e ∈ dirty (feed s L).
  Proof.
    revert s. induction L as [|[q k] L IH] using rev_ind; intros s Hj; [by left|].
    revert Hj. unfold feed. rewrite foldl_app. cbn [foldl fst snd]. fold (feed s L).
    destruct (csn1_cases (feed s L) q k) as [[-> _]|(o & _ & Heff)]; [apply IH|].
    intros Hj. apply (ce_upd _ _ _ _ _ Heff) in Hj as [Hj|(-> & -> & He)].
    - destruct (IH s Hj); [by left|right]. apply (ce_dirty _ _ _ _ _ Heff). by left.
    - right. apply (ce_dirty _ _ _ _ _ Heff). naive_solver.
  Qed.

  Lemma feed_J s L : J s -> (forall q j, (q, j) ∈ L -> owned S q -> need q j) ->
    J (feed s L) /\
    (forall q j, (q, j) ∈ L -> owned S q -> known (feed s L) q j) /\
    (forall q j, known s q j -> known (feed s L) q j) /\
    ((forall q j, (q, j) ∈ L -> owned S q -> known s q j) ->
       forall e, active S e -> e ∈ dirty (feed s L) -> e ∈ dirty s) /\
    (forall e, e ∈ dirty s -> e ∈ dirty (feed s L)).
  Proof.
    revert s. induction L as [|[p k] L IH]; intros s HJ Hn.
    - split_and!; [done| |done|done|done]. intros q j Hq. by apply elem_of_nil in Hq.
    - unfold feed. cbn [foldl fst snd]. fold (feed (csn1 S s p k) L).
      destruct (csn1_J s p k HJ) as (J1 & K1 & M1 & _ & D1 & DM1); [apply Hn; by left|].
      destruct (IH (csn1 S s p k) J1) as (J2 & K2 & M2 & D2 & DM2); [intros q j Hin; apply Hn; by right|].
      split_and!; [done| | | |].
      + intros q j Hin Hown. apply elem_of_cons in Hin as [[= -> ->]|Hin]; [apply M2, K1, Hown|by apply K2].
      + intros q j Hk. by apply M2, M1.
      + intros Hall e Ha He. destruct (decide (owned S p)) as [Hown|Hno].
        * apply D1; [apply Hall; [by left|done]|done|]. apply D2; [|done|done].
          intros q j Hin Hq. apply M1, Hall; [by right|done].
        * assert (csn1 S s p k = s) as Heq.
          { unfold csn1. destruct (owner S p) eqn:Eo; [|done]. destruct Hno. by eexists. }
          rewrite Heq in *. apply D2; [|done|done]. intros q j Hin Hq. apply Hall; [by right|done].
      + intros e He. by apply DM2, DM1.
  Qed.

  (** *** resolve *)
  Lemma fold_resolve_own e s (l : list P) : NoDup l ->
    let s' := foldl (resolve1 e) s l in
    (forall p k, k ∈ cplgs s' p <-> k ∈ cplgs s p \/ (p ∈ l /\ k ∈ upd s (e, p))) /\
    (forall e' p, upd s' (e', p) = if decide (e' = e /\ p ∈ l) then updX s p else upd s (e', p)) /\
    (forall p, updX s' p = if decide (p ∈ l) then ∅ else updX s p) /\
    dirty s' = dirty s /\ cur s' = cur s.
  Proof.
    cbn zeta. revert s. induction l as [|q l IH]; intros s Hnd; cbn [foldl].
    - split_and!; [| | |done|done].
      + intros p k. set_solver.
      + intros e' p. rewrite decide_False; [done|]. set_solver.
      + intros p. rewrite decide_False; [done|]. set_solver.
    - apply NoDup_cons in Hnd as [Hq Hnd]. destruct (IH (resolve1 e s q) Hnd) as (G1 & G2 & G3 & G4 & G5).
      split_and!; [| | |by rewrite G4|by rewrite G5].
      + intros p k. rewrite G1. cbn [resolve1 cplgs upd]. unfold fupd.
        destruct (decide (p = q)) as [->|Hne].
        * rewrite elem_of_union. destruct (decide ((e, q) = (e, q))); [|done].
          split; [intros [[?|?]|[? _]]; [by left|right; split; [by left|done]|done]|].
          intros [?|[_ ?]]; auto.
        * rewrite decide_False by congruence. rewrite elem_of_cons. naive_solver.
      + intros e' p. rewrite G2. cbn [resolve1 updX upd]. unfold fupd. destruct (decide (p = q)) as [->|Hne].
        * rewrite (decide_False (P := e' = e /\ q ∈ l)) by naive_solver.
          destruct (decide (e' = e)) as [->|Hne'].
          -- rewrite !decide_True; [done|split; [done|by left]|done].
          -- rewrite decide_False by congruence. rewrite decide_False; [done|]. naive_solver.
        * rewrite (decide_False (P := (e', p) = (e, q))) by congruence.
          destruct (decide (e' = e /\ p ∈ l)) as [[-> Hp]|Hn].
          -- rewrite decide_True; [done|]. split; [done|by right].
          -- rewrite decide_False; [done|]. rewrite elem_of_cons. naive_solver.
      + intros p. rewrite G3. cbn [resolve1 updX]. unfold fupd. destruct (decide (p ∈ l)) as [Hp|Hp].
        * rewrite decide_True; [done|by right].
        * destruct (decide (p = q)) as [->|]; [rewrite decide_True; [done|by left]|].
          rewrite decide_False; [done|]. rewrite elem_of_cons. naive_solver.
  Qed.
  Lemma fold_resolve_virtual e s (l : list P) : (forall p, p ∈ l -> updX s p = ∅) ->
    let s' := foldl (resolve1 e) s l in
    (forall p k, k ∈ cplgs s' p <-> k ∈ cplgs s p \/ (p ∈ l /\ k ∈ upd s (e, p))) /\
    (forall e' p, upd s' (e', p) = if decide (e' = e /\ p ∈ l) then ∅ else upd s (e', p)) /\
    (forall p, updX s' p = updX s p) /\
    dirty s' = dirty s /\ cur s' = cur s.
  Proof.
    cbn zeta. revert s. induction l as [|q l IH]; intros s Hx; cbn [foldl].
    - split_and!; [| |done|done|done].
      + intros p k. set_solver.
      + intros e' p. rewrite decide_False; [done|]. set_solver.
    - assert (forall p, updX (resolve1 e s q) p = updX s p) as Hx'.
      { intros p. cbn [resolve1 updX]. unfold fupd. destruct (decide (p = q)) as [->|]; [|done]. rewrite Hx; [done|by left]. }
      destruct (IH (resolve1 e s q)) as (G1 & G2 & G3 & G4 & G5).
      { intros p Hp. rewrite Hx'. apply Hx. by right. }
      split_and!; [| | |by rewrite G4|by rewrite G5].
      + intros p k. rewrite G1. cbn [resolve1 cplgs upd]. unfold fupd.
        destruct (decide (p = q)) as [->|Hne].
        * rewrite elem_of_union. destruct (decide ((e, q) = (e, q))); [|done]. rewrite (Hx q) by by left.
          split; [intros [[?|?]|[_ ?]]; [by left|right; split; [by left|done]|set_solver]|].
          intros [?|[_ ?]]; auto.
        * rewrite decide_False by congruence. rewrite elem_of_cons. naive_solver.
      + intros e' p. rewrite G2. cbn [resolve1 updX upd]. unfold fupd.
        destruct (decide (e' = e /\ p ∈ l)) as [[-> Hp]|Hn].
        * rewrite decide_True; [done|]. split; [done|by right].
        * destruct (decide ((e', p) = (e, q))) as [[= -> ->]|Hne].
          -- rewrite decide_True; [apply Hx; by left|]. split; [done|by left].
          -- rewrite decide_False; [done|]. rewrite elem_of_cons. naive_solver.
      + intros p. by rewrite G3.
  Qed.
  Lemma resolve_eff e s : (forall p k, k ∈ updX s p -> owner S p = Some e) ->
    let s' := resolve S e s in
    (forall p k, k ∈ cplgs s' p <-> k ∈ cplgs s p \/ (sees S e p /\ k ∈ upd s (e, p))) /\
    (forall e' p k, k ∈ upd s' (e', p) <->
       (k ∈ upd s (e', p) /\ ~ (e' = e /\ sees S e p)) \/ (e' = e /\ k ∈ updX s p)) /\
    (forall p, updX s' p = ∅) /\
    dirty s' = dirty s /\ cur s' = None.
  Proof.
    intros Hx. cbn zeta. unfold resolve.
    set (s0 := St (cplgs s) (upd s) (updX s) (dirty s) None).
    destruct (fold_resolve_own e s0 (oports S e)) as (A1 & A2 & A3 & A4 & A5); [apply Hok|].
    set (s1 := foldl (resolve1 e) s0 (oports S e)) in *.
    assert (forall p, updX s1 p = ∅) as Hx1.
    { intros p. rewrite A3. destruct (decide (p ∈ oports S e)) as [|Hn]; [done|]. cbn [s0 updX].
      apply set_eq. intros k. split; [|set_solver]. intros Hk. destruct Hn. apply Hok. by eapply Hx. }
    destruct (fold_resolve_virtual e s1 (vports S e)) as (B1 & B2 & B3 & B4 & B5); [intros; apply Hx1|].
    assert (forall p, p ∈ oports S e \/ p ∈ vports S e <-> sees S e p) as Hsee.
    { intros p. rewrite (ok_oports _ Hok), (ok_vports _ Hok). unfold sees. split; [|tauto].
      intros [?|Hv]; [by left|]. right. split; [by eapply ok_vowned|done]. }
    split_and!.
    - intros p k. rewrite B1, A1, A2. cbn [s0 cplgs upd updX].
      destruct (decide (e = e /\ p ∈ oports S e)) as [[_ Ho]|Hn].
      + rewrite <- Hsee. split; [|intros [?|[_ ?]]; auto].
        intros [[?|[_ ?]]|[Hv _]]; [by left|right; split; [by left|done]|].
        exfalso. apply (ok_oports _ Hok) in Ho. apply (ok_vports _ Hok) in Hv. by eapply ok_disjoint.
      + rewrite <- Hsee. split; [intros [[?|[? ?]]|[? ?]]; naive_solver|]. intros [?|[[?|?] ?]]; naive_solver.
    - intros e' p k. rewrite B2. destruct (decide (e' = e /\ p ∈ vports S e)) as [[-> Hv]|Hn].
      + split; [set_solver|]. intros [[_ Hc]|[_ Hk]].
        * destruct Hc. split; [done|]. apply Hsee. by right.
        * exfalso. apply Hx in Hk. apply (ok_vports _ Hok) in Hv. by eapply ok_disjoint.
      + rewrite A2. cbn [s0 updX upd]. destruct (decide (e' = e /\ p ∈ oports S e)) as [[-> Ho]|Hn2].
        * split; [by right|]. intros [[_ Hc]|[_ Hk]]; [|done]. destruct Hc. split; [done|]. apply Hsee. by left.
        * split; [intros Hk; left; split; [done|]|intros [[? _]|[-> Hk]]; [done|]].
          -- intros [-> Hs]. apply Hsee in Hs as [?|?]; [by destruct Hn2|by destruct Hn].
          -- exfalso. apply Hn2. split; [done|]. apply Hok. by eapply Hx.
    - intros p. by rewrite B3.
    - by rewrite B4, A4.
    - by rewrite B5, A5.
  Qed.

  Lemma start_J : J st_init.
  Proof.
    split; cbn [st_init cplgs upd updX dirty cur]; try (intros; set_solver).
    - intros p k e. unfold known. destruct (owner S p); cbn; set_solver.
    - intros p k e [?|[?|[_ ?]]] _; cbn in *; set_solver.
  Qed.

  (** *** the invariant between turns *)
  Context (HD : demand_ok S D) (HR : rules_ok S D).
  Definition asked s e (X : P -> K -> Prop) : Prop :=
    forall p k, D e X p k -> spread S (known s) p k.
  Record I s : Prop := {
    i_J : J s;
    i_cur : cur s = None;
    i_rule e : active S e ->
      (exhaustive S D e /\ (e ∈ dirty s \/ asked s e (at_ports (cplgs s)))) \/
      (incremental S D e /\ no_virtual_request S D e /\
       asked s e (fun p k => k ∈ cplgs s p /\ k ∉ upd s (e, p)));
    i_init p k : (p, k) ∈ init -> spread S (known s) p k;
  }.
  Lemma asked_mono s s' e (X X' : P -> K -> Prop) : (forall p k, X' p k -> X p k) ->
    (forall p k, known s p k -> known s' p k) -> asked s e X -> asked s' e X'.
  Proof.
    intros HX Hk Ha p k Hd q Hq Hown. apply Hk. eapply (Ha p k); [|done|done].
    eapply (dm_mono S D HD); [|done]. intros a b Hab. by apply HX.
  Qed.
  Lemma needed_closed : closed S D init need.
  Proof.
    split.
    - intros p k Hin q Hq Hown. split; [done|]. intros Y [HY _]. by apply (HY p k).
    - intros e p k Ha Hd q Hq Hown. split; [done|]. intros Y HYc. destruct HYc as [HY1 HY2].
      apply (HY2 e p k Ha); [|done|done].
      eapply (dm_mono S D HD); [|done]. intros a b [_ Hb]. apply Hb. by split.
  Qed.

  Section steps.
    Context (popP : nat -> gset P -> P) (HpopP : forall t X, X <> ∅ -> popP t X ∈ X).

    Lemma turn_I fuel t e s s' : I s -> e ∈ dirty s ->
      turn S popP fuel t e (St (cplgs s) (upd s) (updX s) (dirty s ∖ {[e]}) (cur s)) = Ok s' ->
      I s' /\ (forall p k, known s p k -> known s' p k) /\
      (* either a new key became known, or an active element left the queue and none entered it,
         or a passive one did and nothing else happened *)
      ((exists p k, known s' p k /\ ~ known s p k) \/
       (active S e /\ (forall e', active S e' -> e' ∈ dirty s' -> e' ∈ dirty s /\ e' <> e)) \/
       (~ active S e /\ dirty s' = dirty s ∖ {[e]})).
    Proof.
      intros HI He. destruct HI as [HJ Hcur Hrule Hinit]. unfold turn.
      destruct (rule S e) as [r|] eqn:Er.
      2:{ intros [= <-]. assert (~ active S e) as Hna by (unfold active; rewrite Er; by intros [? ?]).
          split_and!.
          - split; [split| | |]; cbn [cplgs upd updX dirty cur].
            + apply (j_sound1 s HJ).
            + apply (j_sound2 s HJ).
            + intros p k Hk. destruct (j_sound3 s HJ p k Hk) as (_ & o & _ & Hc & _). congruence.
            + apply (j_cons s HJ).
            + apply (j_cons' s HJ).
            + intros e' p k Ha Hk. destruct (j_dirty s HJ e' p k Ha Hk); [|by right]. left.
              assert (e' <> e) by congruence. set_solver.
            + intros e' He'. apply (j_seer s HJ). set_solver.
            + done.
            + intros e' Ha. destruct (Hrule e' Ha) as [[Hex [Hd|Has]]|Hinc].
              * left. split; [done|]. left. assert (e' <> e) by congruence. set_solver.
              * left. split; [done|]. by right.
              * by right.
            + done.
          - done.
          - right. right. done. }
      assert (active S e) as Hact by by exists r.
      set (s1 := St (cplgs s) (upd s) (updX s) (dirty s ∖ {[e]}) (cur s)).
      set (s2 := St (cplgs s1) (upd s1) (updX s1) (dirty s1) (Some e)).
      cbn zeta. set (reqs := r t (fun p => upd s2 (e, p)) (cplgs s2)).
      destruct (mfor (csn S popP fuel) reqs s2) as [s3|] eqn:E3; [|done]. cbn [mbind res_bind]. intros [= <-].
      apply (mfor_csn_ok popP HpopP) in E3 as (L & -> & HL).
      (* s2 satisfies J *)
      assert (forall p, updX s p = ∅) as Hx0.
      { intros p. apply set_eq. intros k. split; [|set_solver]. intros Hk.
        destruct (j_sound3 s HJ p k Hk) as (_ & o & _ & Hc & _). congruence. }
      assert (J s2) as HJ2.
      { split; cbn [s2 s1 cplgs upd updX dirty cur].
        - apply (j_sound1 s HJ).
        - apply (j_sound2 s HJ).
        - intros p k Hk. rewrite Hx0 in Hk. set_solver.
        - apply (j_cons s HJ).
        - apply (j_cons' s HJ).
        - intros e' p k Ha Hk. destruct (decide (e' = e)) as [->|]; [by right|]. left.
          destruct (j_dirty s HJ e' p k Ha Hk); [set_solver|congruence].
        - intros e' He'. apply (j_seer s HJ). set_solver. }
      assert (exists q j, sees S e q /\ (j ∈ upd s (e, q) \/ j ∈ cplgs s q)) as Hsome.
      { destruct (j_seer s HJ e He) as (q & j & Hs & _ & Hk). exists q, j. split; [done|].
        destruct (j_cons s HJ q j e Hk Hs) as [?|[?|[_ Hx]]]; [by right|by left|]. rewrite Hx0 in Hx. set_solver. }
      assert (forall p k, (p, k) ∈ reqs -> D e (fun q j => j ∈ upd s (e, q) \/ j ∈ cplgs s q) p k) as Hreq.
      { intros p k Hin. destruct (HR e) as [Hex|[Hinc _]]; [by apply (Hex r Er t _ _ Hsome) in Hin|].
        by apply (proj1 (Hinc r Er t _ _ Hsome)) in Hin. }
      assert (forall q j, (q, j) ∈ L -> owned S q -> need q j) as Hneed.
      { intros q j Hin Hown. apply HL in Hin as (p & Hin & Hr). apply Hreq in Hin.
        apply (proj2 needed_closed e p j Hact); [|done|done].
        eapply (dm_mono S D HD); [|exact Hin]. intros a b [Hb|Hb].
        - by apply (j_sound2 s HJ) in Hb as [_ ?].
        - by apply (j_sound1 s HJ). }
      destruct (feed_J s2 L HJ2 Hneed) as (HJ3 & HK3 & HM3 & HD3 & HDM3).
      set (s3 := feed s2 L) in *.
      assert (cur s3 = Some e) as Hcur3 by apply feed_cur.
      assert (forall p, cplgs s3 p = cplgs s p) as Hc3 by (intros p; subst s3; by rewrite feed_cplgs).
      assert (forall p k, k ∈ updX s3 p -> owner S p = Some e) as HX3.
      { intros p k Hk. destruct (j_sound3 s3 HJ3 p k Hk) as (_ & o & Ho & Hc & _). congruence. }
      destruct (resolve_eff e s3 HX3) as (R1 & R2 & R3 & R4 & R5).
      set (s4 := resolve S e s3) in *.
      assert (forall p k, known s4 p k <-> known s3 p k) as HK4.
      { intros p k. unfold known at 1. destruct (owner S p) as [o|] eqn:Eo.
        2:{ unfold known. by rewrite Eo. }
        rewrite R1, R2, R3. split.
        - intros [[Hc|[Hs Hu]]|[[[Hu _]|[-> Hx]]|Hx]].
          + unfold known. rewrite Eo. by left.
          + eapply (j_cons' s3 HJ3 p k e); [right; by left|done].
          + unfold known. rewrite Eo. by right; left.
          + unfold known. rewrite Eo. by right; right.
          + set_solver.
        - unfold known. rewrite Eo. intros [Hc|[Hu|Hx]].
          + by left; left.
          + destruct (decide (o = e)) as [->|Hne]; [left; right; split; [by left|done]|].
            right. left. left. split; [done|]. naive_solver.
          + right. left. right. split; [|done]. apply HX3 in Hx. congruence. }
      assert (forall e' p k, sees S e' p -> hand s4 e' p k <-> hand s3 e' p k) as HH4.
      { intros e' p k Hs'. unfold hand at 1. rewrite R1, R2, R3. split.
        - intros [[Hc|[Hs Hu]]|[[[Hu _]|[-> Hx]]|[_ Hx]]].
          + by left.
          + apply (j_cons s3 HJ3); [|done]. eapply (j_cons' s3 HJ3 p k e); [right; by left|done].
          + right; by left.
          + right; right. split; [by eapply HX3|done].
          + set_solver.
        - intros [Hc|[Hu|[Ho Hx]]].
          + by left; left.
          + destruct (decide (e' = e)) as [->|Hne]; [by left; right|].
            right. left. left. split; [done|]. naive_solver.
          + right. left. right. split; [|done]. apply HX3 in Hx. congruence. }
      assert (J s4) as HJ4.
      { split.
        - intros p k Hk. apply R1 in Hk as [Hk|[_ Hk]]; [by apply (j_sound1 s3 HJ3)|by apply (j_sound2 s3 HJ3) in Hk as [_ ?]].
        - intros e' p k Hk. apply R2 in Hk as [[Hk _]|[-> Hk]]; [by apply (j_sound2 s3 HJ3)|].
          split; [left; by eapply HX3|]. by apply (j_sound3 s3 HJ3) in Hk as [? _].
        - intros p k. rewrite R3. set_solver.
        - intros p k e' Hk Hs. apply HH4; [done|]. apply (j_cons s3 HJ3); [by apply HK4|done].
        - intros p k e' Hh Hs. apply HK4. eapply (j_cons' s3 HJ3); [by apply HH4|done].
        - intros e' p k Ha Hk. left. rewrite R4. apply R2 in Hk as [[Hk Hn]|[-> Hk]].
          + destruct (j_dirty s3 HJ3 e' p k Ha Hk) as [?|Hc]; [done|]. destruct Hn.
            split; [congruence|]. rewrite Hcur3 in Hc. injection Hc as ->. by apply (j_sound2 s3 HJ3) in Hk as [? _].
          + destruct (j_sound3 s3 HJ3 p k Hk) as (_ & o & _ & Hc & Hd). congruence.
        - intros e' He'. rewrite R4 in He'. destruct (j_seer s3 HJ3 e' He') as (p & k & ? & ? & ?).
          exists p, k. split_and!; [done|done|by apply HK4]. }
      assert (forall p k, known s p k -> known s4 p k) as HM4.
      { intros p k Hk. apply HK4, HM3, Hk. }
      assert (forall p k, (p, k) ∈ reqs -> spread S (known s4) p k) as Hspread.
      { intros p k Hin q Hq Hown. apply HK4, HK3; [|done]. apply HL. eauto. }
      split_and!.
      - split; [done|done| |].
        + intros e' Ha'. destruct (decide (e' = e)) as [->|Hne].
          * destruct (Hrule e Ha') as [[Hex _]|(Hinc & Hnv & Has)].
            -- left. split; [done|]. destruct (decide (e ∈ dirty s4)) as [?|Hnd]; [by left|]. right.
               intros p k Hd. apply Hspread. apply (Hex r Er t _ _ Hsome). eapply (dm_mono S D HD); [|exact Hd].
               intros q j Hj. unfold at_ports in Hj. apply R1 in Hj as [Hj|[_ Hj]]; [right; change (j ∈ cplgs s q); by rewrite <- Hc3|left].
               apply feed_upd_new in Hj as [?|?]; [done|]. destruct Hnd. by rewrite R4.
            -- right. split_and!; [done|done|]. intros p k Hd.
               assert (D e (fun q j => j ∈ upd s (e, q) \/ j ∈ cplgs s q) p k) as Hd'.
               { eapply (dm_mono S D HD); [|exact Hd]. intros q j [Hj _]. apply R1 in Hj as [Hj|[_ Hj]];
                   [right; by rewrite <- Hc3|left].
                 apply feed_own in Hj; [done|done|]. intros q' j' Hin. apply HL in Hin as (p' & Hin & Hr).
                 eapply Hnv; [by apply Hreq|done]. }
               destruct (proj2 (Hinc r Er t (fun p => upd s (e, p)) (cplgs s) Hsome) p k Hd') as [Hin|Hold]; [by apply Hspread|].
               intros q Hq Hown. apply HM4. eapply Has; [exact Hold|done|done].
          * assert (forall q j, sees S e' q -> j ∈ cplgs s4 q -> j ∈ cplgs s q \/ j ∈ upd s4 (e', q)) as Hview.
            { intros q j Hs Hj. apply R1 in Hj as [Hj|[Hse Hj]]; [left; by rewrite <- Hc3|].
              assert (known s3 q j) as Hk by (eapply (j_cons' s3 HJ3 q j e); [right; by left|done]).
              destruct (j_cons s3 HJ3 q j e' Hk Hs) as [Hc|[Hu|[Ho Hx]]].
              - left. by rewrite <- Hc3.
              - right. apply R2. left. split; [done|]. naive_solver.
              - apply HX3 in Hx. congruence. }
            destruct (Hrule e' Ha') as [[Hex Has]|(Hinc & Hnv & Has)].
            -- left. split; [done|]. destruct (decide (e' ∈ dirty s4)) as [?|Hnd]; [by left|]. right.
               destruct Has as [Hd|Has]; [destruct Hnd; rewrite R4; apply HDM3; cbn; set_solver|].
               intros p k Hd q Hq Hown. apply HM4. eapply Has; [|done|done].
               eapply (dm_mono S D HD); [|exact (dm_local S D HD _ _ _ _ Hd)]. intros a b [Hs Hj].
               destruct (Hview a b Hs Hj) as [?|Hu]; [done|].
               destruct (j_dirty s4 HJ4 e' a b Ha' Hu) as [?|Hc]; [done|]. congruence.
            -- right. split_and!; [done|done|]. intros p k Hd q Hq Hown. apply HM4. eapply Has; [|done|done].
               eapply (dm_mono S D HD); [|exact (dm_local S D HD _ _ _ _ Hd)]. intros a b [Hs [Hj Hn]]. split.
               ++ by destruct (Hview a b Hs Hj).
               ++ intros Hu. apply Hn. apply R2. left. split; [by apply feed_upd_mono|]. naive_solver.
        + intros p k Hin q Hq Hown. apply HM4. by eapply Hinit.
      - done.
      - destruct (decide (Forall (fun pk => owned S pk.1 -> known s pk.1 pk.2) L)) as [Hall|Hex].
        + right. left. split; [done|]. intros e' Ha' He'. rewrite R4 in He'. rewrite Forall_forall in Hall.
          apply HD3 in He'; [cbn in He'; set_solver| |done]. intros q j Hin Hown. by apply (Hall (q, j)).
        + left. apply not_Forall_Exists in Hex; [|apply _]. apply Exists_exists in Hex as ([q j] & Hin & Hn).
          exists q, j. cbn [fst snd] in Hn. destruct (decide (owned S q)) as [Hown|]; [|by destruct Hn].
          split; [by apply HK4, HK3|]. by intros ?; apply Hn.
    Qed.

    (** the loop *)
    Context (popE : nat -> gset E -> E) (HpopE : forall t X, X <> ∅ -> popE t X ∈ X).
    Lemma port_loop_I fuel s s' : I s -> port_loop S popE popP fuel s = Ok s' ->
      I s' /\ dirty s' = ∅.
    Proof.
      revert s. induction fuel as [|fuel IH]; intros s HI; [done|]. cbn [port_loop].
      destruct (decide (dirty s = ∅)) as [Hd|Hd]; [intros [= <-]; done|]. cbn zeta.
      match goal with |- context [turn ?a ?b ?c ?d ?e ?f] => destruct (turn a b c d e f) as [s1|] eqn:Et end; [|done].
      cbn [mbind res_bind]. apply turn_I in Et as (HI1 & _); [|done|by apply HpopE]. by apply IH.
    Qed.
    Lemma start_I fuel s : mfor (csn S popP fuel) init st_init = Ok s -> I s.
    Proof.
      intros Hok'. apply (mfor_csn_ok popP HpopP) in Hok' as (L & -> & HL).
      destruct (feed_J st_init L start_J) as (HJ & HK & HM & _).
      { intros q j Hin Hown. apply HL in Hin as (p & Hin & Hr). by apply (proj1 needed_closed p j Hin). }
      assert (forall p, cplgs (feed st_init L) p = ∅) as Hc by (intros p; by rewrite feed_cplgs).
      split; [done|by rewrite feed_cur| |].
      - intros e Ha.
        assert (forall X : P -> K -> Prop, (forall p k, ~ X p k) -> asked (feed st_init L) e X) as Hvac.
        { intros X HX p k Hd. destruct (dm_strict S D HD _ _ _ _ Hd) as (q & j & Hx). by destruct (HX q j). }
        destruct (HR e) as [Hex|[Hinc Hnv]].
        + left. split; [done|]. right. apply Hvac. intros p k. unfold at_ports. rewrite Hc. set_solver.
        + right. split_and!; [done|done|]. apply Hvac. intros p k. rewrite Hc. set_solver.
      - intros p k Hin q Hq Hown. apply HK; [|done]. apply HL. eauto.
    Qed.

    Lemma final s : I s -> dirty s = ∅ ->
      forall p o k, owner S p = Some o ->
        (need p k <-> k ∈ cplgs s p \/ k ∈ upd s (o, p)) /\
        ((exists e, sees S e p /\ active S e) -> (need p k <-> k ∈ cplgs s p)).
    Proof.
      intros HI Hd. destruct HI as [HJ Hcur Hrule Hinit].
      assert (forall p, updX s p = ∅) as Hx0.
      { intros p. apply set_eq. intros k. split; [|set_solver]. intros Hk.
        destruct (j_sound3 s HJ p k Hk) as (_ & o & _ & Hc & _). congruence. }
      assert (forall e, active S e -> forall p, upd s (e, p) = ∅) as Hu0.
      { intros e Ha p. apply set_eq. intros k. split; [|set_solver]. intros Hk.
        destruct (j_dirty s HJ e p k Ha Hk); [set_solver|congruence]. }
      assert (closed S D init (known s)) as Hcl.
      { split; [done|]. intros e p k Ha HD'.
        assert (asked s e (at_ports (cplgs s))) as Has.
        { destruct (Hrule e Ha) as [[_ [?|?]]|(_ & _ & Has)]; [set_solver|done|].
          eapply asked_mono; [|done|exact Has]. intros q j Hj. split; [done|]. rewrite Hu0 by done. set_solver. }
        apply Has. eapply (dm_mono S D HD); [|exact (dm_local S D HD _ _ _ _ HD')]. intros q j [Hs Hk].
        destruct (j_cons s HJ q j e Hk Hs) as [?|[Hu|[_ Hx]]]; [done| |].
        - rewrite Hu0 in Hu by done. set_solver.
        - rewrite Hx0 in Hx. set_solver. }
      assert (forall p o k, owner S p = Some o -> need p k <-> k ∈ cplgs s p \/ k ∈ upd s (o, p)) as Hmain.
      { intros p o k Ho. split.
        - intros [_ Hn]. pose proof (Hn _ Hcl) as Hk. unfold known in Hk. rewrite Ho in Hk.
          destruct Hk as [?|[?|Hx]]; [by left|by right|]. rewrite Hx0 in Hx. set_solver.
        - intros [Hc|Hu]; [by apply (j_sound1 s HJ)|by apply (j_sound2 s HJ) in Hu as [_ ?]]. }
      intros p o k Ho. split; [by apply Hmain|]. intros (e & Hs & Ha). split.
      - intros Hn. assert (known s p k) as Hk.
        { unfold known. rewrite Ho. apply (Hmain p o k Ho) in Hn. tauto. }
        destruct (j_cons s HJ p k e Hk Hs) as [?|[Hu|[_ Hx]]]; [done| |].
        + rewrite Hu0 in Hu by done. set_solver.
        + rewrite Hx0 in Hx. set_solver.
      - apply (j_sound1 s HJ).
    Qed.
    Lemma port_needs_correct fuel s : port_needs S popE popP fuel init = Ok s ->
      forall p o k, owner S p = Some o ->
        (need p k <-> k ∈ cplgs s p \/ k ∈ upd s (o, p)) /\
        ((exists e, sees S e p /\ active S e) -> (need p k <-> k ∈ cplgs s p)).
    Proof.
      unfold port_needs. destruct (mfor (csn S popP fuel) init st_init) as [s0|] eqn:E0; [|done].
      cbn [mbind res_bind]. intros Hl. apply start_I in E0. destruct (port_loop_I _ _ _ E0 Hl) as [HI Hd].
      by apply final.
    Qed.

    (** *** termination *)
    Context (B : gset (P * K)) (HB : forall p k, need p k -> (p, k) ∈ B).
    Definition unknown s : gset (P * K) := filter (fun pk => ~ known s pk.1 pk.2) B.
    (** everybody who may ever be queued *)
    Definition crowd : gset E :=
      ⋃ ((fun pk => vowners S pk.1 ∪ match owner S pk.1 with Some o => {[o]} | None => ∅ end) <$> elements B).
    Lemma dirty_crowd s : J s -> dirty s ⊆ crowd.
    Proof.
      intros HJ e He. destruct (j_seer s HJ e He) as (p & k & Hs & Hn & _).
      unfold crowd. apply elem_of_union_list. eexists. split.
      - apply elem_of_list_fmap. exists (p, k). split; [done|]. apply elem_of_elements. by apply HB.
      - cbn [fst]. destruct Hs as [->|[_ ?]]; set_solver.
    Qed.
    Global Instance active_dec e : Decision (active S e).
    Proof. unfold active. apply _. Defined.
    Definition busy s : gset E := filter (active S) (dirty s).
    Definition meas s : nat :=
      (size (unknown s) * (size crowd + 1) + size (busy s)) * (size crowd + 1) + size (dirty s).

    Lemma elem_busy s e : e ∈ busy s <-> active S e /\ e ∈ dirty s.
    Proof. unfold busy. apply elem_of_filter. Qed.
    Lemma port_loop_terminates m fuel s : I s -> meas s <= m -> csn_fuel + m < fuel ->
      is_Ok (port_loop S popE popP fuel s).
    Proof.
      revert fuel s. induction m as [m IH] using lt_wf_ind. intros fuel s HI Hm Hf.
      destruct fuel as [|fuel]; [lia|]. cbn [port_loop].
      destruct (decide (dirty s = ∅)) as [Hd|Hd]; [by eexists|]. cbn zeta.
      pose proof (HpopE fuel (dirty s) Hd) as He. set (e := popE fuel (dirty s)) in *.
      match goal with |- context [turn ?a ?b ?c ?d ?e ?f] => assert (is_Ok (turn a b c d e f)) as [s1 Et] end.
      { unfold turn. destruct (rule S e) as [r|]; [|by eexists]. cbn zeta.
        match goal with |- context [mfor (csn _ _ _) ?l ?s] =>
          destruct (mfor_csn_terminates popP HpopP fuel l s ltac:(lia)) as [s3 ->] end. by eexists. }
      rewrite Et. cbn [mbind res_bind].
      destruct (turn_I fuel fuel e s s1 HI He Et) as (HI1 & HM1 & Hprog).
      assert (meas s1 < meas s) as Hlt; [|apply (IH (meas s1)); [lia|done|lia|lia]].
      assert (unknown s1 ⊆ unknown s) as Hu.
      { intros [p k] Hpk. apply elem_of_filter in Hpk as [Hk HBk]. apply elem_of_filter. split; [|done].
        intros Hk'. apply Hk. by apply HM1. }
      assert (size (unknown s1) <= size (unknown s)) as Hus by by apply subseteq_size.
      assert (dirty s1 ⊆ crowd) as Hdc by apply dirty_crowd, HI1.
      assert (size (dirty s1) <= size crowd) by by apply subseteq_size.
      assert (size (busy s1) <= size crowd).
      { apply subseteq_size. intros x Hx. apply elem_busy in Hx as [_ ?]. auto. }
      unfold meas. destruct Hprog as [(p & k & Hk1 & Hk0)|[[Ha Hsub]|[Hna Hdeq]]].
      - assert (size (unknown s1) < size (unknown s)) as Hlt.
        { apply subset_size. split; [done|]. intros Hc.
          assert ((p, k) ∈ unknown s) as Hin.
          { apply elem_of_filter. split; [done|]. apply HB. destruct HI1 as [HJ1 _ _ _].
            unfold known in Hk1. destruct (owner S p) as [o|] eqn:Eo; [|done].
            destruct Hk1 as [?|[Hx|Hx]]; [by apply (j_sound1 s1 HJ1)|by apply (j_sound2 s1 HJ1) in Hx as [_ ?]|
              by apply (j_sound3 s1 HJ1) in Hx as [? _]]. }
          apply Hc in Hin. apply elem_of_filter in Hin as [? _]. done. }
        nia.
      - assert (size (busy s1) < size (busy s)) as Hlt.
        { apply subset_size. split.
          - intros x Hx. apply elem_busy in Hx as [Hxa Hx]. apply elem_busy. split; [done|]. by apply Hsub.
          - intros Hc. assert (e ∈ busy s) as Hin by by apply elem_busy.
            apply Hc in Hin. apply elem_busy in Hin as [_ Hin]. destruct (Hsub e Ha Hin). done. }
        nia.
      - assert (busy s1 ⊆ busy s) as Hb.
        { intros x Hx. apply elem_busy in Hx as [? Hx]. apply elem_busy. split; [done|]. set_solver. }
        assert (size (busy s1) <= size (busy s)) by by apply subseteq_size.
        assert (size (dirty s1) < size (dirty s)) as Hlt.
        { apply subset_size. split; [set_solver|]. intros Hc. apply Hc in He. set_solver. }
        nia.
    Qed.
    Lemma port_needs_terminates : exists c, forall fuel, c <= fuel -> exists s, port_needs S popE popP fuel init = Ok s.
    Proof.
      exists (csn_fuel + (size B * (size crowd + 1) + size crowd) * (size crowd + 1) + size crowd + 1).
      intros fuel Hf. unfold port_needs.
      destruct (mfor_csn_terminates popP HpopP fuel init st_init ltac:(lia)) as [s0 E0]. rewrite E0. cbn [mbind res_bind].
      apply start_I in E0. eapply (port_loop_terminates (meas s0)); [done|done|].
      assert (size (unknown s0) <= size B).
      { apply subseteq_size. intros x Hx. by apply elem_of_filter in Hx as [_ ?]. }
      assert (dirty s0 ⊆ crowd) as Hdc by apply dirty_crowd, E0.
      assert (size (dirty s0) <= size crowd) by by apply subseteq_size.
      assert (size (busy s0) <= size crowd).
      { apply subseteq_size. intros x Hx. apply elem_busy in Hx as [_ ?]. auto. }
      unfold meas. nia.
    Qed.
  End steps.
End proofs.

(** *** schedules do not matter *)
Lemma port_order_independent {E P K} `{Countable E} `{Countable P} `{Countable K}
    (S : sys E P K) (D : demand) (init1 init2 : list (P * K))
    (popE1 popE2 : nat -> gset E -> E) (popP1 popP2 : nat -> gset P -> P) f1 f2 s1 s2 :
  sys_ok S -> demand_ok S D -> rules_ok S D ->
  (forall t X, X <> ∅ -> popE1 t X ∈ X) -> (forall t X, X <> ∅ -> popE2 t X ∈ X) ->
  (forall t X, X <> ∅ -> popP1 t X ∈ X) -> (forall t X, X <> ∅ -> popP2 t X ∈ X) ->
  (forall pk, pk ∈ init1 <-> pk ∈ init2) ->
  port_needs S popE1 popP1 f1 init1 = Ok s1 -> port_needs S popE2 popP2 f2 init2 = Ok s2 ->
  forall e p, sees S e p -> active S e -> cplgs s1 p = cplgs s2 p.
Proof.
  intros Hok HD HR He1 He2 Hp1 Hp2 Hinit H1' H2' e p Hs Ha.
  destruct (sees_owned S e p Hs) as [o Ho].
  assert (forall q k, needed S D init1 q k <-> needed S D init2 q k) as Hn.
  { assert (forall (i1 i2 : list (P * K)), (forall pk, pk ∈ i1 <-> pk ∈ i2) -> forall q k,
      needed S D i1 q k -> needed S D i2 q k) as G; [|intros q k; split; apply G; [done|by symmetry]].
    intros i1 i2 Hi q k [Hown Hn]. split; [done|]. intros Y [HY1 HY2]. apply Hn. split; [|done].
    intros a b Hab. apply HY1, Hi, Hab. }
  apply set_eq. intros k.
  destruct (port_needs_correct S Hok D init1 HD HR popP1 Hp1 popE1 He1 f1 s1 H1' p o k Ho) as [_ G1].
  destruct (port_needs_correct S Hok D init2 HD HR popP2 Hp2 popE2 He2 f2 s2 H2' p o k Ho) as [_ G2].
  rewrite <- G1, <- G2 by eauto. apply Hn.
Qed.

(** *** symmetric_update *)
Section symm.
  Context {P K : Type} `{EqDecision P} `{Countable K}.
  Implicit Types (u c : P -> gset K).
  Lemma elem_pairs (A : gset K) (g : K -> list K) a b :
    (a, b) ∈ (k1 ← elements A; k2 ← g k1; [(k1, k2)]) <-> a ∈ A /\ b ∈ g a.
  Proof.
    rewrite elem_of_list_bind. split.
    - intros (k1 & Hin & Hk1). apply elem_of_elements in Hk1. apply elem_of_list_bind in Hin as (k2 & Hin & Hk2).
      by apply elem_of_list_singleton in Hin as [= -> ->].
    - intros [Ha Hb]. exists a. split; [|by apply elem_of_elements]. apply elem_of_list_bind. exists b.
      split; [by apply elem_of_list_singleton|done].
  Qed.
  Lemma elem_pairs' (A : gset K) (g : K -> list K) a b :
    (a, b) ∈ (k2 ← elements A; k1 ← g k2; [(k1, k2)]) <-> b ∈ A /\ a ∈ g b.
  Proof.
    rewrite elem_of_list_bind. split.
    - intros (k1 & Hin & Hk1). apply elem_of_elements in Hk1. apply elem_of_list_bind in Hin as (k2 & Hin & Hk2).
      by apply elem_of_list_singleton in Hin as [= -> ->].
    - intros [Ha Hb]. exists b. split; [|by apply elem_of_elements]. apply elem_of_list_bind. exists a.
      split; [by apply elem_of_list_singleton|done].
  Qed.
  Lemma symm_pairs u c p1 p2 : p1 <> p2 ->
    exists l, symmetric_update u c (Some (POne p1)) (Some (POne p2)) None None = Ok l /\
    forall a b, (a, b) ∈ l <->
      (a ∈ u p1 \/ a ∈ c p1) /\ (b ∈ u p2 \/ b ∈ c p2) /\ (a ∈ u p1 \/ b ∈ u p2).
  Proof.
    intros Hne. eexists. split; [reflexivity|]. intros a b. rewrite elem_of_app. cbn [pool].
    rewrite elem_pairs. rewrite elem_of_elements, elem_of_union.
    rewrite decide_False by congruence. rewrite elem_pairs', elem_of_elements.
    destruct (decide (a ∈ u p1)); tauto.
  Qed.
  Lemma symm_same u c p :
    exists l, symmetric_update u c (Some (POne p)) (Some (POne p)) None None = Ok l /\
    (forall a b, (a, b) ∈ l <-> a ∈ u p /\ (b ∈ u p \/ b ∈ c p)) /\
    (forall a b, (a ∈ u p \/ a ∈ c p) -> (b ∈ u p \/ b ∈ c p) -> (a ∈ u p \/ b ∈ u p) ->
       (a, b) ∈ l \/ (b, a) ∈ l).
  Proof.
    eexists. split; [reflexivity|].
    assert (forall a b, (a, b) ∈ (k1 ← elements (u p); k2 ← elements (u p ∪ c p); [(k1, k2)]) ++
        (if decide (POne p = POne p) then [] else
         k2 ← elements (u p); k1 ← elements (c p); [(k1, k2)]) <-> a ∈ u p /\ (b ∈ u p \/ b ∈ c p)) as G.
    { intros a b. rewrite decide_True by done. rewrite app_nil_r, elem_pairs, elem_of_elements, elem_of_union. done. }
    split; [exact G|]. intros a b Ha Hb Hn. setoid_rewrite G. tauto.
  Qed.
  Lemma symm_subset u c p1 p2 (f2 f1 : gset K -> K -> list K) : p1 <> p2 ->
    exists l, symmetric_update u c (Some (POne p1)) (Some (POne p2)) (Some f2) (Some f1) = Ok l /\
    forall a b, (a, b) ∈ l <->
      (a ∈ u p1 /\ b ∈ f2 (u p2 ∪ c p2) a) \/ (b ∈ u p2 /\ a ∈ f1 (c p1) b).
  Proof.
    intros Hne. eexists. split; [reflexivity|]. intros a b. rewrite elem_of_app, elem_pairs.
    rewrite decide_False by congruence. by rewrite elem_pairs'.
  Qed.
  Lemma symm_second_list u c p1 ps : 
    exists l, symmetric_update u c (Some (POne p1)) (Some (PMany ps)) None None = Ok l /\
    forall a b, (a, b) ∈ l <->
      (a ∈ u p1 \/ a ∈ c p1) /\ (exists p2, p2 ∈ ps /\ (b ∈ u p2 \/ b ∈ c p2)) /\
      (a ∈ u p1 \/ exists p2, p2 ∈ ps /\ b ∈ u p2).
  Proof.
    eexists. split; [reflexivity|]. intros a b. rewrite elem_of_app, elem_pairs.
    rewrite decide_False by congruence. rewrite elem_pairs', !elem_of_elements. cbn [pool].
    assert (forall g : P -> gset K, b ∈ ⋃ (g <$> ps) <-> exists p2, p2 ∈ ps /\ b ∈ g p2) as G.
    { intros g. rewrite elem_of_union_list. split.
      - intros (X & HX & Hb). apply elem_of_list_fmap in HX as (p & -> & Hp). eauto.
      - intros (p & Hp & Hb). exists (g p). split; [|done]. apply elem_of_list_fmap. eauto. }
    rewrite !G. setoid_rewrite elem_of_union. split.
    - intros [[Ha Hb]|[Hb Ha]]; [tauto|]. split_and!; [by right| |by right].
      destruct Hb as (p2 & Hp & Hb). eauto.
    - intros (Ha & Hb & [Hn|Hn]); [by left|]. destruct Ha as [Ha|Ha]; [by left|by right].
  Qed.
  Lemma symm_first_list u c ps p2 f2 f1 :
    symmetric_update u c (Some (PMany ps)) (Some p2) f2 f1 = Err TypeError.
  Proof. done. Qed.

  Lemma symm_rounds_spec p1 p2 rounds c : p1 <> p2 ->
    exists l, symm_rounds p1 p2 rounds c = Ok l /\
    forall a b,
      let seen p k := k ∈ c p \/ exists u, u ∈ rounds /\ k ∈ u p in
      (seen p1 a /\ seen p2 b <-> (a, b) ∈ l \/ (a ∈ c p1 /\ b ∈ c p2)) .
  Proof.
    intros Hne. revert c. induction rounds as [|u rounds IH]; intros c; cbn [symm_rounds].
    - exists []. split; [done|]. intros a b. cbn zeta. split.
      + intros [[?|(u & Hu & _)] [?|(u' & Hu' & _)]]; [by right|by apply elem_of_nil in Hu'|by apply elem_of_nil in Hu..].
      + intros [Hn|[? ?]]; [by apply elem_of_nil in Hn|]. auto.
    - destruct (symm_pairs u c p1 p2 Hne) as (l & -> & Hl). cbn [mbind res_bind].
      destruct (IH (fun p => u p ∪ c p)) as (l' & -> & Hl'). cbn [mbind res_bind].
      eexists. split; [reflexivity|]. intros a b. cbn zeta. rewrite elem_of_app, Hl.
      specialize (Hl' a b). cbn zeta in Hl'.
      assert (forall p k, (k ∈ c p \/ exists u0, u0 ∈ u :: rounds /\ k ∈ u0 p) <->
        (k ∈ u p ∪ c p \/ exists u0, u0 ∈ rounds /\ k ∈ u0 p)) as G.
      { intros p k. rewrite elem_of_union. setoid_rewrite elem_of_cons. naive_solver. }
      rewrite !G. rewrite Hl'. rewrite !elem_of_union.
      destruct (decide (a ∈ u p1)), (decide (b ∈ u p2)); tauto.
  Qed.
End symm.

Lemma pair_rule_incremental {E P K} `{Countable E} `{Countable P} `{Countable K}
    (S : sys E P K) (D : demand) e p1 p2 f : p1 <> p2 ->
  rule S e = Some (pair_rule p1 p2 f) ->
  (forall X p k, D e X p k <-> exists a b, X p1 a /\ X p2 b /\ (p, k) ∈ f a b) ->
  incremental S D e.
Proof.
  intros Hne Hr HD r Hr' t u c _. rewrite Hr in Hr'. injection Hr' as <-.
  unfold pair_rule. destruct (symm_pairs u c p1 p2 Hne) as (l & -> & Hl). split.
  - intros p k Hin. apply HD. apply elem_of_list_bind in Hin as ([a b] & Hin & Hab). apply Hl in Hab.
    exists a, b. naive_solver.
  - intros p k Hd. apply HD in Hd as (a & b & Ha & Hb & Hin).
    destruct (decide (a ∈ u p1 \/ b ∈ u p2)) as [Hn|Hn].
    + left. apply elem_of_list_bind. exists (a, b). split; [done|]. by apply Hl.
    + right. apply HD. exists a, b. naive_solver.
Qed.

(** *** a concrete system: two elements, each passing every key between its two ports *)
Definition line_owner (p : N) : option N := if decide (p < 4)%N then Some (p / 2)%N else None.
Definition line_rule (e : N) (t : nat) (u c : N -> gset N) : list (N * N) :=
  ((fun k => (2 * e + 1, k)%N) <$> elements (u (2 * e)%N)) ++ ((fun k => (2 * e, k)%N) <$> elements (u (2 * e + 1)%N)).
Definition line_sys : sys N N N := Sys line_owner (fun _ => ∅)
  (fun e => if decide (e < 2)%N then [2 * e; 2 * e + 1]%N else []) (fun _ => [])
  [(1, 2)%N] (fun e => if decide (e < 2)%N then Some (line_rule e) else None).
Definition line_demand : demand (E := N) (P := N) (K := N) := fun e X p k =>
  (e < 2)%N /\ ((p = 2 * e + 1 /\ X (2 * e) k) \/ (p = 2 * e /\ X (2 * e + 1) k))%N.

Lemma line_sees e : (e < 2)%N -> sees line_sys e (2 * e)%N /\ sees line_sys e (2 * e + 1)%N.
Proof.
  intros He. assert (e = 0 \/ e = 1)%N as [->| ->] by lia; split; left; reflexivity.
Qed.
Lemma line_ok : sys_ok line_sys /\ demand_ok line_sys line_demand /\ rules_ok line_sys line_demand /\
  (exists B : gset (N * N), forall p k, needed line_sys line_demand [(0, 7)%N] p k -> (p, k) ∈ B) /\
  needed line_sys line_demand [(0, 7)%N] 3%N 7%N.
Proof.
  split_and!.
  - split.
    + intros e p. cbn [line_sys oports owner]. unfold line_owner. destruct (decide (p < 4)%N) as [Hp|Hp].
      * assert (p = 0 \/ p = 1 \/ p = 2 \/ p = 3)%N as Hc by lia.
        destruct (decide (e < 2)%N) as [He|He].
        -- assert (e = 0 \/ e = 1)%N as [->| ->] by lia; destruct Hc as [->|[->|[->| ->]]]; cbn; set_solver.
        -- split; [set_solver|]. intros [= <-]. destruct Hc as [->|[->|[->| ->]]]; cbn in He; lia.
      * split; [|done]. destruct (decide (e < 2)%N) as [He|He]; [|set_solver].
        intros [Hx|[Hx|Hx]%elem_of_cons]%elem_of_cons; [lia|lia|by apply elem_of_nil in Hx].
    + intros e p. cbn. set_solver.
    + intros p e. cbn. set_solver.
    + intros p e _. cbn. set_solver.
    + intros e. cbn [line_sys oports]. destruct (decide (e < 2)%N); [|constructor].
      apply NoDup_cons. split; [intros Hx%elem_of_list_singleton; lia|]. apply NoDup_singleton.
  - split.
    + intros e X Y p k HXY [He [[-> HX]|[-> HX]]]; (split; [done|]); [left|right]; (split; [done|]); by apply HXY.
    + intros e X p k [He Hd]. destruct (line_sees e He). split; [done|].
      destruct Hd as [[-> HX]|[-> HX]]; [left|right]; done.
    + intros e X p k [He [[-> HX]|[-> HX]]]; eauto.
  - intros e. right. split; [|intros X p k q _ _; cbn; set_solver].
    intros r. cbn [line_sys rule]. destruct (decide (e < 2)%N) as [He|]; [|done]. intros [= <-] t u c _.
    assert (forall p k, (p, k) ∈ line_rule e t u c <->
      (p = 2 * e + 1 /\ k ∈ u (2 * e))%N \/ (p = 2 * e /\ k ∈ u (2 * e + 1))%N) as G.
    { intros p k. unfold line_rule. rewrite elem_of_app, !elem_of_list_fmap. setoid_rewrite elem_of_elements. naive_solver. }
    split.
    + intros p k Hin. apply G in Hin. split; [done|]. naive_solver.
    + intros p k [_ Hd]. rewrite G. unfold line_demand.
      destruct Hd as [[-> [?|?]]|[-> [?|?]]]; [by left; left| |by left; right|].
      * destruct (decide (k ∈ u (2 * e)%N)); [by left; left|]. right. split; [done|]. by left.
      * destruct (decide (k ∈ u (2 * e + 1)%N)); [by left; right|]. right. split; [done|]. by right.
  - exists (list_to_set [(0, 7); (1, 7); (2, 7); (3, 7)])%N. intros p k [[o Ho] Hn].
    assert ((p < 4)%N /\ k = 7%N) as [Hp ->].
    { assert (owned line_sys p -> k = 7%N) as Hk.
      { apply (Hn (fun p k => owned line_sys p -> k = 7%N)). split.
        - intros a b Hab%elem_of_list_singleton q _ _ _. by injection Hab.
        - intros e a b _ [He Hd] q _ _ _. destruct (line_sees e He) as [H1 H2].
          destruct Hd as [[-> HX]|[-> HX]]; apply HX; by eapply sees_owned. }
      split; [|apply Hk; by exists o]. cbn in Ho. unfold line_owner in Ho. by destruct (decide (p < 4)%N). }
    assert (p = 0 \/ p = 1 \/ p = 2 \/ p = 3)%N as [->|[->|[->| ->]]] by lia; set_solver.
  - split; [by eexists|]. intros Y [H1 H2].
    assert (Y 0 7)%N as Y0 by (eapply (H1 0%N 7%N); [by left|done|by eexists]).
    assert (Y 1 7)%N as Y1.
    { eapply (H2 0%N 1%N 7%N); [by eexists|split; [done|by left]|done|by eexists]. }
    assert (Y 2 7)%N as Y2.
    { eapply (H2 0%N 1%N 7%N); [by eexists|split; [done|by left]|apply rtc_once; left; by left|by eexists]. }
    eapply (H2 1%N 3%N 7%N); [by eexists|split; [done|by left]|done|by eexists].
Qed.

(** *** a request for a virtually owned port is lost: element 0 owns port 0 and, virtually,
    element 1's port 1; key 7 at port 0 makes it ask for key 8 at port 1, and key 8 at
    port 1 for key 9 at port 0 *)
Definition lost_rule (t : nat) (u c : N -> gset N) : list (N * N) :=
  (if decide (8%N ∈ u 1%N) then [(0, 9)%N] else []) ++ (if decide (7%N ∈ u 0%N) then [(1, 8)%N] else []).
Definition lost_sys : sys N N N := Sys
  (fun p => if decide (p < 2)%N then Some p else None) (fun p => if decide (p = 1%N) then {[0%N]} else ∅)
  (fun e => if decide (e < 2)%N then [e] else []) (fun e => if decide (e = 0%N) then [1%N] else [])
  [] (fun e => if decide (e = 0%N) then Some lost_rule else None).
Definition lost_demand : demand (E := N) (P := N) (K := N) := fun e X p k =>
  e = 0%N /\ ((p = 0 /\ k = 9 /\ X 1 8) \/ (p = 1 /\ k = 8 /\ X 0 7))%N.
Definition pop_min {A} `{Countable A} (d : A) (t : nat) (X : gset A) : A := default d (head (elements X)).
Lemma pop_min_in {A} `{Countable A} (d : A) t (X : gset A) : X <> ∅ -> pop_min d t X ∈ X.
Proof.
  intros HX. unfold pop_min. destruct (elements X) as [|a l] eqn:E; cbn.
  - apply elements_empty_inv in E. by apply leibniz_equiv in E.
  - apply elem_of_elements. rewrite E. by left.
Qed.
Lemma lost_ok : sys_ok lost_sys /\ demand_ok lost_sys lost_demand /\
  (forall e, incremental lost_sys lost_demand e) /\ needed lost_sys lost_demand [(0, 7)%N] 0%N 9%N.
Proof.
  split_and!.
  - split; cbn.
    + intros e p. destruct (decide (p < 2)%N), (decide (e < 2)%N); split; intros Hx; try set_solver;
        try (injection Hx as ->; set_solver); lia || (apply elem_of_list_singleton in Hx; subst; done || lia).
    + intros e p. destruct (decide (e = 0%N)), (decide (p = 1%N)); set_solver.
    + intros p e. unfold owned. cbn. destruct (decide (p = 1%N)) as [->|]; [by eexists|set_solver].
    + intros p e. destruct (decide (p < 2)%N); [|done]. intros [= ->].
      destruct (decide (e = 1%N)) as [->|]; set_solver.
    + intros e. destruct (decide (e < 2)%N); [apply NoDup_singleton|constructor].
  - split.
    + intros e X Y p k HXY [-> Hd]. split; [done|]. destruct Hd as [(-> & -> & HX)|(-> & -> & HX)]; [left|right]; auto.
    + intros e X p k [-> Hd]. split; [done|]. destruct Hd as [(-> & -> & HX)|(-> & -> & HX)]; [left|right]; split_and!; try done.
      * right. split; [by eexists|]. vm_decide.
      * by left.
    + intros e X p k [-> Hd]. destruct Hd as [(-> & -> & HX)|(-> & -> & HX)]; eauto.
  - intros e r. cbn. destruct (decide (e = 0%N)) as [->|]; [|done]. intros [= <-] t u c _.
    assert (forall p k, (p, k) ∈ lost_rule t u c <->
      (p = 0 /\ k = 9 /\ 8 ∈ u 1)%N \/ (p = 1 /\ k = 8 /\ 7 ∈ u 0)%N) as G.
    { intros p k. unfold lost_rule. rewrite elem_of_app.
      destruct (decide (8%N ∈ u 1%N)), (decide (7%N ∈ u 0%N)); rewrite ?elem_of_list_singleton, ?elem_of_nil; naive_solver. }
    split.
    + intros p k Hin. apply G in Hin. split; [done|]. naive_solver.
    + intros p k [_ Hd]. rewrite G. unfold lost_demand.
      destruct (decide (8%N ∈ u 1%N)), (decide (7%N ∈ u 0%N)); naive_solver.
  - split; [by eexists|]. intros Y [H1 H2].
    assert (Y 0 7)%N as Y0 by (eapply (H1 0%N 7%N); [by left|done|by eexists]).
    assert (Y 1 8)%N as Y1 by (eapply (H2 0%N 1%N 8%N); [by eexists|split; [done|by right]|done|by eexists]).
    eapply (H2 0%N 0%N 9%N); [by eexists|split; [done|by left]|done|by eexists].
Qed.
Lemma lost_run : exists s, port_needs lost_sys (pop_min 0%N) (pop_min 0%N) 20 [(0, 7)%N] = Ok s /\
  9%N ∉ cplgs s 0%N /\ 9%N ∉ upd s (0, 0)%N.
Proof. eexists. split; [vm_compute; reflexivity|]. split; vm_decide. Qed.

Lemma C31_least_lem {E P K} `{Countable E} `{Countable P} `{Countable K}
    (S : sys E P K) (D : demand) (init : list (P * K))
    (popE : nat -> gset E -> E) (popP : nat -> gset P -> P) fuel s :
  sys_ok S -> demand_ok S D -> rules_ok S D ->
  (forall t X, X <> ∅ -> popE t X ∈ X) -> (forall t X, X <> ∅ -> popP t X ∈ X) ->
  port_needs S popE popP fuel init = Ok s ->
  forall p o k, owner S p = Some o ->
    (needed S D init p k <-> k ∈ cplgs s p \/ k ∈ upd s (o, p)) /\
    ((exists e, sees S e p /\ active S e) -> (needed S D init p k <-> k ∈ cplgs s p)).
Proof. intros. by eapply port_needs_correct. Qed.
Lemma C31_terminates_lem {E P K} `{Countable E} `{Countable P} `{Countable K}
    (S : sys E P K) (D : demand) (init : list (P * K))
    (popE : nat -> gset E -> E) (popP : nat -> gset P -> P) :
  sys_ok S -> demand_ok S D -> rules_ok S D ->
  (forall t X, X <> ∅ -> popE t X ∈ X) -> (forall t X, X <> ∅ -> popP t X ∈ X) ->
  (exists B : gset (P * K), forall p k, needed S D init p k -> (p, k) ∈ B) ->
  exists c, forall fuel, c <= fuel -> exists s, port_needs S popE popP fuel init = Ok s.
Proof. intros ? ? ? ? ? [B HB]. by eapply port_needs_terminates. Qed.
Lemma C31_virtual_refuted_lem :
  exists (S : sys N N N) (D : demand) (init : list (N * N))
    (popE : nat -> gset N -> N) (popP : nat -> gset N -> N) fuel s p k,
  sys_ok S /\ demand_ok S D /\ (forall e, incremental S D e) /\
  (forall t X, X <> ∅ -> popE t X ∈ X) /\ (forall t X, X <> ∅ -> popP t X ∈ X) /\
  port_needs S popE popP fuel init = Ok s /\
  needed S D init p k /\ k ∉ cplgs s p /\ forall o, owner S p = Some o -> k ∉ upd s (o, p).
Proof.
  destruct lost_ok as (H1 & H2 & H3 & H4). destruct lost_run as (s & Hs & G1 & G2).
  exists lost_sys, lost_demand, [(0, 7)%N], (pop_min 0%N), (pop_min 0%N), 20, s, 0%N, 9%N.
  split_and!; try done; [apply pop_min_in..|]. intros o [= <-]. done.
Qed.
