(** One element's requests are all met, whatever the other elements do. *)
From stdpp Require Import base tactics list numbers gmap fin_sets relations.
From Verif Require Import Py PortModel PortSpec PortProofs.

Section one.
  Context {E P K : Type} `{Countable E} `{Countable P} `{Countable K}.
  Context (S : sys E P K) (Hok : sys_ok S) (init : list (P * K)).
  Context (e0 : E) (W : (P -> K -> Prop) -> P -> K -> Prop) (HW : one_demand_ok S e0 W) (Z : P -> K -> Prop) (HC : meets S e0 W Z).
  Context (Hact0 : active S e0).
  Implicit Types (s : st E P K).

  (** a demand allowing everything, so that every owned port may get any key *)
  Definition any : demand (E := E) (P := P) (K := K) := fun e X p k => True.
  Notation J := (J S any init).
  Notation known := (known S).
  Notation hand := (hand S).
  Notation feed := (feed S).
  Lemma any_need p k : owned S p -> needed S any init p k.
  Proof. intros Ho. split; [done|]. intros Y [_ HY]. by apply (HY e0 p k Hact0 Logic.I p (rtc_refl _ _)). Qed.

  Definition asked1 s (X : P -> K -> Prop) : Prop := forall p k, W X p k -> spread S (known s) p k.
  Definition old s : P -> K -> Prop := fun p k => k ∈ cplgs s p /\ k ∉ upd s (e0, p).

  Section steps.
    Context (popP : nat -> gset P -> P) (HpopP : forall t X, X <> ∅ -> popP t X ∈ X).

    Lemma turn_I1 fuel t e s s' : J s -> cur s = None -> e ∈ dirty s ->
      turn S popP fuel t e (St (cplgs s) (upd s) (updX s) (dirty s ∖ {[e]}) (cur s)) = Ok s' ->
      J s' /\ cur s' = None /\ (forall p k, known s p k -> known s' p k) /\
      ((forall p k, sees S e0 p -> known s p k -> Z p k) -> asked1 s (old s) -> asked1 s' (old s')).
    Proof.
      intros HJ Hcur He. unfold turn.
      destruct (rule S e) as [r|] eqn:Er.
      2:{ intros [= <-]. assert (~ active S e) as Hna by (unfold active; rewrite Er; by intros [? ?]).
          split_and!; [split| | |]; cbn [cplgs upd updX dirty cur].
          - apply (j_sound1 _ _ _ s HJ).
          - apply (j_sound2 _ _ _ s HJ).
          - intros p k Hk. destruct (j_sound3 _ _ _ s HJ p k Hk) as (_ & o & _ & Hc & _). congruence.
          - apply (j_cons _ _ _ s HJ).
          - apply (j_cons' _ _ _ s HJ).
          - intros e' p k Ha Hk. destruct (j_dirty _ _ _ s HJ e' p k Ha Hk); [|by right]. left.
            assert (e' <> e) by congruence. set_solver.
          - intros e' He'. apply (j_seer _ _ _ s HJ). set_solver.
          - done.
          - done.
          - done. }
      set (s1 := St (cplgs s) (upd s) (updX s) (dirty s ∖ {[e]}) (cur s)).
      set (s2 := St (cplgs s1) (upd s1) (updX s1) (dirty s1) (Some e)).
      cbn zeta. set (reqs := r t (fun p => upd s2 (e, p)) (cplgs s2)).
      destruct (mfor (csn S popP fuel) reqs s2) as [s3|] eqn:E3; [|done]. cbn [mbind res_bind]. intros [= <-].
      apply (mfor_csn_ok S popP HpopP) in E3 as (L & -> & HL).
      assert (forall p, updX s p = ∅) as Hx0.
      { intros p. apply set_eq. intros k. split; [|set_solver]. intros Hk.
        destruct (j_sound3 _ _ _ s HJ p k Hk) as (_ & o & _ & Hc & _). congruence. }
      assert (J s2) as HJ2.
      { split; cbn [s2 s1 cplgs upd updX dirty cur].
        - apply (j_sound1 _ _ _ s HJ).
        - apply (j_sound2 _ _ _ s HJ).
        - intros p k Hk. rewrite Hx0 in Hk. set_solver.
        - apply (j_cons _ _ _ s HJ).
        - apply (j_cons' _ _ _ s HJ).
        - intros e' p k Ha Hk. destruct (decide (e' = e)) as [->|]; [by right|]. left.
          destruct (j_dirty _ _ _ s HJ e' p k Ha Hk); [set_solver|congruence].
        - intros e' He'. apply (j_seer _ _ _ s HJ). set_solver. }
      assert (exists q j, sees S e q /\ (j ∈ upd s (e, q) \/ j ∈ cplgs s q)) as Hsome.
      { destruct (j_seer _ _ _ s HJ e He) as (q & j & Hs & _ & Hk). exists q, j. split; [done|].
        destruct (j_cons _ _ _ s HJ q j e Hk Hs) as [?|[?|[_ Hx]]]; [by right|by left|]. rewrite Hx0 in Hx. set_solver. }
      assert (forall q j, (q, j) ∈ L -> owned S q -> needed S any init q j) as Hneed.
      { intros q j _ Hown. by apply any_need. }
      destruct (feed_J S Hok any init s2 L HJ2 Hneed) as (HJ3 & HK3 & HM3 & HD3 & HDM3).
      set (s3 := feed s2 L) in *.
      assert (cur s3 = Some e) as Hcur3 by apply feed_cur.
      assert (forall p, cplgs s3 p = cplgs s p) as Hc3 by (intros p; subst s3; by rewrite feed_cplgs).
      assert (forall p k, k ∈ updX s3 p -> owner S p = Some e) as HX3.
      { intros p k Hk. destruct (j_sound3 _ _ _ s3 HJ3 p k Hk) as (_ & o & Ho & Hc & _). congruence. }
      destruct (resolve_eff S Hok e s3 HX3) as (R1 & R2 & R3 & R4 & R5).
      set (s4 := resolve S e s3) in *.
      assert (forall p k, known s4 p k <-> known s3 p k) as HK4.
      { intros p k. unfold PortProofs.known at 1. destruct (owner S p) as [o|] eqn:Eo.
        2:{ unfold PortProofs.known. by rewrite Eo. }
        rewrite R1, R2, R3. split.
        - intros [[Hc|[Hs Hu]]|[[[Hu _]|[-> Hx]]|Hx]].
          + unfold PortProofs.known. rewrite Eo. by left.
          + eapply (j_cons' _ _ _ s3 HJ3 p k e); [right; by left|done].
          + unfold PortProofs.known. rewrite Eo. by right; left.
          + unfold PortProofs.known. rewrite Eo. by right; right.
          + set_solver.
        - unfold PortProofs.known. rewrite Eo. intros [Hc|[Hu|Hx]].
          + by left; left.
          + destruct (decide (o = e)) as [->|Hne]; [left; right; split; [by left|done]|].
            right. left. left. split; [done|]. naive_solver.
          + right. left. right. split; [|done]. apply HX3 in Hx. congruence. }
      assert (forall e' p k, sees S e' p -> hand s4 e' p k <-> hand s3 e' p k) as HH4.
      { intros e' p k Hs'. unfold PortProofs.hand at 1. rewrite R1, R2, R3. split.
        - intros [[Hc|[Hs Hu]]|[[[Hu _]|[-> Hx]]|[_ Hx]]].
          + by left.
          + apply (j_cons _ _ _ s3 HJ3); [|done]. eapply (j_cons' _ _ _ s3 HJ3 p k e); [right; by left|done].
          + right; by left.
          + right; right. split; [by eapply HX3|done].
          + set_solver.
        - intros [Hc|[Hu|[Ho Hx]]].
          + by left; left.
          + destruct (decide (e' = e)) as [->|Hne]; [by left; right|].
            right. left. left. split; [done|]. naive_solver.
          + right. left. right. split; [|done]. apply HX3 in Hx. congruence. }
      assert (J s4) as HJ4.
      { split.
        - intros p k Hk. apply R1 in Hk as [Hk|[_ Hk]]; [by apply (j_sound1 _ _ _ s3 HJ3)|by apply (j_sound2 _ _ _ s3 HJ3) in Hk as [_ ?]].
        - intros e' p k Hk. apply R2 in Hk as [[Hk _]|[-> Hk]]; [by apply (j_sound2 _ _ _ s3 HJ3)|].
          split; [left; by eapply HX3|]. by apply (j_sound3 _ _ _ s3 HJ3) in Hk as [? _].
        - intros p k. rewrite R3. set_solver.
        - intros p k e' Hk Hs. apply HH4; [done|]. apply (j_cons _ _ _ s3 HJ3); [by apply HK4|done].
        - intros p k e' Hh Hs. apply HK4. eapply (j_cons' _ _ _ s3 HJ3); [by apply HH4|done].
        - intros e' p k Ha Hk. left. rewrite R4. apply R2 in Hk as [[Hk Hn]|[-> Hk]].
          + destruct (j_dirty _ _ _ s3 HJ3 e' p k Ha Hk) as [?|Hc]; [done|]. destruct Hn.
            split; [congruence|]. rewrite Hcur3 in Hc. injection Hc as ->. by apply (j_sound2 _ _ _ s3 HJ3) in Hk as [? _].
          + destruct (j_sound3 _ _ _ s3 HJ3 p k Hk) as (_ & o & _ & Hc & Hd). congruence.
        - intros e' He'. rewrite R4 in He'. destruct (j_seer _ _ _ s3 HJ3 e' He') as (p & k & ? & ? & ?).
          exists p, k. split_and!; [done|done|by apply HK4]. }
      assert (forall p k, known s p k -> known s4 p k) as HM4.
      { intros p k Hk. apply HK4, HM3, Hk. }
      assert (forall p k, (p, k) ∈ reqs -> spread S (known s4) p k) as Hspread.
      { intros p k Hin q Hq Hown. apply HK4, HK3; [|done]. apply HL. eauto. }
      split_and!; [done|done|done|]. intros HZ Has. unfold old in *. destruct (decide (e0 = e)) as [<-|Hne].
      - assert (forall q j, sees S e0 q -> j ∈ upd s (e0, q) \/ j ∈ cplgs s q -> Z q j) as HZ'.
        { intros q j Hs Hj. apply HZ; [done|]. apply (j_cons' _ _ _ s HJ q j e0); [|done]. unfold PortProofs.hand. tauto. }
        intros p k Hd.
        assert (W (fun q j => j ∈ upd s (e0, q) \/ j ∈ cplgs s q) p k) as Hd'.
        { eapply (od_mono S e0 W HW); [|exact Hd]. intros q j [Hj _]. apply R1 in Hj as [Hj|[_ Hj]];
            [right; by rewrite <- Hc3|left].
          apply feed_own in Hj; [done|done|]. intros q' j' Hin. apply HL in Hin as (p' & Hin & Hr).
          eapply (proj2 (HC r Er t _ _ Hsome HZ')); [exact Hin|done]. }
        destruct (proj1 (HC r Er t (fun p => upd s (e0, p)) (cplgs s) Hsome HZ') p k Hd') as [Hin|Hold]; [by apply Hspread|].
        intros q Hq Hown. apply HM4. eapply Has; [exact Hold|done|done].
      - assert (forall q j, sees S e0 q -> j ∈ cplgs s4 q -> j ∈ cplgs s q \/ j ∈ upd s4 (e0, q)) as Hview.
        { intros q j Hs Hj. apply R1 in Hj as [Hj|[Hse Hj]]; [left; by rewrite <- Hc3|].
          assert (known s3 q j) as Hk by (eapply (j_cons' _ _ _ s3 HJ3 q j e); [right; by left|done]).
          destruct (j_cons _ _ _ s3 HJ3 q j e0 Hk Hs) as [Hc|[Hu|[Ho Hx]]].
          - left. by rewrite <- Hc3.
          - right. apply R2. left. split; [done|]. naive_solver.
          - apply HX3 in Hx. congruence. }
        intros p k Hd q Hq Hown. apply HM4. eapply Has; [|done|done].
        eapply (od_mono S e0 W HW); [|exact (od_local S e0 W HW _ _ _ Hd)]. intros a b [Hs [Hj Hn]]. split.
        + by destruct (Hview a b Hs Hj).
        + intros Hu. apply Hn. apply R2. left. split; [by apply feed_upd_mono|]. naive_solver.
    Qed.

    Context (popE : nat -> gset E -> E) (HpopE : forall t X, X <> ∅ -> popE t X ∈ X).
    Lemma port_loop_J fuel s s' : J s -> cur s = None -> port_loop S popE popP fuel s = Ok s' ->
      J s' /\ cur s' = None /\ dirty s' = ∅ /\ (forall p k, known s p k -> known s' p k).
    Proof.
      revert s. induction fuel as [|fuel IH]; intros s HJ Hc; [done|]. cbn [port_loop].
      destruct (decide (dirty s = ∅)) as [Hd|Hd]; [intros [= <-]; done|]. cbn zeta.
      match goal with |- context [turn ?a ?b ?c ?d ?e ?f] => destruct (turn a b c d e f) as [s1|] eqn:Et end; [|done].
      cbn [mbind res_bind]. apply turn_I1 in Et as (HJ1 & Hc1 & HM & _); [|done|done|by apply HpopE]. intros E'.
      apply IH in E' as (? & ? & ? & HM'); [|done|done]. split_and!; try done. intros p k Hk. by apply HM', HM.
    Qed.
    Lemma port_loop_I1 fuel s s' : J s -> cur s = None -> port_loop S popE popP fuel s = Ok s' ->
      (forall p k, sees S e0 p -> known s' p k -> Z p k) -> asked1 s (old s) -> asked1 s' (old s').
    Proof.
      revert s. induction fuel as [|fuel IH]; intros s HJ Hc; [done|]. cbn [port_loop].
      destruct (decide (dirty s = ∅)) as [Hd|Hd]; [intros [= <-]; done|]. cbn zeta.
      match goal with |- context [turn ?a ?b ?c ?d ?e ?f] => destruct (turn a b c d e f) as [s1|] eqn:Et end; [|done].
      cbn [mbind res_bind]. apply turn_I1 in Et as (HJ1 & Hc1 & HM & HA); [|done|done|by apply HpopE]. intros E' HZ Has.
      destruct (port_loop_J _ _ _ HJ1 Hc1 E') as (_ & _ & _ & HM'). apply (IH s1); try done. apply HA; [|done].
      intros p k Hs Hk. apply HZ; [done|]. by apply HM', HM.
    Qed.
    Lemma start_I1 fuel s : mfor (csn S popP fuel) init st_init = Ok s -> J s /\ cur s = None /\ asked1 s (old s).
    Proof.
      intros Hok'. apply (mfor_csn_ok S popP HpopP) in Hok' as (L & -> & HL).
      destruct (feed_J S Hok any init st_init L (start_J S Hok any init)) as (HJ & HK & HM & _).
      { intros q j _ Hown. by apply any_need. }
      assert (forall p, cplgs (feed st_init L) p = ∅) as Hc by (intros p; by rewrite feed_cplgs).
      split_and!; [done|by rewrite feed_cur|].
      intros p k Hd. destruct (od_strict S e0 W HW _ _ _ Hd) as (q & j & [Hx _]). rewrite Hc in Hx. set_solver.
    Qed.
    Lemma port_needs_meets fuel s : port_needs S popE popP fuel init = Ok s -> (forall p k, k ∈ cplgs s p -> Z p k) ->
      forall p k, W (at_ports (cplgs s)) p k -> forall q, rtc (bonded S) p q ->
        (exists e, sees S e q /\ active S e) -> k ∈ cplgs s q.
    Proof.
      unfold port_needs. destruct (mfor (csn S popP fuel) init st_init) as [s0|] eqn:E0; [|done].
      cbn [mbind res_bind]. intros Hl HZ. apply start_I1 in E0 as (HJ0 & Hc0 & Has0).
      destruct (port_loop_J _ _ _ HJ0 Hc0 Hl) as (HJ & Hcur & Hd & _).
      assert (forall p, updX s p = ∅) as Hx0.
      { intros p'. apply set_eq. intros k'. split; [|set_solver]. intros Hk.
        destruct (j_sound3 _ _ _ s HJ p' k' Hk) as (_ & o & _ & Hc & _). congruence. }
      assert (forall e, active S e -> forall p, upd s (e, p) = ∅) as Hu0.
      { intros e' Ha' p'. apply set_eq. intros k'. split; [|set_solver]. intros Hk.
        destruct (j_dirty _ _ _ s HJ e' p' k' Ha' Hk); [set_solver|congruence]. }
      assert (forall e q k, active S e -> sees S e q -> known s q k -> k ∈ cplgs s q) as Hcp.
      { intros e q k Ha Hs Hk. destruct (j_cons _ _ _ s HJ q k e Hk Hs) as [?|[Hu|[_ Hx]]]; [done| |].
        - rewrite Hu0 in Hu by done. set_solver.
        - rewrite Hx0 in Hx. set_solver. }
      assert (asked1 s (old s)) as Has.
      { apply (port_loop_I1 _ _ _ HJ0 Hc0 Hl); [|done]. intros p k Hs Hk. by apply HZ, (Hcp e0). }
      intros p k HWp q Hq (e & Hs & Ha). apply (Hcp e); [done|done|]. apply (Has p k); [|done|by eapply sees_owned].
      eapply (od_mono S e0 W HW); [|exact HWp]. intros a b Hb. split; [done|]. rewrite Hu0 by done. set_solver.
    Qed.
  End steps.
End one.
