(** With light of one polarization and carrier only, the modulator asks for exactly what it wants. *)
From stdpp Require Import base tactics numbers gmap fin_sets sets relations list.
From Verif Require Import Py PortModel PortSpec PortProofs PdModel FillModel FillSpec FillProofs FillProofs3.

Section one.
  Context {P A Q : Type} `{Countable P} `{Countable A} `{Countable Q}.
  Context (qadd : Q -> Q -> Q) (qneg : Q -> Q) (reject : Q -> bool).
  Notation K := (key A Q).
  Notation moved := (moved qadd qneg).
  Context (one : forall o o' : A, o = o').
  Context (fri fro bki bko drv ba : P) (Hnd : NoDup [fri; fro; bki; bko; drv; ba]).
  Notation pm2 := (pmap2 fri fro bki bko).
  Notation asks := (mod_asks qadd qneg reject fri fro bki bko drv ba).
  Notation FW := (fill_wants (P := P) (A := A) qadd qneg reject [fri; bki] [fro; bko] pm2 (Some drv) (Some ba)).

  Lemma gather_sound {B} (f : B -> res (list (P * K))) l r y : gather f l = Ok r -> y ∈ r -> exists x rx, x ∈ l /\ f x = Ok rx /\ y ∈ rx.
  Proof.
    revert r. induction l as [|z l IH]; intros r; cbn [gather]; [intros [= <-] Hy; by apply elem_of_nil in Hy|].
    destruct (f z) as [a|] eqn:Ea; [|done]. cbn [mbind res_bind]. destruct (gather f l) as [b|] eqn:Eb; [|done]. cbn [mbind res_bind].
    intros [= <-] Hy. apply elem_of_app in Hy as [Hy|Hy]; [exists z, a; repeat split; [left|done..]|].
    destruct (IH b eq_refl Hy) as (x & rx & Hx & E1 & Hy'). exists x, rx. split; [by right|done].
  Qed.
  Definition seen (u c : P -> gset K) : P -> K -> Prop := fun q j => j ∈ u q \/ j ∈ c q.
  Lemma fill_in_sound u c i r p k : i ∈ [fri; bki] -> i <> drv -> i <> ba ->
    fill_in qadd qneg reject u c pm2 (Some drv) (Some ba) i = Ok r -> (p, k) ∈ r -> asks (seen u c) p k.
  Proof.
    intros Hi Hid Hib. unfold fill_in.
    destruct (symm_pairs u c i drv Hid) as (l1 & -> & Hl1). destruct (symm_pairs u c i ba Hib) as (l2 & -> & Hl2).
    destruct (same_ok u c i (subset_opposite)) as (ls & -> & Hls).
    destruct (many_ok u c i (pm2 i) (subset_same)) as (lm & -> & Hlm). cbn [mbind res_bind].
    destruct (gather _ l1) as [a|] eqn:Ea; [|done]. cbn [mbind res_bind]. intros [= <-]. rewrite !elem_of_app. intros [Hx|[Hx|[Hx|[Hx|Hx]]]].
    - unfold fill_through in Hx. apply elem_of_list_bind in Hx as (p' & Hx & Hp). apply elem_of_list_bind in Hx as (k' & Hx & Hk).
      apply elem_of_list_singleton in Hx as [= -> ->]. left. apply fw_through with i; [done..|]. left. by apply elem_of_elements.
    - destruct (gather_sound _ _ _ _ Ea Hx) as ([ka kb] & rx & Hin & Ex & Hy). apply Hl1 in Hin as (Ha & Hb & _).
      unfold fill_drive in Ex. destruct ka as [[[l o]|] f]; cbn [fst snd light_of] in Ex; [|injection Ex as <-; by apply elem_of_nil in Hy].
      destruct kb as [[[l' o']|] F]; cbn [signal_of] in Ex; [injection Ex as <-; by apply elem_of_nil in Hy|].
      destruct (reject _) eqn:Er; [injection Ex as <-; by apply elem_of_nil in Hy|]. destruct (last (pm2 i)) as [pl|] eqn:El; [|done].
      injection Ex as <-. assert (reject (moved l f F) = false) as Er' by (by destruct l).
      assert (forall p', p' ∈ pm2 i -> asks (seen u c) p' (opt l o (moved l f F))) as Gd.
      { intros p' Hp'. left. by apply (fw_drive _ _ _ _ _ _ _ _ _ i p' drv). }
      apply elem_of_cons in Hy as [E1|Hy].
      { right. right. exists i, l, o, f, F. repeat split; [done..|]. by left. }
      apply elem_of_cons in Hy as [E1|Hy].
      { right. right. exists i, l, o, f, F. repeat split; [done..|]. by right. }
      apply elem_of_app in Hy as [Hy|Hy].
      + apply elem_of_list_bind in Hy as (p' & Hy & Hp'). apply elem_of_cons in Hy as [[= -> ->]|Hy].
        * destruct l; by apply Gd.
        * apply elem_of_list_singleton in Hy as [= -> ->]. left. by apply fw_through with i.
      + apply elem_of_list_singleton in Hy as [= -> ->]. assert (pl ∈ pm2 i) as Hpl.
        { apply last_Some in El as [l0 El]. rewrite El. apply elem_of_app. right. left. }
        destruct l; by apply Gd.
    - apply elem_of_list_bind in Hx as ([ka kb] & Hx & Hin). apply Hl2 in Hin as (Ha & Hb & _). unfold fill_pair in Hx.
      destruct ka as [[[l o]|] f]; cbn [fst snd light_of] in Hx; [|by apply elem_of_nil in Hx].
      destruct kb as [[[l' o']|] F]; cbn [signal_of] in Hx; [by apply elem_of_nil in Hx|].
      destruct (reject _) eqn:Er; [by apply elem_of_nil in Hx|]. apply elem_of_list_singleton in Hx as [= -> ->]. left.
      pose proof (fw_pair qadd qneg reject [fri; bki] [fro; bko] pm2 (Some drv) (Some ba) (seen u c) i ba l o f F Hi eq_refl Ha Hb) as G.
      destruct l; by apply G.
    - apply elem_of_list_bind in Hx as ([ka kb] & Hx & Hin). apply Hls in Hin as (Ha & Hb). unfold fill_beat in Hx.
      destruct ka as [[[l o]|] f]; cbn [fst snd light_of] in Hx; [|by apply elem_of_nil in Hx].
      apply subset_opposite_ok in Hb as (Hb & g & ->). cbn [light_of opt] in Hx.
      destruct (reject _) eqn:Er; [by apply elem_of_nil in Hx|]. apply elem_of_list_singleton in Hx as [= -> ->]. left.
      assert (opt (negb l) o g ∈ u i \/ opt (negb l) o g ∈ c i) as Hb' by set_solver. destruct l.
      + apply (fw_beat _ _ _ _ _ _ _ _ _ i ba o f g); [done|done|by left|done|done].
      + apply (fw_beat _ _ _ _ _ _ _ _ _ i ba o g f); [done|done|done|by left|done].
    - apply elem_of_list_bind in Hx as ([ka kb] & Hx & Hin). apply Hlm in Hin. unfold fill_change in Hx.
      destruct ka as [[[l o]|] f]; cbn [fst snd light_of] in Hx; [|by apply elem_of_nil in Hx].
      destruct kb as [[[l' o']|] g]; cbn [fst snd light_of] in Hx; [|by apply elem_of_nil in Hx].
      destruct (Bool.eqb l l') eqn:El; cbn [negb] in Hx; [|by apply elem_of_nil in Hx]. apply Bool.eqb_prop in El as <-.
      destruct (reject _) eqn:Er; [by apply elem_of_nil in Hx|]. apply elem_of_list_singleton in Hx as [= -> ->]. left.
      rewrite (one o' o) in Hin.
      destruct Hin as [(Ha & Hb)|((q & Hq & Hb) & Ha)].
      + apply (subset_same_ok _ l o f) in Hb as (Hb & _). apply elem_union_fmap in Hb as (q & Hq & Hb).
        apply (fw_change _ _ _ _ _ _ _ _ _ i q drv l o f g); [done|done|done|by left|by apply elem_of_union|by destruct l].
      + apply (fw_change _ _ _ _ _ _ _ _ _ i q drv l o f g); [done|done|done|by right|by left|by destruct l].
  Qed.
  Lemma fill_out_sound u c t r p k : t ∈ [fro; bko] -> t <> ba ->
    fill_out qadd qneg reject u c pm2 (Some ba) t = Ok r -> (p, k) ∈ r -> asks (seen u c) p k.
  Proof.
    intros Ht Htb. unfold fill_out. destruct (symm_pairs u c t ba Htb) as (l2 & -> & Hl2). cbn [mbind res_bind]. intros [= <-] Hx.
    apply elem_of_list_bind in Hx as ([ka kb] & Hx & Hin). apply Hl2 in Hin as (Ha & Hb & _). unfold fill_back in Hx.
    destruct ka as [[[l o]|] f]; cbn [fst snd light_of] in Hx; [|by apply elem_of_nil in Hx].
    destruct kb as [[[l' o']|] F]; cbn [signal_of] in Hx; [by apply elem_of_nil in Hx|].
    destruct (reject _) eqn:Er; [by apply elem_of_nil in Hx|]. apply elem_of_list_bind in Hx as (p' & Hx & Hp').
    assert ((p, k) = (p', opt l o (moved (negb l) f F))) as [= -> ->].
    { apply elem_of_cons in Hx as [Hx|Hx%elem_of_list_singleton]; rewrite Hx; by destruct l. }
    left. apply (fw_back _ _ _ _ _ _ _ _ _ t p' ba l o f F); [done..|]. by destruct l.
  Qed.
  Lemma mod_incremental {E} `{Countable E} (S : sys E P K) (D : demand) e :
    rule S e = Some (as_rule (mod_ports qadd qneg reject fri fro bki bko drv ba)) ->
    (forall X p k, D e X p k <-> asks X p k) -> incremental S D e.
  Proof.
    intros Hr HD r Hr' t u c _. rewrite Hr in Hr'. injection Hr' as <-. unfold as_rule, mod_ports.
    destruct (nodup6 _ _ _ _ _ _ Hnd) as [Hne Hn4]. destruct_and! Hne.
    destruct (ports_fill_total qadd qneg reject u c [fri; bki] [fro; bko] pm2 (Some drv) (Some ba)) as [l El].
    { intros i Hi _. destruct (pmap2_ok _ _ _ _ Hn4) as (E1 & E2 & _). ind Hi; [by rewrite E1|by rewrite E2]. }
    rewrite El. cbn [mbind res_bind]. split.
    - intros p k Hx. apply HD. apply elem_of_app in Hx as [Hx|Hx].
      + apply elem_directs in Hx as (p0 & Hp0 & Hp & Hk). right. left. exists p0. repeat split; [done..|]. by left.
      + unfold ports_fill in El. destruct (gather _ [fri; bki]) as [a|] eqn:Ea; [|done]. cbn [mbind res_bind] in El.
        destruct (gather _ [fro; bko]) as [b|] eqn:Eb; [|done]. cbn [mbind res_bind] in El. injection El as <-.
        apply elem_of_app in Hx as [Hx|Hx].
        * destruct (gather_sound _ _ _ _ Ea Hx) as (i & ri & Hi & Ei & Hy). apply (fill_in_sound u c i ri); [done| | |done|done]; ind Hi; done.
        * destruct (gather_sound _ _ _ _ Eb Hx) as (i & ri & Hi & Ei & Hy). apply (fill_out_sound u c i ri); [done| |done|done]; ind Hi; done.
    - intros p k [HW|[(p0 & Hp0 & Hp & Hk)|(i & l0 & o & f & F & Hi & Hx & Hy & Hrej & Hpk)]]%HD.
      + eapply ports_fill_incr in HW; [|..|exact El].
        * destruct HW; [left; apply elem_of_app; by right|right; apply HD; by left].
        * intros i Hi. ind Hi; split; congruence.
        * intros i Hi. ind Hi; congruence.
      + destruct (decide (k ∈ u p0)).
        * left. apply elem_of_app. left. apply elem_directs. by exists p0.
        * right. apply HD. right. left. exists p0. repeat split; [done..| |done]. naive_solver.
      + destruct (fresh_or u c i drv _ _ Hx Hy) as [Hf|[? ?]].
        2: { right. apply HD. right. right. exists i, l0, o, f, F. done. }
        left. apply elem_of_app. right. unfold ports_fill in El. destruct (gather _ [fri; bki]) as [a|] eqn:Ea; [|done]. cbn [mbind res_bind] in El.
        destruct (gather _ [fro; bko]) as [b|] eqn:Eb; [|done]. cbn [mbind res_bind] in El. injection El as <-.
        apply elem_of_app. left. destruct (gather_inv _ _ _ Ea i Hi) as (ri & Ei & Gi). apply Gi. clear Gi.
        assert (i <> drv) as Hid by (ind Hi; done). unfold fill_in in Ei.
        destruct (symm_pairs u c i drv Hid) as (l1 & El1 & Hl1). rewrite El1 in Ei. cbn [mbind res_bind] in Ei.
        destruct (gather _ l1) as [a1|] eqn:Ea1; [|done]. cbn [mbind res_bind] in Ei.
        destruct (symmetric_update _ _ _ (Some (POne ba)) _ _) as [l2|]; [|done]. cbn [mbind res_bind] in Ei.
        destruct (symmetric_update _ _ _ _ (Some subset_opposite) _) as [l3|]; [|done]. cbn [mbind res_bind] in Ei.
        destruct (symmetric_update _ _ _ _ (Some subset_same) _) as [l4|]; [|done]. cbn [mbind res_bind] in Ei. injection Ei as <-.
        rewrite !elem_of_app. right. left. destruct (gather_inv _ _ _ Ea1 (opt l0 o f, cls F)) as (rx & Ex & Gx); [by apply Hl1|]. apply Gx.
        unfold fill_drive, qsub in Ex. cbn [fst snd light_of signal_of opt cls] in Ex. unfold FillSpec.moved in Hrej. rewrite Hrej in Ex.
        destruct (last (pm2 i)); [|done]. injection Ex as <-. destruct Hpk as [->| ->]; [left|right; left].
  Qed.
End one.

Section order.
  Context {E P A Q : Type} `{Countable E} `{Countable P} `{Countable A} `{Countable Q}.
  Context (qadd : Q -> Q -> Q) (qneg : Q -> Q) (reject : Q -> bool).
  Lemma mod_order (S : sys E P (key A Q)) (D : demand) init1 init2 popE1 popE2 popP1 popP2 f1 f2 s1 s2 :
    (forall o o' : A, o = o') -> sys_ok S -> demand_ok S D ->
    (forall e, exhaustive S D e \/ (incremental S D e /\ no_virtual_request S D e) \/
       exists fri fro bki bko drv ba, placed S e [fri; fro; bki; bko; drv; ba] (mod_ports qadd qneg reject fri fro bki bko drv ba) /\
         forall X p k, D e X p k <-> mod_asks qadd qneg reject fri fro bki bko drv ba X p k) ->
    pops popE1 -> pops popE2 -> pops popP1 -> pops popP2 -> (forall pk, pk ∈ init1 <-> pk ∈ init2) ->
    port_needs S popE1 popP1 f1 init1 = Ok s1 -> port_needs S popE2 popP2 f2 init2 = Ok s2 ->
    forall e p, sees S e p -> active S e -> cplgs s1 p = cplgs s2 p.
  Proof.
    intros one Hok HD Hrules HE1 HE2 HP1 HP2 Hinit R1 R2. refine (port_order_independent S D init1 init2 popE1 popE2 popP1 popP2 f1 f2 s1 s2 Hok HD _ HE1 HE2 HP1 HP2 Hinit R1 R2).
    intros e. destruct (Hrules e) as [?|[?|(fri & fro & bki & bko & drv & ba & Hpl & HDe)]]; [by left|by right|right].
    split.
    - eapply mod_incremental; [exact one|apply Hpl|apply Hpl|exact HDe].
    - intros X p k q _ _ Hin. apply (ok_vports _ Hok) in Hin. rewrite (pl_virtual _ _ _ _ Hpl) in Hin. by apply elem_of_nil in Hin.
  Qed.
End order.
