(** Runs of the port algorithm with these elements. *)
From stdpp Require Import base tactics numbers gmap fin_sets sets relations list.
From Coq Require Import Reals.
From Verif Require Import Fld Py Herm InjModel PortModel PortSpec PortProofs PortProps PdModel PdSpec PdProofs PdProofs2 PdFinal FillModel FillSpec FillProofs FillProofs2.
Local Open Scope fld_scope.

Section wants.
  Context {P A Q : Type} `{Countable P} `{Countable A} `{Countable Q}.
  Context (qadd : Q -> Q -> Q) (qneg : Q -> Q) (reject : Q -> bool).
  Notation K := (key A Q).
  Notation FW := (fill_wants (P := P) (A := A) qadd qneg reject).
  Lemma fw_mono ins outs pmap inp outp (X Y : P -> K -> Prop) p k :
    (forall q j, X q j -> Y q j) -> FW ins outs pmap inp outp X p k -> FW ins outs pmap inp outp Y p k.
  Proof.
    intros HXY W. destruct W; [eapply fw_through|eapply fw_drive|eapply fw_pair|eapply fw_beat|eapply fw_change|eapply fw_back]; eauto.
  Qed.
  Lemma fw_strict ins outs pmap inp outp (X : P -> K -> Prop) p k : FW ins outs pmap inp outp X p k -> exists q j, X q j.
  Proof. destruct 1; eauto. Qed.
  Lemma fw_local ins outs pmap inp outp (X Y : P -> K -> Prop) (ports : list P) p k :
    (forall i, i ∈ ins -> i ∈ ports) -> (forall i, i ∈ outs -> i ∈ ports) -> (forall i q, i ∈ ins -> q ∈ pmap i -> q ∈ ports) ->
    (forall q, inp = Some q -> q ∈ ports) -> (forall q, outp = Some q -> q ∈ ports) ->
    (forall q j, q ∈ ports -> X q j -> Y q j) -> FW ins outs pmap inp outp X p k -> FW ins outs pmap inp outp Y p k.
  Proof.
    intros H1' H2' H3' H4' H5' HXY W. destruct W; [eapply fw_through|eapply fw_drive|eapply fw_pair|eapply fw_beat|eapply fw_change|eapply fw_back]; eauto.
  Qed.
End wants.

Section run.
  Context {E P K : Type} `{Countable E} `{Countable P} `{Countable K}.
  Lemma run_closed (S : sys E P K) e (W : (P -> K -> Prop) -> P -> K -> Prop) (ports : list P) (m : (P -> gset K) -> (P -> gset K) -> res (list (P * K)))
      (init : list (P * K)) (popE : nat -> gset E -> E) (popP : nat -> gset P -> P) fuel s :
    sys_ok S -> (forall t X, X <> ∅ -> popE t X ∈ X) -> (forall t X, X <> ∅ -> popP t X ∈ X) ->
    rule S e = Some (fun _ u c => match m u c with Ok l => l | Err _ => [] end) ->
    (forall p, p ∈ ports -> owner S p = Some e) -> vports S e = [] ->
    (forall (X Y : P -> K -> Prop) p k, (forall q j, q ∈ ports -> X q j -> Y q j) -> W X p k -> W Y p k) ->
    (forall (X : P -> K -> Prop) p k, W X p k -> exists q j, X q j) ->
    port_needs S popE popP fuel init = Ok s ->
    (forall u c, (forall q j, q ∈ ports -> j ∈ u q \/ j ∈ c q -> j ∈ cplgs s q) -> exists l, m u c = Ok l /\
      forall p k, W (fun q j => j ∈ u q \/ j ∈ c q) p k -> (p, k) ∈ l \/ W (fun q j => j ∈ c q /\ j ∉ u q) p k) ->
    forall p k, p ∈ ports -> W (fun q j => j ∈ cplgs s q) p k -> k ∈ cplgs s p.
  Proof.
    intros Hok HE HP Hr Hown Hv Hmono Hstrict Hrun Hm p k Hp HW.
    assert (forall q, q ∈ ports -> sees S e q) as Hsee by (intros q Hq; left; by apply Hown).
    assert (active S e) as Hact by (unfold active; rewrite Hr; eauto).
    eapply (C31_complete S e W init popE popP fuel s Hok); [|done|done|done|done| |exact HW|reflexivity|].
    - split.
      + intros X Y p' k' HXY. apply Hmono. auto.
      + intros X p' k'. apply Hmono. intros q j Hq HX. split; [by apply Hsee|done].
      + apply Hstrict.
    - intros r Hr' t u c Hne Hz. rewrite Hr in Hr'. injection Hr' as <-. destruct (Hm u c) as (l & El & Hl).
      { intros q j Hq Hj. apply Hz; [by apply Hsee|done]. }
      rewrite El. split; [done|]. intros p' k' q _ _ Hin. apply (ok_vports _ Hok) in Hin. rewrite Hv in Hin. by apply elem_of_nil in Hin.
    - exists e. split; [by apply Hsee|done].
  Qed.
End run.

Ltac inl := repeat (first [apply elem_of_list_here | apply elem_of_list_further]).
Ltac ind H := repeat (apply elem_of_cons in H as [->|H]); [..|by apply elem_of_nil in H].
Lemma nodup6 {P} (a b c d x y : P) : NoDup [a; b; c; d; x; y] ->
  (a <> x /\ a <> y /\ b <> x /\ b <> y /\ c <> x /\ c <> y /\ d <> x /\ d <> y /\ x <> y) /\ NoDup [a; b; c; d].
Proof.
  rewrite !NoDup_cons, !not_elem_of_cons. intros. destruct_and!. repeat split; try done; try apply NoDup_nil_2; rewrite ?not_elem_of_cons; repeat split; try done; apply not_elem_of_nil.
Qed.

Section pmap2.
  Context {P : Type} `{Countable P} (fri fro bki bko : P).
  Lemma pmap2_ok : NoDup [fri; fro; bki; bko] ->
    pmap2 fri fro bki bko fri = [bko] /\ pmap2 fri fro bki bko bki = [fro] /\ pmap2 fri fro bki bko fro = [bki] /\ pmap2 fri fro bki bko bko = [fri].
  Proof.
    rewrite !NoDup_cons, !not_elem_of_cons. intros. destruct_and!.
    unfold pmap2. repeat split; repeat (destruct (decide _); [subst; try done; congruence|]); try done; repeat (destruct (decide _); try congruence).
  Qed.
  Lemma pmap2_in p q : q ∈ pmap2 fri fro bki bko p -> q ∈ [fri; fro; bki; bko].
  Proof. unfold pmap2. intros Hq. repeat destruct (decide _); ind Hq; inl. Qed.
End pmap2.

Section modulator.
  Context {E P A Q : Type} `{Countable E} `{Countable P} `{Countable A} `{Countable Q}.
  Context (qadd : Q -> Q -> Q) (qneg : Q -> Q) (q0 : Q) (Hz : Q -> R) (reject : Q -> bool) (HF : frequencies qadd qneg q0 Hz).
  Notation K := (key A Q).
  Context (S : sys E P K) (e : E) (fri fro bki bko : P).
  Notation pm2 := (pmap2 fri fro bki bko).
  Notation four := [fri; fro; bki; bko].
  Context (init : list (P * K)) (popE : nat -> gset E -> E) (popP : nat -> gset P -> P) (fuel : nat) (s : st E P K).
  Context (HE : pops popE) (HP : pops popP) (Hrun : port_needs S popE popP fuel init = Ok s).
  Notation FW := (fill_wants (P := P) (A := A) qadd qneg reject).
  Definition direct_wants (ports : list P) (X : P -> K -> Prop) (p : P) (k : K) : Prop := exists p0, p0 ∈ ports /\ p ∈ pm2 p0 /\ X p0 k.
  Lemma elem_directs (u : P -> gset K) ports p k : (p, k) ∈ directs u pm2 ports <-> direct_wants ports (fun q j => j ∈ u q) p k.
  Proof.
    unfold directs, direct_wants. rewrite elem_of_list_bind. split.
    - intros (p0 & Hx & Hp0). apply elem_of_list_bind in Hx as (k' & Hx & Hk). apply elem_of_list_bind in Hx as (p' & Hx & Hp').
      apply elem_of_list_singleton in Hx. injection Hx as -> ->. apply elem_of_elements in Hk. eauto.
    - intros (p0 & Hp0 & Hp & Hk). exists p0. split; [|done]. apply elem_of_list_bind. exists k. split; [|by apply elem_of_elements].
      apply elem_of_list_bind. exists p. split; [left|done].
  Qed.
  Lemma direct_incr (u c : P -> gset K) ports p k : direct_wants ports (fun q j => j ∈ u q \/ j ∈ c q) p k ->
    (p, k) ∈ directs u pm2 ports \/ direct_wants ports (fun q j => j ∈ c q /\ j ∉ u q) p k.
  Proof.
    intros (p0 & Hp0 & Hp & Hk). destruct (decide (k ∈ u p0)); [left; apply elem_directs|right]; exists p0; naive_solver.
  Qed.

  Lemma mod_closed drv ba : placed S e [fri; fro; bki; bko; drv; ba] (mod_ports qadd qneg reject fri fro bki bko drv ba) ->
    forall p k, p ∈ [fri; fro; bki; bko; drv; ba] ->
    FW [fri; bki] [fro; bko] pm2 (Some drv) (Some ba) (fun q j => j ∈ cplgs s q) p k \/ direct_wants four (fun q j => j ∈ cplgs s q) p k ->
    k ∈ cplgs s p.
  Proof.
    intros [Hok Hr Hown Hv Hnd] p k Hp HW.
    refine (run_closed S e (fun X p k => FW [fri; bki] [fro; bko] pm2 (Some drv) (Some ba) X p k \/ direct_wants four X p k)
      _ _ init popE popP fuel s Hok HE HP Hr Hown Hv _ _ Hrun _ p k Hp HW).
    - intros X Y p' k' HXY [HW'|(p0 & Hp0 & Hp' & HX)].
      + left. eapply (fw_local _ _ _ _ _ _ _ _ X Y [fri; fro; bki; bko; drv; ba]); [| | | | |exact HXY|exact HW'].
        * intros i Hi. ind Hi; inl.
        * intros i Hi. ind Hi; inl.
        * intros i q _ Hq%pmap2_in. ind Hq; inl.
        * intros q [= <-]. inl.
        * intros q [= <-]. inl.
      + right. exists p0. repeat split; [done..|]. apply HXY; [|done]. ind Hp0; inl.
    - intros X p' k' [HW'|(p0 & Hp0 & Hp' & HX)]; [by eapply fw_strict|eauto].
    - intros u c _. unfold mod_ports. destruct (nodup6 _ _ _ _ _ _ Hnd) as [Hne Hn4]. destruct_and! Hne.
      destruct (ports_fill_total qadd qneg reject u c [fri; bki] [fro; bko] pm2 (Some drv) (Some ba)) as [r Er].
      { intros i Hi _.
        destruct (pmap2_ok _ _ _ _ Hn4) as (E1 & E2 & _).
        apply elem_of_cons in Hi as [->|Hi%elem_of_list_singleton]; [by rewrite E1|subst; by rewrite E2]. }
      rewrite Er. cbn [mbind res_bind]. eexists. split; [reflexivity|]. intros p' k' [HW'|HW'].
      + eapply ports_fill_incr in HW'; [|..|exact Er].
        * rewrite elem_of_app. destruct HW'; [tauto|right; tauto].
        * intros i Hi. ind Hi; split; congruence.
        * intros i Hi. ind Hi; congruence.
      + apply direct_incr in HW'. rewrite elem_of_app. destruct HW'; [tauto|right; tauto].
  Qed.
  Notation C := (cplgs s).
  (** the two ways through *)
  Definition way (i t : P) : Prop := (i = fri /\ t = bko) \/ (i = bki /\ t = fro).
  Lemma mod_keys drv ba i0 i t : placed S e [fri; fro; bki; bko; drv; ba] (mod_ports qadd qneg reject fri fro bki bko drv ba) ->
    bounded qneg q0 reject C [fri; fro; bki; bko; drv; ba] -> i0 ∈ [fri; bki] -> carrier_at q0 C i0 -> way i t ->
    both (modes (C i)) (lights (C i)) /\ signal_keys qneg (signals (C drv)) /\ signal_keys qneg (signals (C ba)) /\
    (forall c r, (pm qadd qneg reject i t drv ba (lights (C i)) (signals (C drv)) (signals (C ba)) c = Ok r \/
       am qadd qneg reject i t drv ba (lights (C i)) (signals (C drv)) (signals (C ba)) c = Ok r) -> known C r).
  Proof.
    intros Hpl HB Hi0 Hcar Hway. pose proof (mod_closed drv ba Hpl) as HC.
    destruct (nodup6 _ _ _ _ _ _ (pl_nodup _ _ _ _ Hpl)) as [_ Hn4]. destruct (pmap2_ok _ _ _ _ Hn4) as (E1 & E2 & E3 & E4).
    set (ports := [fri; fro; bki; bko; drv; ba]) in *.
    assert (forall p k, p ∈ ports -> FW [fri; bki] [fro; bko] pm2 (Some drv) (Some ba) (fun q j => j ∈ C q) p k -> k ∈ C p) as HC1.
    { intros p k Hp HW. apply HC; [done|by left]. }
    assert (forall i, i ∈ [fri; bki] -> i ∈ ports) as Hins by (intros j Hj; ind Hj; unfold ports; inl).
    assert (i ∈ [fri; bki]) as Hi by (destruct Hway as [[-> _]|[-> _]]; inl).
    assert (t ∈ pm2 i) as Ht by (destruct Hway as [[-> ->]|[-> ->]]; rewrite ?E1, ?E2; inl).
    assert (t ∈ ports) as Htp by (destruct Hway as [[_ ->]|[_ ->]]; unfold ports; inl).
    assert (drv ∈ ports) as Hdp by (unfold ports; inl). assert (ba ∈ ports) as Hbp by (unfold ports; inl).
    assert (cls q0 ∈ C ba) as H0'.
    { destruct Hcar as (o & Hl & Hr). by eapply (out_0 qadd qneg q0 Hz reject HF _ _ _ _ _ C ports HB HC1 ba eq_refl Hbp i0 o q0). }
    assert (forall F, cls F ∈ C ba -> cls (qneg F) ∈ C ba) as Hba.
    { intros F. by apply (out_neg qadd qneg q0 Hz reject HF _ _ _ _ _ C ports HB HC1 Hins ba eq_refl Hbp i0). }
    assert (forall F, cls F ∈ C drv -> cls (qneg F) ∈ C drv) as Hdrv.
    { intros F. destruct Hcar as (o & Hl & Hr). assert (exists t0, t0 ∈ pm2 i0 /\ t0 ∈ ports /\ forall k, k ∈ C t0 -> k ∈ C i0) as (t0 & Ht0 & Htp0 & Hback).
      { ind Hi0; [exists bko; rewrite E1|exists fro; rewrite E2]; (split; [inl|split; [unfold ports; inl|]]); intros k Hk;
          (apply HC; [unfold ports; inl|right; eexists; split; [|split; [|exact Hk]]; rewrite ?E3, ?E4; inl]). }
      by apply (drive_neg qadd qneg q0 Hz reject HF _ _ _ _ _ C ports HB HC1 drv eq_refl Hdp i0 t0 o). }
    split; [|split; [|split]].
    - apply both_keys. intros o f. by apply (out_both_iff qadd qneg q0 Hz reject HF _ _ _ _ _ C ports HB HC1 Hins ba eq_refl).
    - split; [apply nodup_signals|]. intros F. rewrite !elem_signals. apply Hdrv.
    - split; [apply nodup_signals|]. intros F. rewrite !elem_signals. apply Hba.
    - assert (forall Std StdC CL CLC BA BAC r, each (fun k => modulations_fill qadd qneg reject i k (Some t) (Some (drv, signals (C drv))) (Some (ba, signals (C ba))) Std StdC CL CLC BA BAC true) (lights (C i)) = Ok r -> known C r) as G.
      { intros Std StdC CL CLC BA BAC r. apply each_known. intros [[l o] f] a Hk Ea. apply elem_lights in Hk.
        eapply fill_known; [..|exact Ea].
        - intros p q lks F [= <-] [= <- <-]. rewrite !elem_signals. intros HFd HNd.
          by apply (drive_known qadd qneg q0 Hz reject HF _ _ _ _ _ C ports HC1 drv eq_refl).
        - intros p [= <-]. split; [done|]. apply HC1; [done|]. by eapply fw_through.
        - intros q lks F [= <- <-]. rewrite !elem_signals. intros HFd HNd.
          by apply (out_known qadd qneg q0 Hz reject HF _ _ _ _ _ C ports HB HC1 Hins ba eq_refl). }
      intros c r [Er|Er]; by eapply G.
  Qed.

  Lemma ampm_closed dA dP : placed S e [fri; fro; bki; bko; dA; dP] (ampm_ports qadd qneg reject fri fro bki bko dA dP) ->
    forall p k, p ∈ [fri; fro; bki; bko; dA; dP] ->
    FW [fri; bki] [fro; bko] pm2 (Some dA) None (fun q j => j ∈ cplgs s q) p k \/ FW [fri; bki] [fro; bko] pm2 (Some dP) None (fun q j => j ∈ cplgs s q) p k \/
      direct_wants four (fun q j => j ∈ cplgs s q) p k ->
    k ∈ cplgs s p.
  Proof.
    intros [Hok Hr Hown Hv Hnd] p k Hp HW.
    refine (run_closed S e (fun X p k => FW [fri; bki] [fro; bko] pm2 (Some dA) None X p k \/ FW [fri; bki] [fro; bko] pm2 (Some dP) None X p k \/ direct_wants four X p k)
      _ _ init popE popP fuel s Hok HE HP Hr Hown Hv _ _ Hrun _ p k Hp HW).
    - intros X Y p' k' HXY HW'.
      assert (forall d, d ∈ [dA; dP] -> FW [fri; bki] [fro; bko] pm2 (Some d) None X p' k' -> FW [fri; bki] [fro; bko] pm2 (Some d) None Y p' k') as G.
      { intros d Hd HW1. eapply (fw_local _ _ _ _ _ _ _ _ X Y [fri; fro; bki; bko; dA; dP]); [| | | | |exact HXY|exact HW1].
        * intros i Hi. ind Hi; inl.
        * intros i Hi. ind Hi; inl.
        * intros i q _ Hq%pmap2_in. ind Hq; inl.
        * intros q [= <-]. ind Hd; inl.
        * done. }
      destruct HW' as [HW'|[HW'|(p0 & Hp0 & Hp' & HX)]]; [left; apply G; [inl|done]|right; left; apply G; [inl|done]|right; right].
      exists p0. repeat split; [done..|]. apply HXY; [|done]. ind Hp0; inl.
    - intros X p' k' [HW'|[HW'|(p0 & Hp0 & Hp' & HX)]]; [by eapply fw_strict|by eapply fw_strict|eauto].
    - intros u c _. unfold ampm_ports. destruct (nodup6 _ _ _ _ _ _ Hnd) as [Hne Hn4]. destruct_and! Hne.
      assert (forall i, i ∈ [fri; bki] -> pm2 i <> []) as Hpm.
      { intros i Hi. destruct (pmap2_ok _ _ _ _ Hn4) as (E1 & E2 & _). ind Hi; [by rewrite E1|by rewrite E2]. }
      destruct (ports_fill_total qadd qneg reject u c [fri; bki] [fro; bko] pm2 (Some dA) None) as [r Er]; [by intros; apply Hpm|].
      destruct (ports_fill_total qadd qneg reject u c [fri; bki] [fro; bko] pm2 (Some dP) None) as [r' Er']; [by intros; apply Hpm|].
      rewrite Er, Er'. cbn [mbind res_bind]. eexists. split; [reflexivity|]. intros p' k' [HW'|[HW'|HW']].
      + eapply ports_fill_incr in HW'; [|..|exact Er].
        * rewrite !elem_of_app. destruct HW'; [tauto|right; tauto].
        * intros i Hi. ind Hi; split; congruence.
        * done.
      + eapply ports_fill_incr in HW'; [|..|exact Er'].
        * rewrite !elem_of_app. destruct HW'; [tauto|right; tauto].
        * intros i Hi. ind Hi; split; congruence.
        * done.
      + apply direct_incr in HW'. rewrite !elem_of_app. destruct HW'; [tauto|right; tauto].
  Qed.
  Lemma ampm_keys dA dP i0 i t o0 : placed S e [fri; fro; bki; bko; dA; dP] (ampm_ports qadd qneg reject fri fro bki bko dA dP) ->
    bounded qneg q0 reject C [fri; fro; bki; bko; dA; dP] -> i0 ∈ [fri; bki] -> opt true o0 q0 ∈ C i0 -> way i t ->
    signal_keys qneg (signals (C dA)) /\ signal_keys qneg (signals (C dP)) /\
    (forall c r, ampm qadd qneg reject i t dA dP (lights (C i)) (signals (C dA)) (signals (C dP)) c = Ok r -> known C r).
  Proof.
    intros Hpl HB Hi0 Hcar Hway. pose proof (ampm_closed dA dP Hpl) as HC.
    destruct (nodup6 _ _ _ _ _ _ (pl_nodup _ _ _ _ Hpl)) as [_ Hn4]. destruct (pmap2_ok _ _ _ _ Hn4) as (E1 & E2 & E3 & E4).
    set (ports := [fri; fro; bki; bko; dA; dP]) in *.
    assert (forall d p k, d ∈ [dA; dP] -> p ∈ ports -> FW [fri; bki] [fro; bko] pm2 (Some d) None (fun q j => j ∈ C q) p k -> k ∈ C p) as HC1.
    { intros d p k Hd Hp HW. apply HC; [done|]. ind Hd; [by left|by right; left]. }
    assert (i ∈ [fri; bki]) as Hi by (destruct Hway as [[-> _]|[-> _]]; inl).
    assert (t ∈ pm2 i) as Ht by (destruct Hway as [[-> ->]|[-> ->]]; rewrite ?E1, ?E2; inl).
    assert (t ∈ ports) as Htp by (destruct Hway as [[_ ->]|[_ ->]]; unfold ports; inl).
    assert (forall d, d ∈ [dA; dP] -> d ∈ ports) as Hdp by (intros d Hd; ind Hd; unfold ports; inl).
    assert (forall d F, d ∈ [dA; dP] -> cls F ∈ C d -> cls (qneg F) ∈ C d) as Hdrv.
    { intros d F Hd. assert (exists t0, t0 ∈ pm2 i0 /\ t0 ∈ ports /\ forall k, k ∈ C t0 -> k ∈ C i0) as (t0 & Ht0 & Htp0 & Hback).
      { ind Hi0; [exists bko; rewrite E1|exists fro; rewrite E2]; (split; [inl|split; [unfold ports; inl|]]); intros k Hk;
          (apply HC; [unfold ports; inl|right; right; eexists; split; [|split; [|exact Hk]]; rewrite ?E3, ?E4; inl]). }
      by apply (drive_neg qadd qneg q0 Hz reject HF _ _ _ _ _ C ports HB (fun p k => HC1 d p k Hd) d eq_refl (Hdp d Hd) i0 t0 o0). }
    split; [|split].
    - split; [apply nodup_signals|]. intros F. rewrite !elem_signals. apply Hdrv. inl.
    - split; [apply nodup_signals|]. intros F. rewrite !elem_signals. apply Hdrv. inl.
    - assert (forall d l o f Std StdC CL CLC BA BAC thr r, d ∈ [dA; dP] -> opt l o f ∈ C i ->
        modulations_fill qadd qneg reject i (l, o, f) (Some t) (Some (d, signals (C d))) None Std StdC CL CLC BA BAC thr = Ok r -> known C r) as G.
      { intros d l o f Std StdC CL CLC BA BAC thr r Hd Hk Ea.
        eapply fill_known; [..|exact Ea].
        - intros p q lks F [= <-] [= <- <-]. rewrite !elem_signals. intros HFd HNd.
          by apply (drive_known qadd qneg q0 Hz reject HF _ _ _ _ _ C ports (fun p k => HC1 d p k Hd) d eq_refl).
        - intros p [= <-]. split; [done|]. apply (HC1 dA); [inl|done|]. by eapply fw_through.
        - done. }
      intros c r. unfold ampm. apply each_known. intros [[l o] f] a Hk Ea. apply elem_lights in Hk.
      destruct (modulations_fill _ _ _ _ _ _ (Some (dP, _)) _ _ _ _ _ _ _ _) as [a1|] eqn:Ea1; [|done]. cbn [mbind res_bind] in Ea.
      destruct (modulations_fill _ _ _ _ _ _ (Some (dA, _)) _ _ _ _ _ _ _ _) as [a2|] eqn:Ea2; [|done]. cbn [mbind res_bind] in Ea.
      injection Ea as <-. apply known_app; [eapply (G dP); [inl|done|exact Ea1]|eapply (G dA); [inl|done|exact Ea2]].
  Qed.

  Lemma magic_closed wpd : placed S e [fri; fro; bki; bko; wpd] (magic_pd_ports qadd qneg reject fri fro bki bko wpd) ->
    forall p k, p ∈ [fri; fro; bki; bko; wpd] ->
    FW [fri] [bko] pm2 None (Some wpd) (fun q j => j ∈ cplgs s q) p k \/ direct_wants [bki; bko] (fun q j => j ∈ cplgs s q) p k ->
    k ∈ cplgs s p.
  Proof.
    intros [Hok Hr Hown Hv Hnd] p k Hp HW.
    refine (run_closed S e (fun X p k => FW [fri] [bko] pm2 None (Some wpd) X p k \/ direct_wants [bki; bko] X p k)
      _ (magic_pd_ports qadd qneg reject fri fro bki bko wpd) init popE popP fuel s Hok HE HP Hr Hown Hv _ _ Hrun _ p k Hp HW).
    - intros X Y p' k' HXY [HW'|(p0 & Hp0 & Hp' & HX)].
      + left. eapply (fw_local _ _ _ _ _ _ _ _ X Y [fri; fro; bki; bko; wpd]); [| | | | |exact HXY|exact HW'].
        * intros i Hi. ind Hi; inl.
        * intros i Hi. ind Hi; inl.
        * intros i q _ Hq%pmap2_in. ind Hq; inl.
        * done.
        * intros q [= <-]. inl.
      + right. exists p0. repeat split; [done..|]. apply HXY; [|done]. ind Hp0; inl.
    - intros X p' k' [HW'|(p0 & Hp0 & Hp' & HX)]; [by eapply fw_strict|eauto].
    - intros u c _. unfold magic_pd_ports. rewrite !NoDup_cons, !not_elem_of_cons in Hnd. destruct_and! Hnd.
      destruct (ports_fill_total qadd qneg reject u c [fri] [bko] pm2 None (Some wpd)) as [r Er]; [done|].
      rewrite Er. cbn [mbind res_bind]. eexists. split; [reflexivity|]. intros p' k' [HW'|HW'].
      + eapply ports_fill_incr in HW'; [|..|exact Er].
        * rewrite elem_of_app. destruct HW'; [tauto|right; tauto].
        * intros i Hi. ind Hi; split; congruence.
        * intros i Hi. ind Hi; congruence.
      + apply direct_incr in HW'. rewrite elem_of_app. destruct HW'; [tauto|right; tauto].
  Qed.
  Lemma nodup5 (w : P) : NoDup [fri; fro; bki; bko; w] -> NoDup four.
  Proof.
    rewrite !NoDup_cons, !not_elem_of_cons. intros. destruct_and!. repeat split; try done; try apply NoDup_nil_2; apply not_elem_of_nil.
  Qed.
  Lemma magic_keys wpd : placed S e [fri; fro; bki; bko; wpd] (magic_pd_ports qadd qneg reject fri fro bki bko wpd) ->
    bounded qneg q0 reject C [fri; fro; bki; bko; wpd] -> carrier_at q0 C fri ->
    both (modes (C fri)) (lights (C fri)) /\ signal_keys qneg (signals (C wpd)) /\ q0 ∈ signals (C wpd) /\
    (forall o f g, (o, f) ∈ modes (C fri) -> (o, g) ∈ modes (C fri) -> reject (qadd g (qneg f)) = false -> qadd g (qneg f) ∈ signals (C wpd)) /\
    (forall r, magic_pd qadd qneg reject fri fro bki bko wpd (lights (C fri)) (lights (C bki)) (signals (C wpd)) = Ok r -> known C r).
  Proof.
    intros Hpl HB Hcar. pose proof (magic_closed wpd Hpl) as HC.
    pose proof (nodup5 _ (pl_nodup _ _ _ _ Hpl)) as Hn4. destruct (pmap2_ok _ _ _ _ Hn4) as (E1 & E2 & E3 & E4).
    set (ports := [fri; fro; bki; bko; wpd]) in *.
    assert (forall p k, p ∈ ports -> FW [fri] [bko] pm2 None (Some wpd) (fun q j => j ∈ C q) p k -> k ∈ C p) as HC1.
    { intros p k Hp HW. apply HC; [done|by left]. }
    assert (forall i, i ∈ [fri] -> i ∈ ports) as Hins by (intros j Hj; ind Hj; unfold ports; inl).
    assert (fri ∈ [fri]) as Hi by inl.
    assert (wpd ∈ ports) as Hbp by (unfold ports; inl).
    assert (cls q0 ∈ C wpd) as H0'.
    { destruct Hcar as (o & Hl & Hr). by eapply (out_0 qadd qneg q0 Hz reject HF _ _ _ _ _ C ports HB HC1 wpd eq_refl Hbp fri o q0). }
    assert (forall o f, opt true o f ∈ C fri <-> opt false o f ∈ C fri) as Hboth.
    { intros o f. by apply (out_both_iff qadd qneg q0 Hz reject HF _ _ _ _ _ C ports HB HC1 Hins wpd eq_refl). }
    split; [|split; [|split; [|split]]].
    - by apply both_keys.
    - split; [apply nodup_signals|]. intros F. rewrite !elem_signals.
      by apply (out_neg qadd qneg q0 Hz reject HF _ _ _ _ _ C ports HB HC1 Hins wpd eq_refl Hbp fri).
    - by apply elem_signals.
    - intros o f g Hf%elem_modes Hg%elem_modes Hr. apply elem_signals, HC1; [done|]. apply (fw_beat _ _ _ _ _ _ _ _ _ fri wpd o g f); [done..| |done].
      apply (proj1 (Hboth o f)), Hf.
    - intros r. unfold magic_pd. destruct (each _ _) as [a|] eqn:Ea; [|done]. cbn [mbind res_bind]. intros [= <-]. apply known_app.
      + eapply each_known; [|exact Ea]. intros [[l o] f] b Hk Eb. apply elem_lights in Hk. eapply fill_known; [..|exact Eb].
        * done.
        * intros p [= <-]. split; [done|]. apply HC1; [unfold ports; inl|]. apply fw_through with fri; [done|rewrite E1; inl|done].
        * intros q lks F [= <- <-]. rewrite !elem_signals. intros HFd HNd.
          by apply (out_known qadd qneg q0 Hz reject HF _ _ _ _ _ C ports HB HC1 Hins wpd eq_refl).
      + intros j Hj n Hn. apply elem_of_list_fmap in Hj as ([[l o] f] & -> & Hk). apply elem_lights in Hk. cbn [inj_edges] in Hn.
        apply elem_of_list_singleton in Hn as ->. cbn [fst snd]. split; [done|]. apply HC; [unfold ports; inl|]. right. exists bki.
        split; [inl|]. split; [rewrite E2; inl|done].
  Qed.
End modulator.
