(** Photodiodes, and the order of events. *)
From stdpp Require Import base tactics numbers gmap fin_sets sets relations list.
From Coq Require Import Reals.
From Verif Require Import Fld Py Herm InjModel PortModel PortSpec PortProofs PdModel PdSpec PdProofs PdProofs2 FillModel FillSpec FillProofs FillProofs2 FillProofs3.
Local Open Scope fld_scope.

Section pd.
  Context {E P A Q : Type} `{Countable E} `{Countable P} `{Countable A} `{Countable Q}.
  Context (qadd : Q -> Q -> Q) (qneg : Q -> Q) (q0 : Q) (Hz : Q -> R) (reject : Q -> bool).
  Notation K := (key A Q).
  Notation moved := (moved qadd qneg).
  Notation FW := (fill_wants (P := P) (A := A) qadd qneg reject).
  Context (fr ba wpd : P).
  Implicit Types (u c : P -> gset K).

  Lemma pd_drive (i q : P) (x : K * K) : fill_drive qadd qneg reject [] i q x = Ok [] \/
    (fill_drive qadd qneg reject [] i q x = Err UnboundLocalError /\ exists l (o : A) (f F : Q), x = (opt l o f, cls F) /\ reject (moved l f F) = false).
  Proof.
    unfold fill_drive. destruct x as [[[[l o]|] f] [[[l' o']|] F]]; cbn [fst snd light_of signal_of]; try by left.
    fold (qsub qadd qneg f F). destruct (reject _) eqn:Er; [by left|]. right. split; [done|]. exists l, o, f, F. split; [done|]. exact Er.
  Qed.
  Definition undriven u c : Prop := forall l (o : A) (f F : Q), fresh u c fr ba (opt l o f) (cls F) -> reject (moved l f F) = true.
  Lemma pd_ports_ok u c : fr <> ba -> undriven u c -> exists r, pd_ports qadd qneg reject fr ba wpd u c = Ok r.
  Proof.
    intros Hne Hu. unfold pd_ports, ports_fill. cbn [gather]. unfold fill_in.
    destruct (symm_pairs u c fr ba Hne) as (l & -> & Hl). cbn [mbind res_bind].
    destruct (gather_ok (fill_drive qadd qneg reject [] fr ba) l) as (a & -> & _).
    { intros [a b] Hx. destruct (pd_drive fr ba (a, b)) as [E1|[_ (l' & o & f & F & [= -> ->] & Hr)]]; [eauto|].
      apply Hl in Hx. rewrite (Hu _ _ _ _ Hx) in Hr. done. }
    cbn [symmetric_update psel_get mbind res_bind]. eauto.
  Qed.
  Lemma pd_ports_err u c l (o : A) (f F : Q) : fr <> ba -> fresh u c fr ba (opt l o f) (cls F) -> reject (moved l f F) = false ->
    pd_ports qadd qneg reject fr ba wpd u c = Err UnboundLocalError.
  Proof.
    intros Hne Hf Hr. unfold pd_ports, ports_fill. cbn [gather]. unfold fill_in.
    destruct (symm_pairs u c fr ba Hne) as (lp & -> & Hl). cbn [mbind res_bind].
    rewrite (gather_err (fill_drive qadd qneg reject [] fr ba) lp UnboundLocalError); [done| |].
    - intros x _. destruct (pd_drive fr ba x) as [E1|[E1 _]]; [left; eauto|by right].
    - exists (opt l o f, cls F). split; [by apply Hl|]. unfold fill_drive. cbn [fst snd light_of signal_of opt cls].
      unfold FillSpec.moved in Hr. unfold qsub. by rewrite Hr.
  Qed.
  Lemma pd_driven u c : fr <> ba ->
    (pd_ports qadd qneg reject fr ba wpd u c = Err UnboundLocalError <->
     exists l o f F, (opt l o f ∈ u fr \/ opt l o f ∈ c fr) /\ (cls F ∈ u ba \/ cls F ∈ c ba) /\ (opt l o f ∈ u fr \/ cls F ∈ u ba) /\
       reject (moved l f F) = false) /\
    (pd_ports qadd qneg reject fr ba wpd u c <> Err UnboundLocalError -> exists r, pd_ports qadd qneg reject fr ba wpd u c = Ok r).
  Proof.
    intros Hne.
    set (bad := fun kk : K * K => match fill_drive qadd qneg reject [] fr ba kk with Err _ => true | Ok _ => false end).
    destruct (symm_pairs u c fr ba Hne) as (lp & Elp & Hlp).
    destruct (existsb bad lp) eqn:Eb.
    - apply existsb_exists in Eb as ([a b] & Hin%elem_of_list_In & Hb). unfold bad in Hb.
      destruct (pd_drive fr ba (a, b)) as [E1|[E1 (l & o & f & F & [= -> ->] & Hr)]]; [by rewrite E1 in Hb|].
      apply Hlp in Hin. pose proof (pd_ports_err u c l o f F Hne Hin Hr) as E2. split; [|by intros []]. split; [|done]. intros _.
      destruct Hin as (? & ? & ?). by exists l, o, f, F.
    - assert (undriven u c) as Hu.
      { intros l o f F Hf. destruct (reject (moved l f F)) eqn:Hr; [done|]. apply Hlp in Hf.
        rewrite <- not_true_iff_false in Eb. destruct Eb. apply existsb_exists. eexists. split; [by apply elem_of_list_In|].
        unfold bad, fill_drive. cbn [fst snd light_of signal_of opt cls]. unfold FillSpec.moved in Hr. unfold qsub. by rewrite Hr. }
      destruct (pd_ports_ok u c Hne Hu) as [r Er]. split; [|eauto]. rewrite Er. split; [done|].
      intros (l & o & f & F & H1' & H2' & H3' & Hr). rewrite (Hu l o f F) in Hr; [done|]. by split.
  Qed.

  Context (HF : frequencies qadd qneg q0 Hz).
  Context (S : sys E P K) (e : E).
  Context (init : list (P * K)) (popE : nat -> gset E -> E) (popP : nat -> gset P -> P) (fuel : nat) (s : st E P K).
  Context (HE : pops popE) (HP : pops popP) (Hrun : port_needs S popE popP fuel init = Ok s).
  Notation C := (cplgs s).
  Lemma pd_closed : placed S e [fr; ba; wpd] (pd_ports qadd qneg reject fr ba wpd) -> C ba = ∅ ->
    forall p k, p ∈ [fr; ba; wpd] -> FW [fr] [] (fun _ => []) (Some ba) (Some wpd) (fun q j => j ∈ C q) p k -> k ∈ C p.
  Proof.
    intros [Hok Hr Hown Hv Hnd] Hba p k Hp HW.
    refine (run_closed S e (fun X p k => FW [fr] [] (fun _ => []) (Some ba) (Some wpd) X p k)
      _ (pd_ports qadd qneg reject fr ba wpd) init popE popP fuel s Hok HE HP Hr Hown Hv _ _ Hrun _ p k Hp HW).
    - intros X Y p' k' HXY HW'. eapply (fw_local _ _ _ _ _ _ _ _ X Y [fr; ba; wpd]); [| | | | |exact HXY|exact HW'].
      + intros i Hi. ind Hi; inl.
      + intros i Hi. by apply elem_of_nil in Hi.
      + intros i q _ Hq. by apply elem_of_nil in Hq.
      + intros q [= <-]. inl.
      + intros q [= <-]. inl.
    - intros X p' k' HW'. by eapply fw_strict.
    - intros u c Hin. rewrite !NoDup_cons, !not_elem_of_cons in Hnd. destruct_and! Hnd.
      destruct (pd_ports_ok u c) as [r Er]; [done| |].
      { intros l o f F (_ & HFb & _). apply Hin in HFb; [|inl]. rewrite Hba in HFb. by apply elem_of_empty in HFb. }
      exists r. split; [done|]. intros p' k' HW'. eapply ports_fill_incr in HW'; [exact HW'|..|exact Er].
      + intros i Hi. ind Hi; split; congruence.
      + intros i Hi. by apply elem_of_nil in Hi.
  Qed.
  Lemma pd_keys : placed S e [fr; ba; wpd] (pd_ports qadd qneg reject fr ba wpd) -> C ba = ∅ ->
    bounded qneg q0 reject C [fr; ba; wpd] -> carrier_at q0 C fr ->
    both (modes (C fr)) (lights (C fr)) /\ signal_keys qneg (signals (C wpd)) /\ q0 ∈ signals (C wpd) /\
    (forall o f g, (o, f) ∈ modes (C fr) -> (o, g) ∈ modes (C fr) -> reject (qadd g (qneg f)) = false -> qadd g (qneg f) ∈ signals (C wpd)) /\
    (forall r, pd qadd qneg reject fr wpd ba (lights (C fr)) (signals (C wpd)) (signals (C ba)) = Ok r -> known C r).
  Proof.
    intros Hpl Hba HB Hcar. pose proof (pd_closed Hpl Hba) as HC1.
    set (ports := [fr; ba; wpd]) in *.
    assert (forall i, i ∈ [fr] -> i ∈ ports) as Hins by (intros j Hj; ind Hj; unfold ports; inl).
    assert (fr ∈ [fr]) as Hi by inl.
    assert (wpd ∈ ports) as Hbp by (unfold ports; inl).
    assert (cls q0 ∈ C wpd) as H0'.
    { destruct Hcar as (o & Hl & Hr). by eapply (out_0 qadd qneg q0 Hz reject HF _ _ _ _ _ C ports HB HC1 wpd eq_refl Hbp fr o q0). }
    assert (forall o f, opt true o f ∈ C fr <-> opt false o f ∈ C fr) as Hboth.
    { intros o f. by apply (out_both_iff qadd qneg q0 Hz reject HF _ _ _ _ _ C ports HB HC1 Hins wpd eq_refl). }
    split; [|split; [|split; [|split]]].
    - by apply both_keys.
    - split; [apply nodup_signals|]. intros F. rewrite !elem_signals.
      by apply (out_neg qadd qneg q0 Hz reject HF _ _ _ _ _ C ports HB HC1 Hins wpd eq_refl Hbp fr).
    - by apply elem_signals.
    - intros o f g Hf%elem_modes Hg%elem_modes Hr. apply elem_signals, HC1; [done|]. apply (fw_beat _ _ _ _ _ _ _ _ _ fr wpd o g f); [done..| |done].
      apply (proj1 (Hboth o f)), Hf.
    - intros r Er. eapply each_known; [|exact Er]. intros [[l o] f] b Hk Eb. apply elem_lights in Hk. eapply fill_known; [..|exact Eb].
      * done.
      * done.
      * intros q lks F [= <- <-]. rewrite !elem_signals. intros HFd HNd.
        by apply (out_known qadd qneg q0 Hz reject HF _ _ _ _ _ C ports HB HC1 Hins wpd eq_refl).
  Qed.
End pd.

Section magic.
  Context {P A Q : Type} `{Countable P} `{Countable A} `{Countable Q}.
  Context (qadd : Q -> Q -> Q) (qneg : Q -> Q) (reject : Q -> bool).
  Lemma magic_total (fri fro bki bko wpd : P) (ks ksb : list (bool * A * Q)) ws :
    (forall F, F ∈ ws -> qneg F ∈ ws) -> exists r, magic_pd qadd qneg reject fri fro bki bko wpd ks ksb ws = Ok r.
  Proof.
    intros Hw. unfold magic_pd. destruct (each_ok (fun k : bool * A * Q => modulations_fill qadd qneg reject fri k (Some bko) None (Some (wpd, ws)) 1 1 0 0 1 1 true) ks) as [a ->].
    { intros k _. by apply fill_ok. }
    cbn [mbind res_bind]. eauto.
  Qed.
End magic.
