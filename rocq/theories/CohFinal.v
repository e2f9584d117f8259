(** The coherent sparsity analysis: the purged graph and the final statements. *)
From stdpp Require Import base tactics list numbers gmap fin_sets relations.
From Verif Require Import Fld Py LinSpec LinAlg LinReduce GraphModel GraphProofs GraphPurge CohModel CohSpec CohProofs.
Local Open Scope nat_scope.

Section remove.
  Context {V : Type} `{Countable V}.
  Context (enum : gset V -> list V) (Henum : forall X, enum X ≡ₚ elements X).
  Implicit Types (m : gmap V (gset V)) (u v w : V).

  Lemma ds_remove_loop m v (X : gset V) : (forall w, w ∈ X -> v ∈ ds_get m w) ->
    exists m', mfor (fun m w => ds_remove m w v) (enum X) m = Ok m' /\ dom m' = dom m /\
      forall u w, u ∈ ds_get m' w <-> u ∈ ds_get m w /\ ~ (u = v /\ w ∈ X).
  Proof using Henum.
    intros HX.
    destruct (mfor_ind (fun m w => ds_remove m w v)
      (fun pre m' => dom m' = dom m /\ forall u w, u ∈ ds_get m' w <-> u ∈ ds_get m w /\ ~ (u = v /\ w ∈ pre))
      (enum X) m) as (m' & Hf & Hd & Hm').
    - split; [done|]. intros u w. rewrite elem_of_nil. tauto.
    - intros pre a post m1 Hl [Hd Hm1]. apply enum_split in Hl as (Ha & Hap & _); [|done].
      assert (v ∈ ds_get m1 a) as Hva. { apply Hm1. split; [by apply HX|]. tauto. }
      rewrite ds_remove_ok by done. eexists. split; [reflexivity|]. split.
      + rewrite dom_insert_L, <- Hd. assert (a ∈ dom m1); [|set_solver].
        apply elem_of_dom. unfold ds_get in Hva. destruct (m1 !! a); [eauto|set_solver].
      + intros u w. rewrite ds_get_insert, elem_of_app, elem_of_list_singleton.
        destruct (decide (w = a)) as [->|Hne].
        * rewrite elem_of_difference, elem_of_singleton, Hm1. tauto.
        * rewrite Hm1. tauto.
    - exists m'. split_and!; [done|done|]. intros u w. rewrite Hm', (elem_of_enum enum Henum). done.
  Qed.
End remove.

Section final.
  Context {N : Type} `{Countable N}.
  Notation V := (vnode N).
  Context (enum : gset V -> list V) (Henum : forall X, enum X ≡ₚ elements X).
  Implicit Types (v w u : V) (g : graph Qc_fld V).

  Definition mirror g : Prop := forall v w, w ∈ seqs g v <-> v ∈ reqs g w.

  Lemma remove_vnode_ok g v : mirror g -> v ∉ seqs g v ->
    exists g', remove_vnode enum g v = Ok g' /\ mirror g' /\
      dom (g_seq g') = dom (g_seq g) ∖ {[v]} /\
      forall u w, w ∈ seqs g' u <-> w ∈ seqs g u /\ u <> v /\ w <> v.
  Proof using Henum.
    intros Hm Hvv. unfold mirror in *. unfold remove_vnode.
    destruct (ds_remove_loop enum Henum (g_req g) v (ds_get (g_seq g) v)) as (req & -> & _ & Hreq).
    { intros w Hw. by apply Hm. }
    simpl.
    destruct (ds_remove_loop enum Henum (g_seq g) v (ds_get req v)) as (seq & -> & Hd & Hseq).
    { intros w Hw. apply Hreq in Hw as [Hw _]. by apply Hm. }
    simpl. eexists. split; [reflexivity|].
    assert (forall u w, w ∈ ds_get (delete v seq) u <-> w ∈ seqs g u /\ u <> v /\ w <> v) as H1.
    { intros u w. rewrite ds_get_delete. destruct (decide (u = v)) as [->|Hne]; [set_solver|].
      rewrite Hseq, Hreq. fold (seqs g u). fold (reqs g v). rewrite <- Hm.
      split; [|tauto]. intros [Hu Hn]. split_and!; [done|done|]. intros ->. apply Hn. split; [done|].
      split; [done|]. intros [? _]. done. }
    split_and!.
    - intros u w. unfold seqs, reqs. simpl. rewrite H1, ds_get_delete.
      destruct (decide (w = v)) as [->|Hne]; [set_solver|].
      rewrite Hreq. fold (reqs g w). rewrite <- Hm. fold (seqs g v). split; [intros (? & ? & ?)|intros [Hu Hn]].
      + split; [done|]. intros [-> _]. done.
      + split_and!; [done| |done]. intros ->. apply Hn. split; done.
    - simpl. by rewrite dom_delete_L, Hd.
    - exact H1.
  Qed.
  Lemma remove_all_ok (vs : list V) : forall g p, NoDup vs -> mirror g -> mirror p ->
    (forall v, v ∈ vs -> v ∉ seqs g v) -> (forall v, v ∈ vs -> v ∉ seqs p v) ->
    exists g' p', mfor (fun '(g, p) v => g ← remove_vnode enum g v; p ← remove_vnode enum p v; Ok (g, p)) vs (g, p)
        = Ok (g', p') /\ mirror g' /\ mirror p' /\
      (forall v, v ∈ dom (g_seq g') <-> v ∈ dom (g_seq g) /\ v ∉ vs) /\
      (forall u w, w ∈ seqs g' u <-> w ∈ seqs g u /\ u ∉ vs /\ w ∉ vs) /\
      (forall u w, w ∈ seqs p' u <-> w ∈ seqs p u /\ u ∉ vs /\ w ∉ vs).
  Proof using Henum.
    induction vs as [|v vs IH]; intros g p Hnd Hg Hp Hgs Hps.
    { exists g, p. simpl. split_and!; try done; set_solver. }
    apply NoDup_cons in Hnd as [Hv Hnd].
    destruct (remove_vnode_ok g v) as (g1 & Hg1 & Hmg & Hdg & Hsg); [done|apply Hgs; set_solver|].
    destruct (remove_vnode_ok p v) as (p1 & Hp1 & Hmp & Hdp & Hsp); [done|apply Hps; set_solver|].
    cbn [mfor]. rewrite Hg1, Hp1. simpl.
    destruct (IH g1 p1) as (g' & p' & Hf & Hg' & Hp' & Hd & Hs1 & Hs2); [done|done|done| | |].
    { intros x Hx. rewrite Hsg. intros (Hc & _). revert Hc. apply Hgs. set_solver. }
    { intros x Hx. rewrite Hsp. intros (Hc & _). revert Hc. apply Hps. set_solver. }
    exists g', p'. split_and!; try done.
    - intros x. rewrite Hd, Hdg, elem_of_cons, elem_of_difference, elem_of_singleton. tauto.
    - intros u w. rewrite Hs1, Hsg, !elem_of_cons. tauto.
    - intros u w. rewrite Hs2, Hsp, !elem_of_cons. tauto.
  Qed.

  Lemma check_balance_plain g : mirror g -> g_em g = ∅ -> check_balance enum g = Ok g.
  Proof using Henum.
    intros Hm He. unfold check_balance.
    rewrite He. rewrite (mfor_const _ _ (∅ : gmap (V * V) Qc_fld)).
    2:{ intros node Hn. apply mfor_const. intros w Hw. rewrite (elem_of_enum enum Henum) in Hw.
        rewrite decide_True by (by apply Hm). by rewrite decide_False by (intros Hc; by apply Hc). }
    simpl. rewrite mfor_const.
    2:{ intros node Hn. apply mfor_const. intros w Hw. rewrite (elem_of_enum enum Henum) in Hw.
        by rewrite decide_True by (by apply Hm). }
    simpl. destruct g. simpl in He. by subst.
  Qed.
  Context (pick : gset V -> option V)
          (Hpick : forall X n, pick X = Some n -> n ∈ X)
          (Hpick_none : forall X, pick X = None -> X = ∅).

  Context (js : list (injection N)) (bonds : list (N * N)).
  Context (isrc : list (N * entries N)) (iedge : list ((N * N) * entries N)).
  Context (Hsrc : wf_tab isrc) (Hedge : wf_tab iedge).
  Context (Hst : forall x NZ rq, (exists i, entry isrc x i NZ rq) <-> source_term js x NZ rq).
  Context (Het : forall a b NZ rq, (exists i, entry iedge (a, b) i NZ rq) <-> edge_term js a b NZ rq).
  Notation driven := (driven js bonds).
  Notation link := (link js bonds).
  Notation influences := (influences js bonds).

  (** the graph with the virtual nodes, and what it means for the real ones *)
  Definition rel v w : Prop :=
    (exists a b, v = inl a /\ w = inl b /\ link a b) \/ floatl js v w.
  Lemma rel_inl a b : rel (inl a) (inl b) <-> link a b.
  Proof.
    unfold rel. split.
    - intros [(x & y & [= ->] & [= ->] & Hl)|(p & f & Hf & Hc)]; [done|].
      apply float_nodes_term in Hf as [[q ->] _]. naive_solver.
    - intros Hl. left. eauto.
  Qed.
  Lemma rtc_rel_inl a b : rtc rel (inl a) (inl b) <-> rtc influences a b.
  Proof.
    split.
    - intros Hr. cut (forall v w, rtc rel v w -> forall a b, w = inl b ->
        (v = inl a -> rtc influences a b) /\
        (forall p f, v = inr p -> (inr p, f) ∈ float_nodes js -> exists c, c ∈ f.2 /\ rtc influences c b)).
      { intros Hc. by apply (Hc _ _ Hr a b eq_refl). }
      clear. intros v w Hr b0 b ->. revert b0. remember (inl b : V) as w eqn:Hw.
      induction Hr as [v|v u w Hvu Huw IH]; intros a.
      + subst. split; [|done]. intros [= ->]. constructor.
      + specialize (IH Hw). split.
        * intros ->. destruct Hvu as [(x & y & [= ->] & -> & Hl)|(p & f & Hf & Hc)].
          -- destruct (IH y) as [IH1 _]. eapply rtc_l; [left; exact Hl|]. by apply IH1.
          -- destruct (float_nodes_term js p f Hf) as [[q ->] Ht].
             destruct Hc as [(n & Hn & [= ->] & ->)|(n & Hn & [=] & _)].
             destruct (IH n) as [_ IH2]. destruct (IH2 q f eq_refl Hf) as (c & Hc & Hr).
             eapply rtc_l; [|exact Hr]. right. exists f.1, f.2. done.
        * intros p f -> Hf. destruct Hvu as [(x & y & [=] & _)|(p' & f' & Hf' & Hc)].
          destruct (float_nodes_term js p' f' Hf') as [[q ->] Ht].
          destruct Hc as [(n & Hn & [=] & _)|(n & Hn & [= ->] & ->)].
          rewrite (float_nodes_fun js _ _ _ Hf Hf'). exists n. split; [done|].
          destruct (IH n) as [IH1 _]. by apply IH1.
    - intros Hr. induction Hr as [|a c b [Hl|(ins & outs & Ht & Ha & Hb)] _ IH]; [constructor| |].
      + eapply rtc_l; [|exact IH]. by apply rel_inl.
      + apply float_term_nodes in Ht as [q Hq].
        eapply rtc_l; [|eapply rtc_l; [|exact IH]].
        * right. exists (inr q), (ins, outs). split; [done|]. left. by exists a.
        * right. exists (inr q), (ins, outs). split; [done|]. right. by exists c.
  Qed.

  Lemma lnk_rel (s : cst (N := N)) : (forall v, v ∈ sub s <-> drivenV js bonds v) ->
    forall v w, lnk js bonds iedge (sub s) v w <-> rel v w.
  Proof.
    intros Hs v w. unfold lnk, rel, edgel, bondl, link. split.
    - intros [[([a b] & Hb & -> & ->)|Hf]|([a b] & (rq & He) & -> & ->)]; [|by right|].
      + left. exists a, b. auto.
      + left. exists a, b. split_and!; [done|done|]. right.
        apply (final_enE js bonds iedge Het s a b rq Hs) in He as (NZ & He & Hd). eauto.
    - intros [(a & b & -> & -> & [Hb|(NZ & rq & He & Hd)])|Hf]; [| |by left; right].
      + left. left. by exists (a, b).
      + right. exists (a, b). split; [|done]. exists rq.
        apply (final_enE js bonds iedge Het s a b rq Hs). eauto.
  Qed.
  Lemma rel_vnode v : v ∈ (float_nodes js).*1 -> forall w, rel v w -> w <> v.
  Proof.
    intros ([p f] & -> & Hf)%elem_of_list_fmap w Hw ->. simpl in *.
    destruct (float_nodes_term js p f Hf) as [[q ->] _].
    destruct Hw as [(a & b & [=] & _)|(p' & f' & Hf' & [(n & _ & [=] & _)|(n & _ & _ & [=])])].
  Qed.

  Record result (B : bunch (N := N)) : Prop := {
    rs_inputs : forall v, v ∈ b_inputs B <-> exists x, v = inl x /\ live_source js bonds x;
    rs_outputs : forall v, v ∈ b_outputs B <-> exists n, v = inl n /\ needed js bonds n;
    rs_active : forall n, inl n ∈ b_active B <-> driven n;
    rs_full : forall v w, w ∈ ds_get (g_seq (b_full B)) v <-> exists a b, v = inl a /\ w = inl b /\ link a b;
    rs_full_req : forall v w, v ∈ ds_get (g_req (b_full B)) w <-> w ∈ ds_get (g_seq (b_full B)) v;
    rs_dom : forall v, v ∈ dom (g_seq (b_full B)) <->
      exists a, v = inl a /\ (driven a \/ (exists b, link a b) \/ exists ins outs, float_term js ins outs /\ a ∈ ins);
    rs_pert : forall v w, w ∈ ds_get (g_seq (b_perturb B)) v <-> exists a b, v = inl a /\ w = inl b /\ link a b /\
      (exists i, (live_source js bonds i \/ drive_ac js i) /\ rtc influences i a) /\
      (exists o, (needed js bonds o \/ read_ac js o) /\ rtc influences b o);
    rs_pert_req : forall v w, v ∈ ds_get (g_req (b_perturb B)) w <-> w ∈ ds_get (g_seq (b_perturb B)) v;
  }.

  Lemma elem_pk {A} (get : injection N -> list A) x :
    x ∈ mjoin (get <$> js) <-> exists j, j ∈ js /\ x ∈ get j.
  Proof.
    rewrite elem_of_list_join. setoid_rewrite elem_of_list_fmap. split.
    - intros (l & Hx & j & -> & Hj). eauto.
    - intros (j & Hj & Hx). eauto.
  Qed.
  Lemma elem_pkset (get : injection N -> list N) v :
    v ∈ (list_to_set (inl <$> mjoin (get <$> js)) : gset V) <-> exists n, v = inl n /\ exists j, j ∈ js /\ n ∈ get j.
  Proof.
    rewrite elem_of_list_to_set, elem_of_list_fmap. by setoid_rewrite elem_pk.
  Qed.

  Lemma reach_from_rel (m : gmap V (gset V)) (start : gset V) v : (forall u w, w ∈ ds_get m u <-> rel u w) ->
    reach_from m start v <-> exists i, i ∈ start /\ rtc rel i v.
  Proof.
    intros Hm. unfold reach_from, reach. split; intros (i & Hi & Hr); exists i; (split; [done|]);
      (eapply rtc_subrel; [|exact Hr]); intros u w; apply Hm.
  Qed.

  Lemma mbind_ok {A B} (x : A) (k : A -> res B) : Ok x ≫= k = k x.
  Proof. done. Qed.
  Lemma sparsity_ok fuel order s :
    passes enum pick fuel 0 (coh_init js bonds isrc iedge) = Ok (order, s) ->
    exists B, sparsity_graph enum pick fuel js bonds isrc iedge = Ok B /\ result B.
  Proof using All.
    intros Hrun.
    destruct (init_ok enum Henum pick Hpick Hpick_none js bonds isrc iedge Hsrc Hedge Hst Het) as (HS0 & _ & _).
    destruct (passes_ok enum Henum pick Hpick Hpick_none js bonds isrc iedge Hsrc Hedge Hst Het fuel 0 _ order s HS0 Hrun)
      as (HS & Hp & Hp2).
    pose proof (final_sub enum Henum pick Hpick Hpick_none js bonds isrc iedge Hsrc Hedge Hst Het s HS Hp Hp2) as Hsub.
    destruct (si_g _ _ _ _ s HS) as (Hgs & Hgr & Hgd). simpl in Hgs, Hgr, Hgd.
    assert (forall v w, lnk js bonds iedge (sub s) v w <-> rel v w) as Hl by (by apply lnk_rel).
    unfold sparsity_graph. rewrite Hrun. rewrite mbind_ok; cbv beta iota zeta. set (g := Graph (K := Qc_fld) (cseq s) (creq s) ∅).
    assert (forall v w, w ∈ seqs g v <-> rel v w) as Hg by (intros v w; unfold seqs; simpl; by rewrite Hgs, Hl).
    assert (mirror g) as Hm. { intros v w. unfold seqs, reqs. simpl. by rewrite Hgs, Hgr. }
    rewrite (check_balance_plain g Hm eq_refl). rewrite mbind_ok; cbv beta iota zeta.
    destruct (purge_reqless_ok enum Henum pick Hpick Hpick_none
                (inp s ∪ list_to_set (inl <$> mjoin (i_ac_in <$> js))) g Hm)
      as (A1 & p1 & -> & HA1 & Hs1 & Hr1 & _ & _ & Hd1). rewrite mbind_ok; cbv beta iota zeta.
    destruct (purge_seqless_ok enum Henum pick Hpick Hpick_none
                (outp s ∪ list_to_set (inl <$> mjoin (i_ac_out <$> js))) p1)
      as (A2 & p2 & -> & HA2 & Hs2 & Hr2 & _). { intros v w. symmetry. apply Hr1. }
    rewrite mbind_ok; cbv beta iota zeta.
    assert (forall v w, w ∈ seqs p2 v -> rel v w) as Hp2r.
    { intros v w Hw. apply Hs2 in Hw as [Hw _]. apply Hs1 in Hw as [Hw _]. by apply Hg. }
    set (vs := enum (list_to_set (float_nodes js).*1)).
    assert (forall v, v ∈ vs <-> v ∈ (float_nodes js).*1) as Hvs.
    { intros v. unfold vs. rewrite (elem_of_enum enum Henum). apply elem_of_list_to_set. }
    assert (forall n, inl n ∉ vs) as Hnvs.
    { intros n Hn. apply Hvs in Hn. apply elem_of_list_fmap in Hn as ([p f] & Hp' & Hf).
      apply float_nodes_term in Hf as [[q ->] _]. simpl in Hp'. done. }
    destruct (remove_all_ok vs g p2) as (g' & p' & -> & Hmg & Hmp & Hdg & Hsg & Hsp).
    { unfold vs. rewrite (Henum _). apply NoDup_elements. }
    { done. }
    { intros v w. symmetry. apply Hr2. }
    { intros v Hv Hc. apply Hg in Hc. apply Hvs in Hv. by apply (rel_vnode v Hv v Hc). }
    { intros v Hv Hc. apply Hp2r in Hc. apply Hvs in Hv. by apply (rel_vnode v Hv v Hc). }
    rewrite mbind_ok; cbv beta iota zeta. eexists. split; [reflexivity|].
    assert (forall v w, rel v w /\ v ∉ vs /\ w ∉ vs <-> exists a b, v = inl a /\ w = inl b /\ link a b) as Hreal.
    { intros v w. split.
      - intros ([(a & b & -> & -> & Hab)|(p & f & Hf & Hc)] & Hv & Hw); [by eauto|].
        assert (p ∈ vs) as Hpv by (apply Hvs, elem_of_list_fmap; by exists (p, f)).
        destruct Hc as [(n & _ & _ & ->)|(n & _ & -> & _)]; done.
      - intros (a & b & -> & -> & Hab). split; [by apply rel_inl|]. split; apply Hnvs. }
    assert (forall v, v ∈ inp s <-> exists x, v = inl x /\ live_source js bonds x) as Hin.
    { intros v. rewrite (si_in _ _ _ _ s HS). unfold live_source. split.
      - intros (x & rq & -> & He). exists x. split; [done|].
        apply (final_enS js bonds isrc Hst s x rq Hsub) in He as (NZ & ? & ?). eauto.
      - intros (x & -> & NZ & rq & He & Hd). exists x, rq. split; [done|].
        apply (final_enS js bonds isrc Hst s x rq Hsub). eauto. }
    assert (forall v, v ∈ outp s <-> exists n, v = inl n /\ needed js bonds n) as Hout.
    { intros v. rewrite (si_out _ _ _ _ s HS). unfold outn, needed. split.
      - intros (n & -> & [Hn|[(x & rq & He & Hn)|([a b] & rq & He & Hn)]]); exists n; (split; [done|]).
        + by left.
        + right. left. apply (final_enS js bonds isrc Hst s x rq Hsub) in He as (NZ & ? & ?). eauto 10.
        + right. right. apply (final_enE js bonds iedge Het s a b rq Hsub) in He as (NZ & ? & ?). eauto 10.
      - intros (n & -> & [Hn|[(x & NZ & rq & He & Hn & Hd)|(a & b & NZ & rq & He & Hn & Hd)]]);
          exists n; (split; [done|]).
        + by left.
        + right. left. exists x, rq. split; [|done]. apply (final_enS js bonds isrc Hst s x rq Hsub). eauto.
        + right. right. exists (a, b), rq. split; [|done].
          apply (final_enE js bonds iedge Het s a b rq Hsub). eauto. }
    split; cbn [b_inputs b_outputs b_active b_full b_perturb].
    - exact Hin.
    - exact Hout.
    - intros n. apply (Hsub (inl n)).
    - intros v w. fold (seqs g' v). by rewrite Hsg, Hg, Hreal.
    - intros v w. symmetry. apply Hmg.
    - intros v. rewrite Hdg. simpl. rewrite Hgd. setoid_rewrite Hl. rewrite Hsub. split.
      + intros [[[w Hw]|Hv] Hnv].
        * destruct Hw as [(a & b & -> & -> & Hab)|(p & f & Hf & Hc)]; [by eauto 10|].
          destruct Hc as [(n & Hn & -> & ->)|(n & _ & -> & _)].
          -- exists n. split; [done|]. right. right. exists f.1, f.2. split; [|done].
             by eapply float_nodes_term.
          -- exfalso. apply Hnv, Hvs, elem_of_list_fmap. by exists (p, f).
        * destruct v as [a|p]; [by eauto|]. exfalso. destruct Hv as (f & Hf & _).
          apply Hnv, Hvs, elem_of_list_fmap. by exists (inr p, f).
      + intros (a & -> & [Hd|[(b & Hab)|(ins & outs & Ht & Ha)]]); (split; [|apply Hnvs]).
        * by right.
        * left. exists (inl b). by apply rel_inl.
        * left. apply float_term_nodes in Ht as [q Hq]. exists (inr q). right.
          exists (inr q), (ins, outs). split; [done|]. left. by exists a.
    - assert (forall v, v ∈ A1 <-> exists i, (i ∈ inp s ∪ list_to_set (inl <$> mjoin (i_ac_in <$> js))) /\ rtc rel i v) as HA1'.
      { intros v. rewrite HA1. apply reach_from_rel. intros u w. apply Hg. }
      assert (forall v w, v ∈ A1 -> rtc rel v w -> w ∈ A1) as HA1c.
      { intros v w Hv Hr. apply HA1' in Hv as (i & Hi & Hr'). apply HA1'. exists i. split; [done|]. by etrans. }
      assert (forall v, v ∈ A1 -> (v ∈ A2 <-> exists o, (o ∈ outp s ∪ list_to_set (inl <$> mjoin (i_ac_out <$> js))) /\ rtc rel v o)) as HA2'.
      { intros v Hv. rewrite HA2. unfold reach_from, reach. split.
        - intros (o & Ho & Hr). exists o. split; [done|]. clear Ho Hv. induction Hr as [|x y z Hxy _ IH]; [constructor|].
          eapply rtc_r; [exact IH|]. apply Hr1 in Hxy. apply Hs1 in Hxy as [Hxy _]. by apply Hg.
        - intros (o & Ho & Hr). exists o. split; [done|]. clear Ho.
          induction Hr as [|x y z Hxy Hyz IH]; [constructor|].
          eapply rtc_r; [apply IH; eapply HA1c; [done|]; by eapply rtc_once|].
          apply Hr1, Hs1. split; [by apply Hg|done]. }
      intros v w. fold (seqs p' v). rewrite Hsp, Hs2, Hs1, Hg. split.
      + intros (((Hvw & Hv1) & Hv2 & Hw2) & Hnv & Hnw).
        destruct (proj1 (Hreal v w)) as (a & b & -> & -> & Hab); [done|].
        exists a, b. split_and!; [done|done|done| |].
        * apply HA1' in Hv1 as (i & Hi & Hr). rewrite elem_of_union, Hin, elem_pkset in Hi.
          destruct Hi as [(x & -> & Hx)|(x & -> & Hx)]; exists x; (split; [by auto|]); by apply rtc_rel_inl.
        * assert (inl b ∈ A1) as Hb1 by (eapply HA1c; [done|]; by eapply rtc_once).
          assert (inl b ∈ A2) as Hb2. { destruct Hw2 as [?|Hn]; [done|]. by destruct Hn; apply Hd1. }
          apply (HA2' _ Hb1) in Hb2 as (o & Ho & Hr). rewrite elem_of_union, Hout, elem_pkset in Ho.
          destruct Ho as [(x & -> & Hx)|(x & -> & Hx)]; exists x; (split; [by auto|]); by apply rtc_rel_inl.
      + intros (a & b & -> & -> & Hab & (i & Hi & Hri) & (o & Ho & Hro)).
        assert (inl a ∈ A1) as Ha1.
        { apply HA1'. exists (inl i). split; [|by apply rtc_rel_inl].
          rewrite elem_of_union, Hin, elem_pkset. destruct Hi as [?|?]; [left|right]; exists i; done. }
        assert (inl b ∈ A1) as Hb1 by (eapply HA1c; [done|]; eapply rtc_once; by apply rel_inl).
        assert (forall c, inl c ∈ A1 -> rtc influences c o -> inl c ∈ A2) as Hco.
        { intros c Hc Hr. apply (HA2' _ Hc). exists (inl o). split; [|by apply rtc_rel_inl].
          rewrite elem_of_union, Hout, elem_pkset. destruct Ho as [?|?]; [left|right]; exists o; done. }
        split; [|split; apply Hnvs]. split; [split; [by apply rel_inl|done]|].
        split; [|left; by apply Hco]. apply Hco; [done|]. eapply rtc_l; [|exact Hro]. by left.
    - intros v w. symmetry. apply Hmp.
  Qed.
  Lemma sparsity_partial fuel B :
    sparsity_graph enum pick fuel js bonds isrc iedge = Ok B -> result B.
  Proof using All.
    intros HB. destruct (passes enum pick fuel 0 (coh_init js bonds isrc iedge)) as [[order s]|e] eqn:Hrun.
    - destruct (sparsity_ok fuel order s Hrun) as (B' & HB' & HR). congruence.
    - unfold sparsity_graph in HB. rewrite Hrun in HB. done.
  Qed.
  Lemma sparsity_total : exists c, forall fuel, c <= fuel ->
    exists B, sparsity_graph enum pick fuel js bonds isrc iedge = Ok B.
  Proof using All.
    destruct (init_ok enum Henum pick Hpick Hpick_none js bonds isrc iedge Hsrc Hedge Hst Het) as (HS0 & Hp2 & Hsub).
    exists (S (left_ js bonds isrc iedge (coh_init js bonds isrc iedge))). intros fuel Hf.
    destruct (passes_total enum Henum pick Hpick Hpick_none js bonds isrc iedge Hsrc Hedge Hst Het fuel 0
      (coh_init js bonds isrc iedge) HS0) as ([order s] & Hrun).
    { intros _. rewrite Hp2. set_solver. }
    { lia. }
    destruct (sparsity_ok fuel order s Hrun) as (B' & HB' & _). eauto.
  Qed.
End final.

(** ** the injection tables *)
Definition tmem {X B} `{Countable X} (m : gmap X (list B)) (x : X) (r : B) : Prop := exists rs, m !! x = Some rs /\ r ∈ rs.
Lemma tmem_app {X B} `{Countable X} (m : gmap X (list B)) y b x r :
  tmem (app_at m y b) x r <-> tmem m x r \/ (x, r) = (y, b).
Proof.
  unfold tmem, app_at. destruct (decide (y = x)) as [->|Hne].
  - rewrite lookup_insert. split.
    + intros (rs & [= <-] & Hr). apply elem_of_app in Hr as [Hr|Hr%elem_of_list_singleton].
      * left. destruct (m !! x) as [rs|]; [|by apply elem_of_nil in Hr]. eauto.
      * right. by subst.
    + intros [(rs & -> & Hr)|[= <-]]; eexists; (split; [done|]); apply elem_of_app; [by left|right].
      by apply elem_of_list_singleton.
  - rewrite lookup_insert_ne by done. naive_solver.
Qed.
Lemma mfor_tab {X B} `{Countable X} (ok : X -> bool) (e : exn) (l : list (X * B)) : forall (m m' : gmap X (list B)),
  mfor (fun m '(x, r) => if ok x then Ok (app_at m x r) else Err e) l m = Ok m' ->
  forall x r, tmem m' x r <-> tmem m x r \/ (x, r) ∈ l.
Proof.
  induction l as [|[y b] l IH]; intros m m' Hm x r; simpl in Hm.
  - injection Hm as <-. rewrite elem_of_nil. tauto.
  - destruct (ok y); [|done]. simpl in Hm. rewrite (IH _ _ Hm), tmem_app, elem_of_cons. tauto.
Qed.
Lemma mfor_tab_total {X B} `{Countable X} (ok : X -> bool) (e : exn) (l : list (X * B)) : forall (m : gmap X (list B)),
  (forall x r, (x, r) ∈ l -> ok x = true) ->
  exists m', mfor (fun m '(x, r) => if ok x then Ok (app_at m x r) else Err e) l m = Ok m'.
Proof.
  induction l as [|[y b] l IH]; intros m Hok; simpl; [by eauto|].
  rewrite (Hok y b) by (by left). simpl. apply IH. intros x r Hx. apply (Hok x r). by right.
Qed.
Lemma edge_body_eq {N} `{Countable N} (known : N -> bool) l : forall (m : gmap (N * N) (entries N)),
  mfor (fun m '((a, b), r) => if known b then Ok (app_at m (a, b) r) else Err RuntimeError) l m =
  mfor (fun m '(x, r) => if known x.2 then Ok (app_at m x r) else Err RuntimeError) l m.
Proof. induction l as [|[[a b] r] l IH]; intros m; simpl; [done|]. destruct (known b); simpl; [apply IH|done]. Qed.
Section tabs.
  Context {N : Type} `{Countable N} (known : N -> bool).
  Lemma inserts_ok (js : list (injection N)) : forall st st', mfor (injection_insert known) js st = Ok st' ->
    (forall x r, tmem st'.1 x r <-> tmem st.1 x r \/ exists j, j ∈ js /\ (x, r) ∈ i_sources j) /\
    (forall x r, tmem st'.2 x r <-> tmem st.2 x r \/ exists j, j ∈ js /\ (x, r) ∈ i_edges j).
  Proof.
    induction js as [|j js IH]; intros [srcs edges] st' Hm; cbn [mfor] in Hm.
    - injection Hm as <-. split; intros x r; (split; [auto|intros [?|(j & Hj & _)]; [done|by apply elem_of_nil in Hj]]).
    - unfold injection_insert at 1 in Hm.
      rewrite edge_body_eq in Hm.
      match type of Hm with context [mfor ?b (i_edges j) ?i] => destruct (mfor b (i_edges j) i) as [edges'|] eqn:He; [|done] end.
      rewrite mbind_ok in Hm. cbv beta in Hm.
      match type of Hm with context [mfor ?b (i_sources j) ?i] => destruct (mfor b (i_sources j) i) as [srcs'|] eqn:Hs; [|done] end.
      rewrite !mbind_ok in Hm. apply IH in Hm as [H1 H2]. cbn [fst snd] in *.
      pose proof (mfor_tab _ _ _ _ _ He) as He'. pose proof (mfor_tab known _ _ _ _ Hs) as Hs'.
      split; intros x r.
      + rewrite H1, Hs'. setoid_rewrite elem_of_cons. naive_solver.
      + rewrite H2, He'. setoid_rewrite elem_of_cons. naive_solver.
  Qed.
  Lemma inserts_total (js : list (injection N)) : forall st,
    (forall j a r, j ∈ js -> (a, r) ∈ i_sources j -> known a = true) ->
    (forall j a b r, j ∈ js -> ((a, b), r) ∈ i_edges j -> known b = true) ->
    exists st', mfor (injection_insert known) js st = Ok st'.
  Proof.
    induction js as [|j js IH]; intros [srcs edges] H1 H2; cbn [mfor]; [by eauto|].
    unfold injection_insert at 1. rewrite edge_body_eq.
    destruct (mfor_tab_total (fun x : N * N => known x.2) RuntimeError (i_edges j) edges) as [e' ->].
    { intros [a b] r Hx. apply (H2 j a b r); [by left|done]. }
    rewrite mbind_ok. cbv beta.
    destruct (mfor_tab_total known AssertionError (i_sources j) srcs) as [s' ->].
    { intros a r Hx. apply (H1 j a r); [by left|done]. }
    rewrite !mbind_ok. apply IH; intros; [eapply H1|eapply H2]; try done; by right.
  Qed.
  Lemma entry_tmem {X} `{Countable X} (T : list (X * entries N)) (m : gmap X (entries N)) x NZ rq : T ≡ₚ map_to_list m ->
    (exists i, entry T x i NZ rq) <-> tmem m x (NZ, rq).
  Proof.
    intros HT. unfold entry, tmem. split.
    - intros (i & rs & Hx & Hi). exists rs. split; [|by eapply elem_of_list_lookup_2].
      rewrite HT in Hx. by apply elem_of_map_to_list in Hx.
    - intros (rs & Hm & Hr). apply elem_of_list_lookup in Hr as [i Hi]. exists i, rs. split; [|done].
      rewrite HT. by apply elem_of_map_to_list.
  Qed.
  Lemma tables_ok (js : list (injection N)) srcs edges isrc iedge :
    frozen js -> mfor (injection_insert known) js (∅, ∅) = Ok (srcs, edges) ->
    isrc ≡ₚ map_to_list srcs -> iedge ≡ₚ map_to_list edges ->
    wf_tab isrc /\ wf_tab iedge /\
    (forall x NZ rq, (exists i, entry isrc x i NZ rq) <-> source_term js x NZ rq) /\
    (forall a b NZ rq, (exists i, entry iedge (a, b) i NZ rq) <-> edge_term js a b NZ rq).
  Proof.
    intros [Hf1 Hf2] Hm Hs He. apply inserts_ok in Hm as [H1 H2]. cbn [fst snd] in *.
    assert (forall x NZ rq, (exists i, entry isrc x i NZ rq) <-> source_term js x NZ rq) as HS.
    { intros x NZ rq. rewrite (entry_tmem _ _ _ _ _ Hs), H1. unfold source_term. split; [|by auto].
      intros [(rs & Hc & _)|?]; [by rewrite lookup_empty in Hc|done]. }
    assert (forall a b NZ rq, (exists i, entry iedge (a, b) i NZ rq) <-> edge_term js a b NZ rq) as HE.
    { intros a b NZ rq. rewrite (entry_tmem _ _ _ _ _ He), H2. unfold edge_term. split; [|by auto].
      intros [(rs & Hc & _)|?]; [by rewrite lookup_empty in Hc|done]. }
    split_and!; [split|split|done|done].
    - rewrite Hs. apply NoDup_fst_map_to_list.
    - intros x i NZ rq Hx. apply (Hf1 x). apply HS. eauto.
    - rewrite He. apply NoDup_fst_map_to_list.
    - intros [a b] i NZ rq Hx. apply (Hf2 a b). apply HE. eauto.
  Qed.

  Lemma run_result (rt : coh_runtime N) fuel js bonds isrc iedge B :
    coh_runtime_ok rt -> frozen js -> coherent_run rt known fuel js bonds isrc iedge (Ok B) ->
    result js bonds B.
  Proof.
    intros [R1 R2 R3] Hf (srcs & edges & Hm & Hs & He & HB).
    destruct (tables_ok js srcs edges isrc iedge Hf Hm Hs He) as (W1 & W2 & E1 & E2).
    by eapply (sparsity_partial (cr_enum rt) R1 (cr_pick rt) R2 R3 js bonds isrc iedge W1 W2 E1 E2).
  Qed.
  Lemma run_total (rt : coh_runtime N) js bonds srcs edges isrc iedge :
    coh_runtime_ok rt -> frozen js -> mfor (injection_insert known) js (∅, ∅) = Ok (srcs, edges) ->
    isrc ≡ₚ map_to_list srcs -> iedge ≡ₚ map_to_list edges ->
    exists c, forall fuel, c <= fuel -> exists B, coherent_run rt known fuel js bonds isrc iedge (Ok B).
  Proof.
    intros [R1 R2 R3] Hf Hm Hs He.
    destruct (tables_ok js srcs edges isrc iedge Hf Hm Hs He) as (W1 & W2 & E1 & E2).
    destruct (sparsity_total (cr_enum rt) R1 (cr_pick rt) R2 R3 js bonds isrc iedge W1 W2 E1 E2) as [c Hc].
    exists c. intros fuel Hl. destruct (Hc fuel Hl) as [B HB]. exists B, srcs, edges. by rewrite HB.
  Qed.
End tabs.

Section props.
  Context {N : Type} `{Countable N}.
  Implicit Types (rt : coh_runtime N).
  Lemma C33_active_lem (rt : coh_runtime N) known fuel js bonds isrc iedge B :
  coh_runtime_ok rt -> frozen js -> coherent_run rt known fuel js bonds isrc iedge (Ok B) ->
  forall n, inl n ∈ b_active B <-> driven js bonds n.
  Proof.
    intros HR HF Hr. exact (rs_active _ _ _ (run_result known _ _ _ _ _ _ _ HR HF Hr)).
  Qed.
  Lemma C33_inputs_lem (rt : coh_runtime N) known fuel js bonds isrc iedge B :
  coh_runtime_ok rt -> frozen js -> coherent_run rt known fuel js bonds isrc iedge (Ok B) ->
  forall v, v ∈ b_inputs B <-> exists x, v = inl x /\ live_source js bonds x.
  Proof.
    intros HR HF Hr. exact (rs_inputs _ _ _ (run_result known _ _ _ _ _ _ _ HR HF Hr)).
  Qed.
  Lemma C33_outputs_lem (rt : coh_runtime N) known fuel js bonds isrc iedge B :
  coh_runtime_ok rt -> frozen js -> coherent_run rt known fuel js bonds isrc iedge (Ok B) ->
  forall v, v ∈ b_outputs B <-> exists n, v = inl n /\ needed js bonds n.
  Proof.
    intros HR HF Hr. exact (rs_outputs _ _ _ (run_result known _ _ _ _ _ _ _ HR HF Hr)).
  Qed.
  Lemma C33_links_lem (rt : coh_runtime N) known fuel js bonds isrc iedge B :
  coh_runtime_ok rt -> frozen js -> coherent_run rt known fuel js bonds isrc iedge (Ok B) ->
  (forall v w, w ∈ ds_get (g_seq (b_full B)) v <-> exists a b, v = inl a /\ w = inl b /\ link js bonds a b) /\
  (forall v w, v ∈ ds_get (g_req (b_full B)) w <-> exists a b, v = inl a /\ w = inl b /\ link js bonds a b).
  Proof.
    intros HR HF Hr. pose proof (run_result known _ _ _ _ _ _ _ HR HF Hr) as R. split; [exact (rs_full _ _ _ R)|].
    intros v w. by rewrite (rs_full_req _ _ _ R), (rs_full _ _ _ R).
  Qed.
  Lemma C33_all_lem (rt : coh_runtime N) known fuel js bonds isrc iedge B :
  coh_runtime_ok rt -> frozen js -> coherent_run rt known fuel js bonds isrc iedge (Ok B) ->
  forall v, v ∈ dom (g_seq (b_full B)) <->
    exists a, v = inl a /\ (driven js bonds a \/ (exists b, link js bonds a b) \/
                            exists ins outs, float_term js ins outs /\ a ∈ ins).
  Proof.
    intros HR HF Hr. exact (rs_dom _ _ _ (run_result known _ _ _ _ _ _ _ HR HF Hr)).
  Qed.
  Lemma C33_perturb_lem (rt : coh_runtime N) known fuel js bonds isrc iedge B :
  coh_runtime_ok rt -> frozen js -> coherent_run rt known fuel js bonds isrc iedge (Ok B) ->
  (forall v w, w ∈ ds_get (g_seq (b_perturb B)) v <->
     exists a b, v = inl a /\ w = inl b /\ link js bonds a b /\
      (exists i, (live_source js bonds i \/ drive_ac js i) /\ rtc (influences js bonds) i a) /\
      (exists o, (needed js bonds o \/ read_ac js o) /\ rtc (influences js bonds) b o)) /\
  (forall v w, v ∈ ds_get (g_req (b_perturb B)) w <-> w ∈ ds_get (g_seq (b_perturb B)) v).
  Proof.
    intros HR HF Hr. pose proof (run_result known _ _ _ _ _ _ _ HR HF Hr) as R. split; [exact (rs_pert _ _ _ R)|exact (rs_pert_req _ _ _ R)].
  Qed.

  Lemma source_perm (js1 js2 : list (injection N)) : js1 ≡ₚ js2 -> forall x NZ rq, source_term js1 x NZ rq <-> source_term js2 x NZ rq.
  Proof. intros Hp x NZ rq. unfold source_term. by setoid_rewrite Hp. Qed.
  Lemma edge_perm (js1 js2 : list (injection N)) : js1 ≡ₚ js2 -> forall a b NZ rq, edge_term js1 a b NZ rq <-> edge_term js2 a b NZ rq.
  Proof. intros Hp a b NZ rq. unfold edge_term. by setoid_rewrite Hp. Qed.
  Lemma float_perm (js1 js2 : list (injection N)) : js1 ≡ₚ js2 -> forall ins outs, float_term js1 ins outs <-> float_term js2 ins outs.
  Proof. intros Hp ins outs. unfold float_term. by setoid_rewrite Hp. Qed.
  Lemma driven_perm_1 (js1 js2 : list (injection N)) bonds1 bonds2 : js1 ≡ₚ js2 -> bonds1 ≡ₚ bonds2 -> forall n, driven js1 bonds1 n -> driven js2 bonds2 n.
  Proof.
    intros Hj Hb n Hd. induction Hd as [x NZ rq Hs _ IH|a b Hab _ IH|a b NZ rq He _ IH _ IHa|ins outs a b Hf Ha Hb' _ IH].
    - eapply driven_source; [by apply (source_perm _ _ Hj)|done].
    - eapply driven_bond; [by rewrite <- Hb|done].
    - eapply driven_edge; [by apply (edge_perm _ _ Hj)|done|done].
    - eapply driven_float; [by apply (float_perm _ _ Hj)|done|done|done].
  Qed.
  Lemma driven_perm (js1 js2 : list (injection N)) bonds1 bonds2 : js1 ≡ₚ js2 -> bonds1 ≡ₚ bonds2 -> forall n, driven js1 bonds1 n <-> driven js2 bonds2 n.
  Proof. intros Hj Hb n. split; by apply driven_perm_1. Qed.
  Lemma link_perm (js1 js2 : list (injection N)) bonds1 bonds2 : js1 ≡ₚ js2 -> bonds1 ≡ₚ bonds2 -> forall a b, link js1 bonds1 a b <-> link js2 bonds2 a b.
  Proof.
    intros Hj Hb a b. unfold link. rewrite Hb. setoid_rewrite (edge_perm _ _ Hj).
    by setoid_rewrite (driven_perm _ _ _ _ Hj Hb).
  Qed.
  Lemma live_perm (js1 js2 : list (injection N)) bonds1 bonds2 : js1 ≡ₚ js2 -> bonds1 ≡ₚ bonds2 -> forall a, live_source js1 bonds1 a <-> live_source js2 bonds2 a.
  Proof.
    intros Hj Hb a. unfold live_source. setoid_rewrite (source_perm _ _ Hj).
    by setoid_rewrite (driven_perm _ _ _ _ Hj Hb).
  Qed.
  Lemma needed_perm (js1 js2 : list (injection N)) bonds1 bonds2 : js1 ≡ₚ js2 -> bonds1 ≡ₚ bonds2 -> forall a, needed js1 bonds1 a <-> needed js2 bonds2 a.
  Proof.
    intros Hj Hb a. unfold needed. setoid_rewrite (source_perm _ _ Hj). setoid_rewrite (edge_perm _ _ Hj).
    setoid_rewrite (driven_perm _ _ _ _ Hj Hb). by setoid_rewrite Hj.
  Qed.
  Lemma influences_perm (js1 js2 : list (injection N)) bonds1 bonds2 : js1 ≡ₚ js2 -> bonds1 ≡ₚ bonds2 ->
    forall a b, rtc (influences js1 bonds1) a b <-> rtc (influences js2 bonds2) a b.
  Proof.
    intros Hj Hb a b. assert (forall a b, influences js1 bonds1 a b <-> influences js2 bonds2 a b) as Hi.
    { intros x y. unfold influences. rewrite (link_perm _ _ _ _ Hj Hb). by setoid_rewrite (float_perm _ _ Hj). }
    split; apply rtc_subrel; intros x y; apply Hi.
  Qed.
  Lemma C33_order_independent_lem (rt1 rt2 : coh_runtime N) known f1 f2 js1 js2 bonds1 bonds2
    isrc1 iedge1 isrc2 iedge2 B1 B2 :
  coh_runtime_ok rt1 -> coh_runtime_ok rt2 -> frozen js1 -> js1 ≡ₚ js2 -> bonds1 ≡ₚ bonds2 ->
  coherent_run rt1 known f1 js1 bonds1 isrc1 iedge1 (Ok B1) ->
  coherent_run rt2 known f2 js2 bonds2 isrc2 iedge2 (Ok B2) ->
  b_inputs B1 = b_inputs B2 /\ b_outputs B1 = b_outputs B2 /\
  (forall n, inl n ∈ b_active B1 <-> inl n ∈ b_active B2) /\
  (forall v w, w ∈ ds_get (g_seq (b_full B1)) v <-> w ∈ ds_get (g_seq (b_full B2)) v) /\
  (forall v w, w ∈ ds_get (g_seq (b_perturb B1)) v <-> w ∈ ds_get (g_seq (b_perturb B2)) v).
  Proof.
    intros R1 R2 HF Hj Hb H1 H2. assert (frozen js2) as HF2.
    { destruct HF as [HF1 HF2]. split; [intros x NZ rq Hs; apply (HF1 x); by apply (source_perm _ _ Hj)|].
      intros a b NZ rq Hs; apply (HF2 a b); by apply (edge_perm _ _ Hj). }
    pose proof (run_result known _ _ _ _ _ _ _ R1 HF H1) as S1.
    pose proof (run_result known _ _ _ _ _ _ _ R2 HF2 H2) as S2.
    split_and!.
    - apply set_eq. intros v. rewrite (rs_inputs _ _ _ S1), (rs_inputs _ _ _ S2). by setoid_rewrite (live_perm _ _ _ _ Hj Hb).
    - apply set_eq. intros v. rewrite (rs_outputs _ _ _ S1), (rs_outputs _ _ _ S2). by setoid_rewrite (needed_perm _ _ _ _ Hj Hb).
    - intros n. rewrite (rs_active _ _ _ S1), (rs_active _ _ _ S2). apply (driven_perm _ _ _ _ Hj Hb).
    - intros v w. rewrite (rs_full _ _ _ S1), (rs_full _ _ _ S2). by setoid_rewrite (link_perm _ _ _ _ Hj Hb).
    - intros v w. rewrite (rs_pert _ _ _ S1), (rs_pert _ _ _ S2). setoid_rewrite (link_perm _ _ _ _ Hj Hb).
      setoid_rewrite (influences_perm _ _ _ _ Hj Hb). setoid_rewrite (live_perm _ _ _ _ Hj Hb).
      setoid_rewrite (needed_perm _ _ _ _ Hj Hb). unfold drive_ac, read_ac. by setoid_rewrite Hj.
  Qed.
  Lemma C33_terminates_lem (rt : coh_runtime N) known js bonds :
  coh_runtime_ok rt -> frozen js ->
  (forall x NZ rq, source_term js x NZ rq -> known x = true) ->
  (forall a b NZ rq, edge_term js a b NZ rq -> known b = true) ->
  exists isrc iedge c, forall fuel, c <= fuel ->
    exists B, coherent_run rt known fuel js bonds isrc iedge (Ok B).
  Proof.
    intros HR HF K1 K2.
    destruct (inserts_total known js (∅, ∅)) as [[srcs edges] Hm].
    { intros j a [NZ rq] Hj Ha. apply (K1 a NZ rq). by exists j. }
    { intros j a b [NZ rq] Hj Ha. apply (K2 a b NZ rq). by exists j. }
    exists (map_to_list srcs), (map_to_list edges).
    by apply (run_total known rt js bonds srcs edges).
  Qed.
End props.
Definition ex_inj : injection nat :=
  MkInj [((0, 1), ([], [])); ((1, 2), ([0], [0])); ((1, 3), ([7], [7]))]
        [(0, ([], [])); (4, ([1; 2], [1; 2]))] None (Some [([4], [5])]) [] [].
Definition ex_rt : coh_runtime nat := CohRt (fun X => elements X) (fun X => head (elements X)).
Lemma C33_runtime_lem : coh_runtime_ok ex_rt.
Proof.
  split; simpl; [done| |].
  - intros X n Hn. apply elem_of_elements. destruct (elements X) as [|a l]; [done|]. injection Hn as ->. left.
  - intros X HX. apply leibniz_equiv, elements_empty_iff. by destruct (elements X).
Qed.
Lemma C33_frozen_lem : frozen [ex_inj].
Proof.
  split.
  - intros x NZ rq (j & Hj%elem_of_list_singleton & Hx). subst j. cbn [ex_inj i_sources] in Hx.
    rewrite !elem_of_cons, elem_of_nil in Hx. destruct Hx as [[= _ -> ->]|[[= _ -> ->]|[]]]; split; apply (bool_decide_unpack _); vm_compute; exact I.
  - intros a b NZ rq (j & Hj%elem_of_list_singleton & Hx). subst j. cbn [ex_inj i_edges] in Hx.
    rewrite !elem_of_cons, elem_of_nil in Hx. destruct Hx as [[= _ _ -> ->]|[[= _ _ -> ->]|[[= _ _ -> ->]|[]]]]; split; apply (bool_decide_unpack _); vm_compute; exact I.
Qed.
Definition is_ok {A} (r : res A) (p : A -> bool) : bool := match r with Ok a => p a | Err _ => false end.
Lemma C33_run_lem : exists isrc iedge B,
  coherent_run ex_rt (fun _ => true) 20 [ex_inj] [(5, 6)] isrc iedge (Ok B) /\
  b_active B ∖ list_to_set [inr (0, 0)] = list_to_set (inl <$> [0; 1; 2; 4; 5; 6]) /\
  b_outputs B = list_to_set (inl <$> [0; 1; 2]) /\ inl 7 ∉ b_active B.
Proof.
  destruct (mfor (injection_insert (fun _ => true)) [ex_inj] (∅, ∅)) as [[srcs edges]|] eqn:Hm; [|by vm_compute in Hm].
  exists (map_to_list srcs), (map_to_list edges).
  assert (is_ok (sparsity_graph (cr_enum ex_rt) (cr_pick ex_rt) 20 [ex_inj] [(5, 6)] (map_to_list srcs) (map_to_list edges)) (fun B => bool_decide (
    b_active B ∖ list_to_set [inr (0, 0)] = list_to_set (inl <$> [0; 1; 2; 4; 5; 6]) /\
    b_outputs B = list_to_set (inl <$> [0; 1; 2]) /\ inl 7 ∉ b_active B)) = true) as Hok.
  { vm_compute in Hm. injection Hm as <- <-. vm_compute. done. }
  destruct (sparsity_graph _ _ _ _ _ _ _) as [B|] eqn:HB; [|done]. simpl in Hok.
  apply bool_decide_eq_true in Hok. exists B. split; [|done]. exists srcs, edges. by rewrite HB.
Qed.
