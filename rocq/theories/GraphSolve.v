(** The whole 'loop_fast_unstable' inverse solve. *)
From Verif Require Import Fld Py LinSpec LinAlg LinReduce GraphModel GraphSpec GraphProofs GraphPurge.
Local Open Scope fld_scope.

Section gs.
  Context {K : fld} {N : Type} `{Countable N}.
  Add Field FF : (f_theory K).
  Notation W := (wnode N).
  Notation wgraph := (graph K W).

  Definition is_src (w : W) : Prop := match w with WIn _ | WVac => True | _ => False end.
  Definition is_out (w : W) : Prop := match w with WOut _ => True | _ => False end.
  #[local] Instance is_src_dec w : Decision (is_src w).
  Proof. destruct w; simpl; apply _. Defined.

  (** ** dressing as one fold *)
  Definition edge : Type := (W * W) * K.
  Definition add_edges (l : list edge) (g : wgraph) : wgraph :=
    fold_left (fun g e => add_edge g e.1.1 e.1.2 e.2) l g.

  Lemma add_edges_seq l : forall g r s,
    s ∈ seqs (add_edges l g) r <-> s ∈ seqs g r \/ (r, s) ∈ l.*1.
  Proof.
    induction l as [|[[a b] v] l IH]; intros g r s; simpl; [set_solver|].
    unfold add_edges in *. simpl. rewrite IH. unfold seqs, add_edge. simpl. rewrite ds_get_add.
    rewrite elem_of_cons. destruct (decide (r = a)) as [->|Hne].
    - rewrite elem_of_union, elem_of_singleton. split.
      + intros [[->|?]|?]; tauto.
      + intros [?|[[= ->]|?]]; tauto.
    - split; [tauto|]. intros [?|[[= -> ?]|?]]; tauto.
  Qed.
  Lemma add_edges_req l : forall g r s,
    r ∈ reqs (add_edges l g) s <-> r ∈ reqs g s \/ (r, s) ∈ l.*1.
  Proof.
    induction l as [|[[a b] v] l IH]; intros g r s; simpl; [set_solver|].
    unfold add_edges in *. simpl. rewrite IH. unfold reqs, add_edge. simpl. rewrite ds_get_add.
    rewrite elem_of_cons. destruct (decide (s = b)) as [->|Hne].
    - rewrite elem_of_union, elem_of_singleton. split.
      + intros [[->|?]|?]; tauto.
      + intros [?|[[= ->]|?]]; tauto.
    - split; [tauto|]. intros [?|[[= ? ->]|?]]; tauto.
  Qed.
  Lemma add_edges_em_notin l : forall g r s,
    (r, s) ∉ l.*1 -> g_em (add_edges l g) !! (r, s) = g_em g !! (r, s).
  Proof.
    induction l as [|[[a b] v] l IH]; intros g r s Hn; [done|].
    unfold add_edges in *. simpl. rewrite IH by set_solver. simpl.
    apply lookup_insert_ne. set_solver.
  Qed.
  Lemma add_edges_em_in l : forall g r s v,
    NoDup (l.*1) -> ((r, s), v) ∈ l -> g_em (add_edges l g) !! (r, s) = Some v.
  Proof.
    induction l as [|[[a b] v'] l IH]; intros g r s v Hnd Hin; [set_solver|].
    rewrite fmap_cons in Hnd. apply NoDup_cons in Hnd as [Hn Hnd].
    apply elem_of_cons in Hin as [[= -> -> ->]|Hin].
    - unfold add_edges. simpl. fold (add_edges l (add_edge g a b v')).
      rewrite add_edges_em_notin by done. simpl. apply lookup_insert.
    - unfold add_edges in *. simpl. by apply IH.
  Qed.

  Context (V I O : list N) (om : option (list (N * K))) (negative : bool) (g : wgraph).
  Context (Hsi : scattering_input V g).
  Context (HI : NoDup I) (HO : NoDup O) (Hom : NoDup ((default [] om).*1)).
  Context (HIV : forall i, i ∈ I -> i ∈ V) (HOV : forall o, o ∈ O -> o ∈ V)
          (HmV : forall i, i ∈ (default [] om).*1 -> i ∈ V).
  Notation sgn := (if negative then - (1) else 1 : K).

  Definition edges : list edge :=
    ((fun iv => ((WVac, Nd iv.1), iv.2)) <$> default [] om) ++
    ((fun i => ((WIn i, Nd i), 1)) <$> I) ++ ((fun o => ((Nd o, WOut o), sgn)) <$> O).
  Notation gd := (dress (pre_purge g) O I om negative).

  Lemma dress_edges : gd = add_edges edges (pre_purge g).
  Proof.
    unfold dress, edges, add_edges. rewrite !fold_left_app.
    assert (forall (A : Type) (f : A -> edge) l (g0 : wgraph),
      fold_left (fun g e => add_edge g e.1.1 e.1.2 e.2) (f <$> l) g0
      = fold_left (fun g a => add_edge g (f a).1.1 (f a).1.2 (f a).2) l g0) as Hf.
    { intros A f l. induction l as [|a l IH]; intros g0; [done|]. rewrite fmap_cons. simpl. apply IH. }
    rewrite !Hf. simpl. by destruct om.
  Qed.

  Lemma edges_elem e : e ∈ edges <->
    (exists iv, e = ((WVac, Nd iv.1), iv.2) /\ iv ∈ default [] om) \/
    (exists i, e = ((WIn i, Nd i), 1) /\ i ∈ I) \/
    (exists o, e = ((Nd o, WOut o), sgn) /\ o ∈ O).
  Proof. unfold edges. rewrite !elem_of_app, !elem_of_list_fmap. done. Qed.
  Lemma edges_key r s : (r, s) ∈ edges.*1 <->
    (exists i, (r, s) = (WVac, Nd i) /\ i ∈ (default [] om).*1) \/
    (exists i, (r, s) = (WIn i, Nd i) /\ i ∈ I) \/
    (exists o, (r, s) = (Nd o, WOut o) /\ o ∈ O).
  Proof.
    rewrite elem_of_list_fmap. setoid_rewrite edges_elem. split.
    - intros ([k v] & -> & [([i v'] & [= -> ->] & Hi)|[(i & [= -> ->] & Hi)|(o & [= -> ->] & Ho)]]).
      + left. exists i. split; [done|]. apply elem_of_list_fmap. exists (i, v'). done.
      + right; left. eauto.
      + right; right. eauto.
    - intros [(i & Hk & Hi)|[(i & Hk & Hi)|(o & Hk & Ho)]].
      + apply elem_of_list_fmap in Hi as ([i' v] & -> & Hi). simpl in Hk.
        exists ((WVac, Nd i'), v). split; [done|]. left. exists (i', v). done.
      + exists ((WIn i, Nd i), 1). split; [done|]. right; left. eauto.
      + exists ((Nd o, WOut o), sgn). split; [done|]. right; right. eauto.
  Qed.
  Lemma edges_nodup : NoDup edges.*1.
  Proof.
    unfold edges. rewrite !fmap_app, <- !list_fmap_compose.
    assert (forall (A B : Type) (f : A -> B) l, Inj eq eq f -> NoDup l -> NoDup (f <$> l)) as Hf.
    { intros. by apply NoDup_fmap. }
    rewrite !NoDup_app. split_and!.
    - rewrite (list_fmap_ext (fst ∘ (fun iv : N * K => (WVac, Nd iv.1, iv.2))) ((fun i => (WVac, Nd i)) ∘ fst))
        by done.
      rewrite list_fmap_compose. apply Hf; [|done]. intros a b [= ->]. done.
    - intros p. rewrite elem_of_app, !elem_of_list_fmap. intros (? & -> & _) [(? & [=] & _)|(? & [=] & _)].
    - apply Hf; [|done]. intros a b. simpl. congruence.
    - intros p. rewrite !elem_of_list_fmap. intros (? & -> & _) (? & [=] & _).
    - apply Hf; [|done]. intros a b. simpl. congruence.
  Qed.

  Definition Vl : list W := (Nd <$> V) ++ (WIn <$> I) ++ (WOut <$> O) ++ [WVac].
  Definition Vd : gset W := list_to_set Vl.
  Lemma Vl_nodup : NoDup Vl.
  Proof.
    unfold Vl. rewrite !NoDup_app. split_and!.
    - apply NoDup_fmap; [congruence|apply Hsi].
    - intros p. rewrite !elem_of_app, !elem_of_list_fmap, elem_of_list_singleton. naive_solver.
    - apply NoDup_fmap; [congruence|done].
    - intros p. rewrite !elem_of_app, !elem_of_list_fmap, elem_of_list_singleton. naive_solver.
    - apply NoDup_fmap; [congruence|done].
    - intros p. rewrite !elem_of_list_fmap, elem_of_list_singleton. naive_solver.
    - apply NoDup_singleton.
  Qed.
  Lemma Vd_elem w : w ∈ Vd <->
    match w with Nd n => n ∈ V | WIn i => i ∈ I | WOut o => o ∈ O | WVac => True end.
  Proof.
    unfold Vd, Vl. rewrite elem_of_list_to_set, !elem_of_app, !elem_of_list_fmap, elem_of_list_singleton.
    clear. destruct w; naive_solver.
  Qed.

  Lemma dress_links r s : s ∈ seqs gd r <->
    is_Some (g_em g !! (r, s)) \/ (r, s) ∈ edges.*1.
  Proof.
    rewrite dress_edges, add_edges_seq. destruct (pre_purge_ok g r s) as [-> _].
    split; [tauto|]. intros [Hs|?]; [|tauto]. left. split; [|done]. by apply (si_em _ _ Hsi).
  Qed.
  Lemma em_shape r s : is_Some (g_em g !! (r, s)) -> exists a b, r = Nd a /\ s = Nd b /\ a ∈ V /\ b ∈ V.
  Proof. intros Hs. by apply (si_nodes _ _ Hsi), (si_em _ _ Hsi). Qed.
  Lemma key_shape r s : (r, s) ∈ edges.*1 -> r ∈ Vd /\ s ∈ Vd /\ ~ is_src s /\ ~ is_out r /\ g_em g !! (r, s) = None.
  Proof.
    rewrite edges_key, !Vd_elem. assert (forall r s, ~ is_Some (g_em g !! (r, s)) -> g_em g !! (r, s) = None) as Hn.
    { intros r' s' Hx. destruct (g_em g !! (r', s')); [|done]. exfalso; eauto. }
    intros [(i & [= -> ->] & Hi)|[(i & [= -> ->] & Hi)|(o & [= -> ->] & Ho)]]; split_and!; auto;
      try (intros []); try (apply Hn; intros Hx; apply em_shape in Hx; naive_solver).
  Qed.

  Lemma dress_wf : wf Vd gd.
  Proof.
    split.
    - intros r s. rewrite dress_edges, add_edges_seq, add_edges_req.
      destruct (pre_purge_ok g r s) as [-> ->]. unfold seqs, reqs. by rewrite (si_mirror _ _ Hsi).
    - intros r s. rewrite dress_links. intros [Hs|Hk].
      + apply em_shape in Hs as (a & b & -> & -> & ? & ?). by rewrite !Vd_elem.
      + apply key_shape in Hk. tauto.
    - intros r s _ _. rewrite dress_links. rewrite dress_edges.
      destruct (decide ((r, s) ∈ edges.*1)) as [Hk|Hk].
      + split; [tauto|]. intros _. apply elem_of_list_fmap in Hk as ([k v] & Hk & Hin). simpl in Hk. subst k.
        rewrite (add_edges_em_in _ _ _ _ v); [eauto|apply edges_nodup|done].
      + rewrite add_edges_em_notin by done. simpl. tauto.
  Qed.

  Lemma dress_ef r s : r ∈ Vd -> s ∈ Vd ->
    ef gd r s = match r, s with
                | Nd a, Nd b => S_of g a b
                | WVac, Nd b => m_of om b
                | WIn i, Nd b => if decide (i = b) then 1 else 0
                | Nd a, WOut o => if decide (a = o) then sgn else 0
                | _, _ => 0
                end.
  Proof.
    intros Hr Hs. rewrite (wf_ef Vd) by (done || apply dress_wf).
    rewrite dress_edges.
    assert (forall v, (r, s, v) ∈ edges -> default 0 (g_em (add_edges edges (pre_purge g)) !! (r, s)) = v) as Hin.
    { intros v Hv. rewrite (add_edges_em_in _ _ _ _ v); [done|apply edges_nodup|done]. }
    assert ((r, s) ∉ edges.*1 -> default 0 (g_em (add_edges edges (pre_purge g)) !! (r, s))
              = default 0 (g_em g !! (r, s))) as Hout.
    { intros Hn. by rewrite add_edges_em_notin. }
    assert ((forall a b, r = Nd a -> s = Nd b -> False) -> g_em g !! (r, s) = None) as Hnone.
    { intros Hx. destruct (g_em g !! (r, s)) eqn:He; [|done].
      destruct (em_shape r s) as (a & b & -> & -> & _); [by rewrite He|]. exfalso; eauto. }
    assert ((forall a b, r = Nd a -> s = Nd b -> False) -> (r, s) ∉ edges.*1 ->
      default 0 (g_em (add_edges edges (pre_purge g)) !! (r, s)) = 0) as H0.
    { intros Hx Hn. rewrite Hout by done. by rewrite Hnone. }
    destruct r as [a|i|o|], s as [b|i'|o'|]; try (apply H0; [congruence|]; rewrite edges_key; naive_solver).
    - apply Hout. rewrite edges_key. naive_solver.
    - rewrite Vd_elem in Hs. destruct (decide (a = o')) as [->|Hne].
      + apply Hin, edges_elem. right; right. eauto.
      + apply H0; [congruence|]. rewrite edges_key. naive_solver.
    - rewrite Vd_elem in Hr. destruct (decide (i = b)) as [->|Hne].
      + apply Hin, edges_elem. right; left. eauto.
      + apply H0; [congruence|]. rewrite edges_key. naive_solver.
    - unfold m_of. destruct (decide (b ∈ (default [] om).*1)) as [Hb|Hb].
      + pose proof Hb as Hb'. apply elem_of_list_fmap in Hb' as ([b' v] & -> & Hbv). simpl.
        rewrite (elem_of_list_to_map_1 _ b' v) by done. simpl.
        apply Hin, edges_elem. left. exists (b', v). done.
      + rewrite (not_elem_of_list_to_map_1 _ b) by done. simpl.
        apply H0; [congruence|]. rewrite edges_key. naive_solver.
  Qed.

  (** ** the dressed state *)
  Definition Xof (x a : N -> K) (t : K) (w : W) : K :=
    match w with Nd n => x n | WIn i => a i | WOut o => sgn * x o | WVac => t end.
  Definition source (a : N -> K) (t : K) (s : N) : K :=
    (if decide (s ∈ I) then a s else 0) + m_of om s * t.

  Lemma flow_list (e : W -> W -> K) X s : flow Vd e X s =
    fsum (fun n => e (Nd n) s * X (Nd n)) V + fsum (fun n => e (WIn n) s * X (WIn n)) I +
    fsum (fun n => e (WOut n) s * X (WOut n)) O + e WVac s * X WVac.
  Proof.
    unfold flow, Vd. rewrite gsum_list by apply Vl_nodup. unfold Vl.
    rewrite !fsum_app, !fsum_map. simpl. ring.
  Qed.

  Lemma dressed_eqs x a t :
    steady_state V (S_of g) (source a t) x ->
    forall s, s ∈ Vd -> ~ is_src s -> Xof x a t s = flow Vd (ef gd) (Xof x a t) s.
  Proof.
    intros Hss s Hs Hsrc. rewrite flow_list.
    rewrite (fsum_0 (fun n => ef gd (WOut n) s * Xof x a t (WOut n)) O).
    2: { intros o Ho. rewrite dress_ef; [destruct s; ring|by rewrite Vd_elem|done]. }
    destruct s as [n|i|o|]; try (by destruct Hsrc).
    - rewrite Vd_elem in Hs. simpl. rewrite (Hss n Hs).
      rewrite (fsum_ext (fun n0 => ef gd (Nd n0) (Nd n) * x n0) (fun r => S_of g r n * x r)).
      2: { intros r Hr. rewrite dress_ef by (by rewrite Vd_elem). done. }
      rewrite (fsum_ext (fun n0 => ef gd (WIn n0) (Nd n) * a n0)
                        (fun i => if decide (i = n) then a i else 0)).
      2: { intros r Hr. rewrite dress_ef by (by rewrite Vd_elem). destruct (decide _); ring. }
      rewrite fsum_delta by done. rewrite dress_ef by (by rewrite Vd_elem).
      unfold source. ring.
    - rewrite Vd_elem in Hs. simpl.
      rewrite (fsum_ext _ (fun n => if decide (n = o) then sgn * x n else 0)).
      2: { intros r Hr. rewrite dress_ef by (by rewrite Vd_elem). destruct (decide _); ring. }
      rewrite fsum_delta by apply Hsi. rewrite decide_True by auto.
      rewrite (fsum_0 _ I).
      2: { intros i Hi. rewrite dress_ef by (by rewrite Vd_elem). ring. }
      rewrite dress_ef by (by rewrite Vd_elem). ring.
  Qed.

  (** ** purging *)
  Definition eqs (g : wgraph) (U : gset W) (X : W -> K) : Prop :=
    forall s, s ∈ U -> ~ is_src s -> (is_out s \/ seqs g s <> ∅) -> X s = flow U (ef g) X s.

  (** what the purges preserve; [U] are the surviving nodes *)
  Record purged (U : gset W) (g' : wgraph) : Prop := {
    pu_wf : wf U g';
    pu_sub : U ⊆ Vd;
    pu_ef : forall r s, r ∈ U -> s ∈ U -> seqs g' s <> ∅ -> ef g' r s = ef gd r s;
    pu_out : forall o, seqs g' (WOut o) = ∅;
    pu_src : forall w, is_src w -> reqs g' w = ∅;
    pu_dom : forall r s, is_Some (g_em g' !! (r, s)) -> is_Some (g_em gd !! (r, s));
  }.

  Lemma purged_start : purged Vd gd.
  Proof.
    split; auto using dress_wf.
    - intros o. apply set_eq. intros s. rewrite dress_links. split; [|set_solver].
      intros [Hs|Hk].
      + apply em_shape in Hs. naive_solver.
      + apply key_shape in Hk as (_ & _ & _ & Hk & _). by destruct Hk.
    - intros w Hw. apply set_eq. intros r. rewrite <- (wf_mirror _ _ dress_wf), dress_links.
      split; [|set_solver]. intros [Hs|Hk].
      + apply em_shape in Hs as (? & ? & _ & -> & _). done.
      + apply key_shape in Hk as (_ & _ & Hk & _). done.
  Qed.

  Notation start_in := ({[WVac]} ∪ list_to_set (WIn <$> I) : gset W).
  Notation start_out := (list_to_set (WOut <$> O) : gset W).
  Lemma src_start w : w ∈ Vd -> is_src w -> w ∈ start_in.
  Proof. rewrite Vd_elem. destruct w; simpl; try done; set_solver. Qed.
  Lemma out_start w : w ∈ Vd -> is_out w -> w ∈ start_out.
  Proof.
    rewrite Vd_elem. destruct w; simpl; try done. intros. rewrite elem_of_list_to_set.
    by apply elem_of_list_fmap_1.
  Qed.

  Context (enum : gset W -> list W) (Henum : forall X, enum X ≡ₚ elements X).
  Context (pick : gset W -> option W)
          (Hpick : forall X n, pick X = Some n -> n ∈ X)
          (Hpick_none : forall X, pick X = None -> X = ∅).

  Lemma purge_in_ok :
    exists (A : gset W) (g1 : wgraph), purge_reqless enum pick start_in gd = Ok g1 /\
      purged (Vd ∩ A) g1 /\
      (forall w, w ∈ Vd ∩ A -> w ∈ dom (g_seq g1)) /\
      (forall n, n ∈ A <-> reach_from (g_seq gd) start_in n) /\
      (forall X, eqs gd Vd X -> (forall w, w ∈ Vd -> w ∉ A -> X w = 0) -> eqs g1 (Vd ∩ A) X).
  Proof.
    destruct (purge_reqless_ok enum Henum pick Hpick Hpick_none start_in gd)
      as (A & g1 & Hp & HA & Hs & Hr & He & Hd & Hdom).
    { apply dress_wf. }
    exists A, g1. split; [done|].
    assert (wf (Vd ∩ A) g1) as Hwf1.
    { split.
      - intros. by rewrite Hr.
      - intros r s Hrs. apply Hs in Hrs as [Hrs HrA].
        destruct (wf_in _ _ dress_wf _ _ Hrs). split; [set_solver|].
        apply elem_of_intersection. split; [done|]. apply HA.
        eapply reach_from_closed; [|exact Hrs]. by apply HA.
      - intros r s HrV HsV. rewrite He by set_solver. rewrite Hs, (wf_em _ _ dress_wf) by set_solver.
        set_solver. }
    assert (forall r s, r ∈ Vd ∩ A -> s ∈ Vd ∩ A -> ef g1 r s = ef gd r s) as Hef.
    { intros r s HrV HsV. rewrite (wf_ef (Vd ∩ A)) by done.
      rewrite (wf_ef Vd) by (apply dress_wf || set_solver). by rewrite He by set_solver. }
    split_and!.
    - split; auto.
      + set_solver.
      + intros o. apply set_eq. intros s. rewrite Hs, (pu_out _ _ purged_start). set_solver.
      + intros w Hw. apply set_eq. intros r. rewrite Hr, Hs.
        rewrite (wf_mirror _ _ dress_wf), (pu_src _ _ purged_start) by done. set_solver.
    - intros w Hw. apply Hdom. set_solver.
    - done.
    - intros X HX Hz s Hs' Hsrc Hor.
      rewrite (HX s).
      + unfold flow. symmetry. rewrite (gsum_ext _ (fun r => ef gd r s * X r)).
        * apply gsum_subset; [set_solver|]. intros r Hr1 Hr2. rewrite (Hz r); [ring|done|].
          intros HrA. apply Hr2. by apply elem_of_intersection.
        * intros r Hr'. by rewrite Hef.
      + set_solver.
      + done.
      + destruct Hor as [?|Hne]; [by left|right]. intros He0. apply Hne. apply set_eq. intros k.
        rewrite Hs, He0. set_solver.
  Qed.

  Lemma purge_out_ok U g1 : purged U g1 ->
    exists (U2 : gset W) (g2 : wgraph), purge_seqless enum pick start_out g1 = Ok g2 /\
      purged U2 g2 /\ U2 ⊆ U /\ (forall w, w ∈ U -> is_out w -> w ∈ U2) /\
      (forall X, eqs g1 U X -> eqs g2 U2 X) /\
      ((forall w, w ∈ U -> w ∈ dom (g_seq g1)) ->
         forall w, w ∈ U2 -> ~ is_out w -> seqs g2 w <> ∅).
  Proof.
    intros Hpu. pose proof (pu_wf _ _ Hpu) as Hwf.
    destruct (purge_seqless_ok enum Henum pick Hpick Hpick_none start_out g1)
      as (A & g2 & Hp & HA & Hs & Hr & He & Hd).
    { apply Hwf. }
    set (U2 := filter (fun w => w ∈ A \/ w ∉ dom (g_seq g1)) U).
    assert (forall w, w ∈ U2 <-> w ∈ U /\ (w ∈ A \/ w ∉ dom (g_seq g1))) as HU2.
    { intros w. unfold U2. rewrite elem_of_filter. tauto. }
    assert (forall r s, s ∈ seqs g1 r -> r ∈ dom (g_seq g1)) as Hkey.
    { intros r s Hl. apply elem_of_dom. unfold seqs, ds_get in Hl.
      destruct (g_seq g1 !! r); [eauto|set_solver]. }
    assert (forall r s, s ∈ seqs g1 r -> s ∈ A -> r ∈ A) as HAcl.
    { intros r s Hl HsA. apply HA. eapply reach_from_closed; [by apply HA|].
      by apply (wf_mirror _ _ Hwf) in Hl. }
    exists U2, g2. split; [done|].
    assert (wf U2 g2) as Hwf2.
    { split.
      - intros. by rewrite Hr.
      - intros r s Hrs. apply Hs in Hrs as (Hrs & HrA & Hor).
        destruct (wf_in _ _ Hwf _ _ Hrs). rewrite !HU2. tauto.
      - intros r s HrV HsV. apply HU2 in HrV as [HrV HrA]. apply HU2 in HsV as [HsV HsA].
        rewrite He by done. rewrite Hs, (wf_em _ _ Hwf) by done. split; [|tauto].
        intros Hl. split; [done|]. split; [|done]. destruct HrA as [?|Hn]; [done|].
        exfalso. by apply Hn, (Hkey r s). }
    assert (forall r s, r ∈ U2 -> s ∈ U2 -> ef g2 r s = ef g1 r s) as Hef.
    { intros r s HrV HsV. rewrite (wf_ef U2) by done. apply HU2 in HrV as [HrV HrA].
      apply HU2 in HsV as [HsV HsA].
      rewrite (wf_ef U) by done. by rewrite He by done. }
    assert (forall s, seqs g2 s <> ∅ -> seqs g1 s <> ∅) as Hne.
    { intros s Hn He0. apply Hn. apply set_eq. intros k. rewrite Hs, He0. set_solver. }
    assert (forall w, w ∈ U -> is_out w -> w ∈ A) as HoutA.
    { intros w Hw Ho. apply HA. exists w. split; [|constructor]. apply out_start; [|done].
      by apply (pu_sub _ _ Hpu). }
    split_and!.
    - split; auto.
      + intros w. rewrite HU2. intros [? _]. by apply (pu_sub _ _ Hpu).
      + intros r s HrV HsV Hn. rewrite Hef by done. apply HU2 in HrV, HsV.
        apply (pu_ef _ _ Hpu); [tauto|tauto|by apply Hne].
      + intros o. apply set_eq. intros s. rewrite Hs, (pu_out _ _ Hpu). set_solver.
      + intros w Hw. apply set_eq. intros r. rewrite Hr, Hs.
        rewrite (wf_mirror _ _ Hwf), (pu_src _ _ Hpu) by done. set_solver.
      + intros r s Hrs. by apply (pu_dom _ _ Hpu), Hd.
    - intros w. rewrite HU2. tauto.
    - intros w Hw Ho. apply HU2. split; [done|]. left. auto.
    - intros X HX s Hs' Hsrc Hor.
      assert (s ∈ A) as HsA.
      { destruct Hor as [Ho|Hn].
        - apply HoutA; [|done]. apply HU2 in Hs'. tauto.
        - apply set_choose_L in Hn as [k Hk]. apply Hs in Hk. tauto. }
      rewrite (HX s).
      + unfold flow. symmetry. rewrite (gsum_ext _ (fun r => ef g1 r s * X r)).
        * apply gsum_subset; [intros w; rewrite HU2; tauto|].
          intros r Hr1 Hr2. rewrite HU2 in Hr2.
          assert (s ∉ seqs g1 r) as Hnl.
          { intros Hl. apply Hr2. split; [done|]. left. by eapply HAcl. }
          unfold ef. rewrite decide_False by done. ring.
        * intros r Hr'. by rewrite Hef.
      + apply HU2 in Hs'. tauto.
      + done.
      + destruct Hor as [?|Hn]; [by left|right]. by apply Hne.
    - intros Hkeys w Hw Hno He0. apply HU2 in Hw as [Hw [HwA|Hn]]; [|by apply Hn, Hkeys].
      apply HA in HwA as (s & Hst & Hrt).
      apply rtc_inv_r in Hrt as [->|(k & Hsk & Hkw)].
      + apply elem_of_list_to_set, elem_of_list_fmap in Hst as (o & -> & _). by apply Hno.
      + assert (k ∈ A) as HkA by (apply HA; exists s; done).
        fold (reqs g1 k) in Hkw. apply (wf_mirror _ _ Hwf) in Hkw.
        assert (k ∈ seqs g2 w) as Hin; [|rewrite He0 in Hin; set_solver].
        apply Hs. split; [done|]. split; [by eapply HAcl|by left].
  Qed.
End gs.
