(** Putting the inverse solve together. *)
From Verif Require Import Fld Py LinSpec LinAlg LinReduce GraphModel GraphSpec GraphProofs GraphPurge GraphSolve.
Local Open Scope fld_scope.

Section unwrap.
  Context {K : fld} {N : Type} `{Countable N}.
  Notation W := (wnode N).
  Notation wgraph := (graph K W).
  Context (enum : gset W -> list W) (Henum : forall X, enum X ≡ₚ elements X).
    Context (g : wgraph).

    Lemma unwrap_inner i l : forall (um um' : gmap (N * N) K),
      mfor (unwrap_step (g_em g) i)
           l um = Ok um' ->
      (forall w, w ∈ l -> is_out w) /\
      forall i' o, um' !! (i', o) =
        if decide (i' = i /\ WOut o ∈ l) then g_em g !! (WIn i, WOut o) else um !! (i', o).
    Proof.
      induction l as [|w l IH]; intros um um' Hf; simpl in Hf.
      - injection Hf as ->. split; [set_solver|]. intros i' o. rewrite decide_False; [done|set_solver].
      - unfold unwrap_step in Hf at 1. unfold d_get in Hf. destruct (g_em g !! (WIn i, w)) as [v|] eqn:Hv; [|done].
        simpl in Hf. destruct w as [n|n|o|]; try done.
        apply IH in Hf as [Hout Hlk]. split; [set_solver|]. intros i' o'. rewrite Hlk.
        destruct (decide (i' = i /\ WOut o' ∈ l)) as [[-> Hl]|Hl].
        + rewrite decide_True by set_solver. done.
        + destruct (decide (i' = i /\ o' = o)) as [[-> ->]|Hne].
          * rewrite lookup_insert, decide_True by set_solver. by rewrite Hv.
          * rewrite lookup_insert_ne by naive_solver. rewrite decide_False by set_solver. done.
    Qed.

    Lemma unwrap_outer (Is : list N) : forall um um',
      mfor (unwrap_in enum (ds_get (g_seq g)) (g_em g)) Is um = Ok um' ->
      forall i' o, um' !! (i', o) =
        if decide (i' ∈ Is /\ WOut o ∈ seqs g (WIn i')) then g_em g !! (WIn i', WOut o) else um !! (i', o).
    Proof.
      induction Is as [|i Is IH]; intros um um' Hf i' o; simpl in Hf.
      - injection Hf as ->. rewrite decide_False; [done|set_solver].
      - unfold unwrap_in in Hf at 1. destruct (mfor _ (enum _) um) as [um1|] eqn:Hi; [|done].
        apply unwrap_inner in Hi as [_ Hi].
        rewrite (IH _ _ Hf), Hi.
        destruct (decide (i' ∈ Is /\ WOut o ∈ seqs g (WIn i'))) as [[Hin Hl]|Hn].
        + rewrite decide_True by set_solver. done.
        + destruct (decide (i' = i /\ _)) as [[-> Hl]|Hn'].
          * rewrite (elem_of_enum enum Henum) in Hl. rewrite decide_True by set_solver. done.
          * rewrite (elem_of_enum enum Henum) in Hn'. fold (seqs g (WIn i)) in Hn'.
            rewrite decide_False; [done|]. rewrite elem_of_cons. naive_solver.
    Qed.

    Lemma unwrap_total Is :
      (forall i w, w ∈ seqs g (WIn i) -> is_Some (g_em g !! (WIn i, w))) ->
      (forall i w, i ∈ Is -> w ∈ seqs g (WIn i) -> is_out w) ->
      forall um, exists um', mfor (unwrap_in enum (ds_get (g_seq g)) (g_em g)) Is um = Ok um'.
    Proof.
      intros Hem. induction Is as [|i Is IH]; intros Hout um; simpl; [eauto|]. unfold unwrap_in at 1.
      assert (exists um1, mfor (unwrap_step (g_em g) i)
           (enum (ds_get (g_seq g) (WIn i))) um = Ok um1) as [um1 ->].
      { assert (forall w, w ∈ enum (ds_get (g_seq g) (WIn i)) -> w ∈ seqs g (WIn i)) as Hl.
        { intros w. by rewrite (elem_of_enum enum Henum). }
        revert um Hl. generalize (enum (ds_get (g_seq g) (WIn i))) as l.
        induction l as [|w l IHl]; intros um Hl; simpl; [eauto|].
        destruct (Hem i w) as [v Hv]; [set_solver|]. unfold unwrap_step at 1, d_get. rewrite Hv. simpl.
        destruct w; try (exfalso; apply (Hout i _ ltac:(set_solver) (Hl _ ltac:(left)))).
        apply IHl. set_solver. }
      apply IH. set_solver.
    Qed.

    Lemma unwrap_map (l : list N) : forall (m : gmap N K) o, NoDup l ->
      fold_left (fun m o => match g_em g !! (WVac, WOut o) with
                            | Some v => <[o := v]> m | None => m end) l m !! o
      = if decide (o ∈ l) then from_option Some (m !! o) (g_em g !! (WVac, WOut o)) else m !! o.
    Proof.
      induction l as [|a l IH]; intros m o Hnd; simpl; [done|].
      apply NoDup_cons in Hnd as [Hn Hnd]. rewrite IH by done.
      destruct (decide (o = a)) as [->|Hne].
      - rewrite decide_False by done. rewrite decide_True by set_solver.
        destruct (g_em g !! (WVac, WOut a)); simpl; [by rewrite lookup_insert|done].
      - assert ((match g_em g !! (WVac, WOut a) with Some v => <[a := v]> m | None => m end) !! o = m !! o) as ->.
        { destruct (g_em g !! (WVac, WOut a)); [by rewrite lookup_insert_ne|done]. }
        destruct (decide (o ∈ l)).
        + by rewrite decide_True by set_solver.
        + by rewrite decide_False by set_solver.
    Qed.
End unwrap.

Section main.
  Context {K : fld} {N : Type} `{Countable N}.
  Add Field FF : (f_theory K).
  Notation W := (wnode N).
  Notation wgraph := (graph K W).
  Context (enum : gset W -> list W) (Henum : forall X, enum X ≡ₚ elements X).
  Context (pick : gset W -> option W)
          (Hpick : forall X n, pick X = Some n -> n ∈ X)
          (Hpick_none : forall X, pick X = None -> X = ∅).
  Context (is_one : K -> bool) (Hone : forall x, is_one x = true -> x = 1).
  Context {C : Type} (cost : wgraph -> W -> C)
          (qpop : list (C * W) -> option ((C * W) * list (C * W))).
  Context (Hqpop : forall l x l', qpop l = Some (x, l') -> l ≡ₚ x :: l')
          (Hqpop_none : forall l, qpop l = None -> l = []).

  #[local] Instance is_src_dec' (w : W) : Decision (is_src w).
  Proof. destruct w; simpl; apply _. Defined.


  Context (V I O : list N) (om : option (list (N * K))) (negative purge_in purge_out : bool) (g : wgraph).
  Context (Hsi : scattering_input V g).
  Context (HI : NoDup I) (HO : NoDup O) (Hom : NoDup ((default [] om).*1)).
  Context (HIV : forall i, i ∈ I -> i ∈ V) (HOV : forall o, o ∈ O -> o ∈ V)
          (HmV : forall i, i ∈ (default [] om).*1 -> i ∈ V).
  Notation sgn := (if negative then - (1) else 1 : K).
  Notation gd := (dress (pre_purge g) O I om negative).
  Notation Vd := (Vd V I O).
  Notation solve := (fast_inverse_solve enum pick is_one cost qpop g O I om purge_in purge_out negative true).

  Let dl := dress_links V I O om negative g Hsi Hom HmV.
  Let dwf := dress_wf V I O om negative g Hsi HI HO Hom HIV HOV HmV.
  Let de := dress_ef V I O om negative g Hsi HI HO Hom HIV HOV HmV.
  Let deqs := dressed_eqs V I O om negative g Hsi HI HO Hom HIV HOV HmV.

  Notation nonsingular := (nonsingular V (S_of g)).

  Lemma nonsingular_injective :
    nonsingular <-> injective_sys V (fun r s => (if decide (r = s) then 1 else 0) - S_of g r s).
  Proof.
    assert (forall x s, s ∈ V ->
      fsum (fun m => ((if decide (m = s) then 1 else 0) - S_of g m s) * x m) V
      = x s - fsum (fun r => S_of g r s * x r) V) as Hs.
    { intros x s Hsv. rewrite (fsum_ext _ (fun m => (if decide (m = s) then x m else 0) - S_of g m s * x m)).
      - rewrite fsum_sub, fsum_delta by apply Hsi. by rewrite decide_True.
      - intros m _. destruct (decide _); ring. }
    split.
    - intros Hn x Hx. apply Hn. intros s Hsv. specialize (Hx s Hsv). rewrite Hs in Hx by done.
      apply fsub_0_eq in Hx. rewrite Hx. ring.
    - intros Hn x Hx. apply Hn. intros s Hsv. rewrite Hs by done. rewrite (Hx s Hsv) at 1. ring.
  Qed.

  (** Unreachable nodes are quiet when the network has a unique steady state. *)
  Lemma unreachable_zero (A : gset W) x a t :
    nonsingular -> steady_state V (S_of g) (source I om a t) x ->
    (forall n, n ∈ A <-> reach_from (g_seq gd) ({[WVac]} ∪ list_to_set (WIn <$> I)) n) ->
    forall w, w ∈ Vd -> w ∉ A -> Xof negative x a t w = 0.
  Proof.
    intros Hns Hss HA.
    assert (forall n, n ∈ V -> Nd n ∉ A -> x n = 0) as Hz.
    { set (P := filter (fun n => Nd n ∉ A) V).
      assert (injective_sys P (fun r s => (if decide (r = s) then 1 else 0) - S_of g r s)) as Hinj.
      { apply (injective_block V); [apply Hsi|apply NoDup_filter, Hsi| | |by apply nonsingular_injective].
        - intros p Hp. apply elem_of_list_filter in Hp. tauto.
        - intros m p Hm Hp Hmp. rewrite decide_False by (intros ->; done).
          apply elem_of_list_filter in Hp as [HpA HpV].
          assert (S_of g m p = 0) as ->; [|ring]. unfold S_of.
          destruct (g_em g !! (Nd m, Nd p)) eqn:He; [|done]. exfalso.
          apply Hmp, elem_of_list_filter. split; [|done]. intros HmA. apply HpA. apply HA.
          eapply reach_from_closed; [by apply HA|]. fold (seqs gd (Nd m)).
          apply dl; eauto. }
      assert (forall n, n ∈ P -> x n = 0) as HzP.
      { apply Hinj. intros s Hs.
        assert (s ∈ V /\ Nd s ∉ A) as [HsV HsA] by (apply elem_of_list_filter in Hs; tauto).
        assert (forall f : N -> K, (forall m, m ∈ V -> m ∉ P -> f m = 0) -> fsum f P = fsum f V) as Hsub.
        { intros f Hf. apply (fsum_sub_list _ P V); [apply NoDup_filter, Hsi|apply Hsi| |done].
          intros m Hm. apply elem_of_list_filter in Hm. tauto. }
        rewrite (fsum_ext _ (fun m => (if decide (m = s) then x m else 0) - S_of g m s * x m)).
        2: { intros m _. destruct (decide _); ring. }
        rewrite fsum_sub, fsum_delta by (apply NoDup_filter, Hsi).
        rewrite decide_True by done.
        assert (S_of g = S_of g) as _ by done.
        rewrite (Hsub (fun m => S_of g m s * x m)).
        - rewrite (Hss s HsV) at 1. unfold source.
          assert (s ∉ I) as HsI.
          { intros Hi. apply HsA, HA. exists (WIn s). split.
            - apply elem_of_union_r, elem_of_list_to_set, elem_of_list_fmap. eauto.
            - apply rtc_once. fold (seqs gd (WIn s)). apply dl. right.
              apply edges_key. right; left. eauto. }
          rewrite decide_False by done.
          assert (m_of om s = 0) as ->.
          { unfold m_of. destruct (decide (s ∈ (default [] om).*1)) as [Hk|Hk].
            - exfalso. apply HsA, HA. exists WVac. split; [set_solver|].
              apply rtc_once. fold (seqs gd WVac). apply dl. right.
              apply edges_key. left. eauto.
            - by rewrite (not_elem_of_list_to_map_1 _ s). }
          ring.
        - intros m Hm HmP.
          assert (S_of g m s = 0) as ->; [|ring]. unfold S_of.
          destruct (g_em g !! (Nd m, Nd s)) eqn:He; [|done]. exfalso.
          apply HmP, elem_of_list_filter. split; [|done]. intros HmA. apply HsA. apply HA.
          eapply reach_from_closed; [by apply HA|]. fold (seqs gd (Nd m)).
          apply dl; eauto. }
      intros n Hn HnA. apply HzP, elem_of_list_filter. done. }
    intros w Hw HwA. rewrite Vd_elem in Hw. destruct w as [n|i|o|]; simpl.
    - by apply Hz.
    - exfalso. apply HwA, HA. exists (WIn i). split; [|constructor].
      apply elem_of_union_r, elem_of_list_to_set, elem_of_list_fmap. eauto.
    - rewrite Hz; [ring|auto|]. intros HoA. apply HwA, HA.
      eapply reach_from_closed; [by apply HA|]. fold (seqs gd (Nd o)).
      apply dl. right. apply edges_key. right; right. eauto.
    - exfalso. apply HwA, HA. exists WVac. split; [set_solver|constructor].
  Qed.

  (** the two purges in sequence *)
  Lemma purges_ok :
    exists (U : gset W) (g2 : wgraph),
      (g ← (if purge_in then
           purge_reqless enum pick ({[WVac]} ∪ list_to_set (WIn <$> I)) gd
         else Ok gd);
       if purge_out then purge_seqless enum pick (list_to_set (WOut <$> O)) g else Ok g) = Ok g2 /\
      purged V I O om negative g U g2 /\
      (forall x a t, nonsingular -> steady_state V (S_of g) (source I om a t) x ->
         eqs g2 U (Xof negative x a t) /\
         forall o, o ∈ O -> WOut o ∉ U -> Xof negative x a t (WOut o) = 0) /\
      (forall x a t, purge_in = false -> steady_state V (S_of g) (source I om a t) x ->
         eqs g2 U (Xof negative x a t)) /\
      (purge_in = false -> forall o, o ∈ O -> WOut o ∈ U) /\
      (purge_in = true -> purge_out = true -> forall w, w ∈ U -> ~ is_out w -> seqs g2 w <> ∅) /\
      (purge_in = false -> purge_out = false -> U = Vd /\ g2 = gd).
  Proof.
    pose proof (purged_start V I O om negative g Hsi HI HO Hom HIV HOV HmV) as Hp0.
    assert (exists U1 g1, (if purge_in then
           purge_reqless enum pick ({[WVac]} ∪ list_to_set (WIn <$> I)) gd else Ok gd) = Ok g1 /\
      purged V I O om negative g U1 g1 /\
      (forall x a t, nonsingular -> steady_state V (S_of g) (source I om a t) x ->
         eqs g1 U1 (Xof negative x a t) /\
         forall o, o ∈ O -> WOut o ∉ U1 -> Xof negative x a t (WOut o) = 0) /\
      (purge_in = true -> forall w, w ∈ U1 -> w ∈ dom (g_seq g1)) /\
      (purge_in = false -> U1 = Vd /\ g1 = gd)) as (U1 & g1 & -> & Hp1 & Heq1 & Hk1 & Hf1).
    { destruct purge_in.
      - destruct (purge_in_ok V I O om negative g Hsi HI HO Hom HIV HOV HmV enum Henum pick Hpick Hpick_none)
          as (A & g1 & Hpg & Hpu & Hdom & HA & Heq).
        exists (Vd ∩ A), g1. split_and!; try done.
        intros x a t Hns Hss. pose proof (unreachable_zero A x a t Hns Hss HA) as Hz. split.
        + apply Heq; [|done]. intros s Hs Hsrc _. by apply deqs.
        + intros o Ho Hn. apply Hz; [by rewrite Vd_elem|]. intros HA'. apply Hn.
          apply elem_of_intersection. by rewrite Vd_elem.
      - exists Vd, gd. split_and!; try done.
        intros x a t Hns Hss. split.
        + intros s Hs Hsrc _. by apply deqs.
        + intros o Ho Hn. exfalso. apply Hn. by rewrite Vd_elem. }
    simpl. destruct purge_out.
    - destruct (purge_out_ok V I O om negative g Hsi HI HO Hom HIV HOV HmV enum Henum pick Hpick Hpick_none U1 g1 Hp1)
        as (U2 & g2 & Hpg & Hpu & Hsub & Hout & Heq & Hne); try done.
      exists U2, g2. split_and!; try done.
      + intros x a t Hns Hss. destruct (Heq1 x a t Hns Hss) as [He Hz]. split; [by apply Heq|].
        intros o Ho Hn. apply Hz; [done|]. intros Hu. by apply Hn, Hout.
      + intros x a t Hpi Hss. apply Heq. destruct (Hf1 Hpi) as [-> ->].
        intros s Hs Hsrc _. by apply deqs.
      + intros Hpi o Ho. apply Hout; [|done]. destruct (Hf1 Hpi) as [-> _]. by rewrite Vd_elem.
      + intros Hpi _. apply Hne. by apply Hk1.
    - exists U1, g1. split_and!; try done.
      + intros x a t Hpi Hss. destruct (Hf1 Hpi) as [-> ->].
        intros s Hs Hsrc _. by apply deqs.
      + intros Hpi o Ho. destruct (Hf1 Hpi) as [-> _]. by rewrite Vd_elem.
      + intros Hpi _. by apply Hf1.
  Qed.

  Lemma solve_unfold : solve =
    (g ← (g ← (if purge_in then
           purge_reqless enum pick ({[WVac]} ∪ list_to_set (WIn <$> I)) gd
         else Ok gd);
       if purge_out then purge_seqless enum pick (list_to_set (WOut <$> O)) g else Ok g);
     g ← fast_simplify enum is_one cost qpop g;
     unwrap enum (ds_get (g_seq g)) (g_em g) O I (match om with Some _ => true | None => false end)).
  Proof.
    unfold fast_inverse_solve. simpl.
    destruct (if purge_in then _ else _); simpl; [|done]. by destruct (if purge_out then _ else _).
  Qed.

  (** everything the simplify + unwrap phase gives *)
  Lemma final_value U g2 gf sol X o :
    purged V I O om negative g U g2 -> eqs g2 U X ->
    fast_simplify enum is_one cost qpop g2 = Ok gf ->
    unwrap enum (ds_get (g_seq gf)) (g_em gf) O I (match om with Some _ => true | None => false end) = Ok sol ->
    o ∈ O -> (WOut o ∉ U -> X (WOut o) = 0) ->
    X (WOut o) = fsum (fun i => R_of sol i o * X (WIn i)) I +
                 (if om then m_out sol o else ef gf WVac (WOut o)) * X WVac.
  Proof.
    intros Hpu Heq Hsimp Hun Ho Hz.
    pose proof (pu_wf _ _ _ _ _ _ _ _ Hpu) as Hwf2.
    destruct (fast_simplify_ok enum Henum is_one Hone cost qpop Hqpop Hqpop_none g2 U Hwf2)
      as [(gf' & Hf & Hwf & Hred & Hdone & Hdm & Hsq & Hrq)|[Hf _]]; [|by rewrite Hf in Hsimp].
    rewrite Hf in Hsimp. injection Hsimp as ->.
    set (Q := (fast_queue enum cost g2).*2) in *.
    assert (forall w, w ∈ Q <-> seqs g2 w <> ∅ /\ reqs g2 w <> ∅) as HQ
      by (intros; apply (fast_queue_nodes enum Henum)).
    set (Uf := U ∖ list_to_set Q) in *.
    assert (forall w, w ∈ Uf <-> w ∈ U /\ w ∉ Q) as HUf.
    { intros w. unfold Uf. rewrite elem_of_difference, elem_of_list_to_set. done. }
    (* the solution record *)
    unfold unwrap in Hun.
    destruct (mfor _ I ∅) as [um|] eqn:Hum; [|done]. simpl in Hun. injection Hun as <-.
    assert (forall i, i ∈ I -> R_of (Solution (if (match om with Some _ => true | None => false end)
       then Some (fold_left (fun m o => match g_em gf !! (WVac, WOut o) with
                            | Some v => <[o := v]> m | None => m end) O ∅) else None) um) i o
         = ef gf (WIn i) (WOut o)) as HR.
    { intros i Hi. unfold R_of. simpl.
      rewrite (unwrap_outer enum Henum gf I ∅ um Hum). unfold ef.
      destruct (decide (WOut o ∈ seqs gf (WIn i))).
      - rewrite decide_True by done. done.
      - rewrite decide_False by tauto. by rewrite lookup_empty. }
    set (sol := Solution _ _) in *.
    assert (default 0 (fold_left (fun (m : gmap N K) (o : N) => match g_em gf !! (WVac, WOut o) with
                            | Some v => <[o := v]> m | None => m end) O ∅ !! o) = ef gf WVac (WOut o)) as Hmo'.
    { rewrite (unwrap_map enum Henum gf) by done. rewrite decide_True by done.
      unfold ef. destruct (decide (WOut o ∈ seqs gf WVac)) as [Hl|Hl].
      - destruct (wf_in _ _ Hwf _ _ Hl) as [H1 H2].
        destruct (wf_em _ _ Hwf WVac (WOut o) H1 H2) as [_ Hs]. destruct (Hs Hl) as [v ->]. done.
      - assert (g_em gf !! (WVac, WOut o) = None) as ->; [|simpl; by rewrite lookup_empty].
        destruct (g_em gf !! (WVac, WOut o)) as [v|] eqn:He; [|done]. exfalso.
        destruct (Hdm WVac (WOut o)) as [Hs|[H1 H2]]; [by rewrite He| |].
        + apply (pu_dom _ _ _ _ _ _ _ _ Hpu) in Hs.
          assert (WOut o ∈ seqs gd WVac) as Hl'.
          { apply (wf_em Vd); [exact dwf|by rewrite Vd_elem|by rewrite Vd_elem|done]. }
          apply dl in Hl' as [Hs'|Hk]; [|by apply edges_key in Hk; naive_solver].
          apply (em_shape V) in Hs'; [naive_solver|done].
        + apply Hl. apply (wf_em _ _ Hwf).
          * apply HUf. split; [done|]. rewrite HQ. rewrite (pu_src _ _ _ _ _ _ _ _ Hpu) by done. tauto.
          * apply HUf. split; [done|]. rewrite HQ. rewrite (pu_out _ _ _ _ _ _ _ _ Hpu). tauto.
          * by rewrite He. }
    assert (om <> None -> m_out sol o = ef gf WVac (WOut o)) as Hmo.
    { intros Hne. rewrite <- Hmo'. unfold m_out, sol. by destruct om. }
    assert ((if om then m_out sol o else ef gf WVac (WOut o)) = ef gf WVac (WOut o)) as ->.
    { destruct om; [|done]. by apply Hmo. }
    rewrite (fsum_ext _ (fun i => ef gf (WIn i) (WOut o) * X (WIn i))) by (intros i Hi; by rewrite HR).
    destruct (decide (WOut o ∈ U)) as [HoU|HoU].
    - (* the output survived *)
      rewrite (Heq (WOut o)); [|done|by intros []|by left].
      assert (WOut o ∈ Uf) as HoUf.
      { apply HUf. split; [done|]. rewrite HQ. rewrite (pu_out _ _ _ _ _ _ _ _ Hpu). tauto. }
      assert (forall s, s ∈ U -> s ∉ Uf -> X s = flow U (ef g2) X s) as HQeq.
      { intros s Hs Hn. assert (s ∈ Q) as HsQ.
        { destruct (decide (s ∈ Q)); [done|]. exfalso. apply Hn, HUf. done. }
        apply HQ in HsQ as [Hs1 Hs2]. apply Heq; [done| |by right].
        intros Hsrc. by apply Hs2, (pu_src _ _ _ _ _ _ _ _ Hpu). }
      destruct Hred as (_ & Hra & _).
      rewrite (Hra X HQeq) by done.
      assert (flow Uf (ef gf) X (WOut o) = flow Vd (ef gf) X (WOut o)) as ->.
      { apply gsum_subset.
        - intros w Hw. apply HUf in Hw as [Hw _]. by apply (pu_sub _ _ _ _ _ _ _ _ Hpu).
        - intros r Hr1 Hr2. unfold ef. rewrite decide_False; [ring|].
          intros Hl. by destruct (wf_in _ _ Hwf _ _ Hl). }
      rewrite (flow_list V I O g Hsi HI HO).
      rewrite (fsum_0 _ V), (fsum_0 _ O); [ring| |].
      + intros o' _. unfold ef. rewrite decide_False; [ring|].
        rewrite Hsq by apply (pu_out _ _ _ _ _ _ _ _ Hpu). set_solver.
      + intros n Hn. unfold ef. destruct (decide (WOut o ∈ seqs gf (Nd n))) as [Hl|]; [|ring].
        destruct (wf_in _ _ Hwf _ _ Hl) as [Hnf _].
        assert (X (Nd n) = 0) as ->; [|ring].
        assert (seqs g2 (Nd n) <> ∅) as Hne.
        { intros He. apply Hsq in He. rewrite He in Hl. set_solver. }
        rewrite (Heq (Nd n)); [| |by intros []|by right].
        2: { apply HUf in Hnf. tauto. }
        rewrite (Hra X HQeq) by done.
        destruct (Hdone _ Hnf) as [He|He]; [rewrite He in Hl; set_solver|].
        apply gsum_0. intros r _. unfold ef. rewrite decide_False; [ring|].
        intros Hl'. apply (wf_mirror _ _ Hwf) in Hl'. rewrite He in Hl'. set_solver.
    - rewrite Hz by done.
      assert (forall r, ef gf r (WOut o) = 0) as He0.
      { intros r. unfold ef. rewrite decide_False; [done|]. intros Hl.
        destruct (wf_in _ _ Hwf _ _ Hl) as [_ Hw]. apply HUf in Hw. tauto. }
      rewrite fsum_0; [rewrite He0; ring|]. intros i _. rewrite He0. ring.
  Qed.

  (** ** Main theorem, response part *)
  Theorem solve_response sol x a t :
    solve = Ok sol -> nonsingular \/ purge_in = false ->
    steady_state V (S_of g) (source I om a t) x -> (om = None -> t = 0) ->
    forall o, o ∈ O ->
      sgn * x o = fsum (fun i => R_of sol i o * a i) I + m_out sol o * t.
  Proof.
    intros Hsol Hor Hss Ht o Ho. rewrite solve_unfold in Hsol.
    destruct purges_ok as (U & g2 & Hp & Hpu & He1 & He2 & Hout & _).
    rewrite Hp in Hsol. simpl in Hsol.
    destruct (fast_simplify enum is_one cost qpop g2) as [gf|] eqn:Hsimp; [|done]. simpl in Hsol.
    assert (eqs g2 U (Xof negative x a t) /\ (WOut o ∉ U -> Xof negative x a t (WOut o) = 0)) as [Heq Hz].
    { destruct Hor as [Hns|Hpi].
      - destruct (He1 x a t Hns Hss) as [He Hz]. eauto.
      - split; [by apply He2|]. intros Hn. exfalso. apply Hn. by apply Hout. }
    pose proof (final_value U g2 gf sol _ o Hpu Heq Hsimp Hsol Ho Hz) as Hfin. simpl in Hfin.
    rewrite Hfin. destruct om as [l|]; [done|]. rewrite Ht by done. ring.
  Qed.

  (** ** Existence: without purging, success means every source has a steady state *)
  Theorem solve_exists sol a t :
    solve = Ok sol -> purge_in = false -> purge_out = false ->
    exists x, steady_state V (S_of g) (source I om a t) x.
  Proof.
    intros Hsol Hpi Hpo. rewrite solve_unfold in Hsol.
    destruct purges_ok as (U & g2 & Hp & Hpu & _ & _ & _ & _ & Hno).
    destruct (Hno Hpi Hpo) as [-> ->].
    rewrite Hp in Hsol. simpl in Hsol.
    destruct (fast_simplify enum is_one cost qpop gd) as [gf|] eqn:Hsimp; [|done]. clear Hsol.
    destruct (fast_simplify_ok enum Henum is_one Hone cost qpop Hqpop Hqpop_none gd Vd dwf)
      as [(gf' & Hf & Hwf & Hred & Hdone & Hdm & Hsq & Hrq)|[Hf _]]; [|by rewrite Hf in Hsimp].
    rewrite Hf in Hsimp. injection Hsimp as ->.
    set (Q := (fast_queue enum cost gd).*2) in *. set (Uf := Vd ∖ list_to_set Q) in *.
    set (x0 := fun w : W => match w with WIn i => a i | WVac => t | _ => 0 end).
    set (xf := fun w : W => if decide (is_src w) then x0 w else flow Uf (ef gf) x0 w).
    assert (forall w, is_src w -> reqs gd w = ∅) as Hsrcreq by apply Hpu.
    assert (forall w, is_src w -> w ∈ Vd -> w ∈ Uf) as HsrcU.
    { intros w Hw HwV. apply elem_of_difference. split; [done|].
      rewrite elem_of_list_to_set. unfold Q. rewrite (fast_queue_nodes enum Henum), Hsrcreq by done. tauto. }
    assert (forall r s, r ∈ Uf -> s ∈ seqs gf r -> xf r = x0 r) as Hfeed.
    { intros r s Hr Hl. unfold xf. destruct (decide (is_src r)) as [|Hns]; [done|].
      destruct (Hdone r Hr) as [He|He]; [rewrite He in Hl; set_solver|].
      assert (x0 r = 0) as -> by (destruct r; simpl in *; tauto).
      apply gsum_0. intros k _. unfold ef. rewrite decide_False; [ring|].
      intros Hl'. apply (wf_mirror _ _ Hwf) in Hl'. rewrite He in Hl'. set_solver. }
    destruct Hred as (_ & Hra & Hrb). destruct (Hrb xf) as (X & HX & HX').
    assert (forall s, s ∈ Vd -> ~ is_src s -> X s = flow Vd (ef gd) X s) as Heq.
    { intros s Hs Hns. destruct (decide (s ∈ Uf)) as [HsU|HsU]; [|by apply HX'].
      rewrite (Hra X HX') by done. rewrite HX by done. unfold xf at 1. rewrite decide_False by done.
      apply gsum_ext. intros r Hr. rewrite HX by done. unfold ef.
      destruct (decide (s ∈ seqs gf r)) as [Hl|]; [|ring]. by rewrite (Hfeed r s). }
    exists (fun n => X (Nd n)). intros s Hs.
    rewrite (Heq (Nd s)); [|by rewrite Vd_elem|by intros []].
    rewrite (flow_list V I O g Hsi HI HO).
    rewrite (fsum_ext (fun n => ef gd (Nd n) (Nd s) * X (Nd n)) (fun r => S_of g r s * X (Nd r)))
      by (intros r Hr; by rewrite de by (by rewrite Vd_elem)).
    rewrite (fsum_ext (fun n => ef gd (WIn n) (Nd s) * X (WIn n)) (fun i => if decide (i = s) then a i else 0)).
    2: { intros i Hi. rewrite de by (by rewrite Vd_elem).
         rewrite HX by (apply HsrcU; [done|by rewrite Vd_elem]).
         assert (xf (WIn i) = a i) as -> by (unfold xf; by rewrite decide_True).
         destruct (decide _); ring. }
    rewrite fsum_delta by done.
    rewrite (fsum_0 _ O).
    2: { intros o Ho. rewrite de by (by rewrite Vd_elem). ring. }
    rewrite de by (by rewrite Vd_elem).
    rewrite (HX WVac) by (apply HsrcU; [done|by rewrite Vd_elem]).
    assert (xf WVac = t) as -> by (unfold xf; by rewrite decide_True).
    unfold source. ring.
  Qed.

  (** ** Errors *)
  Notation unit_gain_subnetwork := (self_sustained V (S_of g)).

  Theorem solve_errors e :
    solve = Err e ->
    (e = ZeroDivisionError /\ unit_gain_subnetwork) \/
    (e = AssertionError /\ ~ (purge_in = true /\ purge_out = true)).
  Proof.
    intros Hsol. rewrite solve_unfold in Hsol.
    destruct purges_ok as (U & g2 & Hp & Hpu & _ & _ & _ & Hne & _).
    rewrite Hp in Hsol. simpl in Hsol.
    pose proof (pu_wf _ _ _ _ _ _ _ _ Hpu) as Hwf2.
    destruct (fast_simplify_ok enum Henum is_one Hone cost qpop Hqpop Hqpop_none g2 U Hwf2)
      as [(gf & Hf & Hwf & Hred & Hdone & Hdm & Hsq & Hrq)|[Hf (V' & e' & n & Hred & HnV' & HnQ & HsubQ & He1)]];
      rewrite Hf in Hsol; simpl in Hsol.
    - right.
      assert (forall i w, w ∈ seqs gf (WIn i) -> is_Some (g_em gf !! (WIn i, w))) as Hem.
      { intros i w Hl. destruct (wf_in _ _ Hwf _ _ Hl). by apply (wf_em _ _ Hwf). }
      assert (forall i w, e <> AssertionError \/ (purge_in = true /\ purge_out = true) ->
                w ∈ seqs gf (WIn i) -> is_out w \/ e <> AssertionError) as Hx.
      { intros i w Hor Hl. destruct Hor as [|[Hpi Hpo]]; [by right|left].
        destruct (wf_in _ _ Hwf _ _ Hl) as [_ Hw].
        destruct w as [n|j|o|]; try done; exfalso.
        - assert (reqs gf (Nd n) <> ∅) as Hr1.
          { intros He. apply (wf_mirror _ _ Hwf) in Hl. rewrite He in Hl. set_solver. }
          apply elem_of_difference in Hw as [HwU HwQ].
          rewrite elem_of_list_to_set, (fast_queue_nodes enum Henum) in HwQ.
          apply HwQ. split; [apply Hne; [done|done|done|by intros []]|]. intros He. by apply Hr1, Hrq.
        - apply (wf_mirror _ _ Hwf) in Hl. rewrite Hrq in Hl; [set_solver|]. by apply (pu_src _ _ _ _ _ _ _ _ Hpu).
        - apply (wf_mirror _ _ Hwf) in Hl. rewrite Hrq in Hl; [set_solver|]. by apply (pu_src _ _ _ _ _ _ _ _ Hpu). }
      unfold unwrap in Hsol.
      destruct (mfor _ I ∅) as [um|e0] eqn:Hum; [done|]. simpl in Hsol. injection Hsol as ->.
      assert (e = AssertionError) as ->.
      { clear Hx. revert Hum. generalize (∅ : gmap (N * N) K) as um.
        assert (forall (l : list N) um, mfor (unwrap_in enum (ds_get (g_seq gf)) (g_em gf)) l um = Err e -> e = AssertionError) as G; [|intros um; apply G].
        induction l as [|i l IHl]; intros um; simpl; [done|]. unfold unwrap_in at 1.
        destruct (mfor _ (enum _) um) as [um1|e1] eqn:Hi; [apply IHl|]. intros [= ->].
        assert (forall w, w ∈ enum (ds_get (g_seq gf) (WIn i)) -> w ∈ seqs gf (WIn i)) as Hl.
        { intros w. by rewrite (elem_of_enum enum Henum). }
        revert um Hi Hl. generalize (enum (ds_get (g_seq gf) (WIn i))) as l'.
        induction l' as [|w l' IHl']; intros um; simpl; [done|]. intros Hi Hl.
        unfold unwrap_step at 1, d_get in Hi. destruct (Hem i w) as [v Hv]; [apply Hl; left|]. rewrite Hv in Hi. simpl in Hi.
        destruct w; [congruence|congruence| |congruence].
        eapply IHl'; [exact Hi|]. intros w' Hw'. apply Hl. by right. }
      split; [done|]. intros Hpp.
      destruct (unwrap_total enum Henum gf I Hem) with (um := ∅ : gmap (N * N) K) as [um' Hum'].
      { intros i w _ Hl. destruct (Hx i w); [by right|done|done|done]. }
      rewrite Hum' in Hum. done.
    - left. injection Hsol as <-. split; [done|].
      (* the reduced self gain is 1: a self-sustained state on the eliminated nodes *)
      destruct Hred as (HsubU & Ha & Hb).
      destruct (Hb (fun m => if decide (m = n) then 1 else 0)) as (X & HX & HX').
      assert (forall w, w ∈ (fast_queue enum cost g2).*2 -> w ∈ U ->
                seqs g2 w <> ∅ /\ exists k, w = Nd k /\ k ∈ V) as HQ.
      { intros w Hw HwU. apply (fast_queue_nodes enum Henum) in Hw as [Hs Hr]. split; [done|].
        pose proof (pu_sub _ _ _ _ _ _ _ _ Hpu w HwU) as HwV. rewrite Vd_elem in HwV.
        destruct w as [k|i|o|].
        - eauto.
        - exfalso. by apply Hr, (pu_src _ _ _ _ _ _ _ _ Hpu).
        - exfalso. by apply Hs, (pu_out _ _ _ _ _ _ _ _ Hpu).
        - exfalso. by apply Hr, (pu_src _ _ _ _ _ _ _ _ Hpu). }
      set (TW := (U ∖ V') ∪ {[n]}).
      assert (forall w, w ∈ TW -> w ∈ U /\ w ∈ (fast_queue enum cost g2).*2) as HTW.
      { intros w Hw. apply elem_of_union in Hw as [Hw|Hw].
        - split; [|by apply HsubQ]. apply elem_of_difference in Hw. tauto.
        - apply elem_of_singleton in Hw as ->. split; [by apply HsubU|done]. }
      assert (n ∈ TW) as HnT by (apply elem_of_union_r, elem_of_singleton; done).
      assert (forall s, s ∈ TW -> X s = flow TW (ef g2) X s) as Heq.
      { intros s Hs. transitivity (flow U (ef g2) X s).
        - apply elem_of_union in Hs as [Hs|Hs]; [apply elem_of_difference in Hs as []; by apply HX'|].
          apply elem_of_singleton in Hs as ->. rewrite (Ha X HX') by done.
          unfold flow. rewrite (gsum_split _ V' n) by done. rewrite He1, (HX n), decide_True by done.
          rewrite gsum_0; [ring|]. intros m Hm. apply elem_of_difference in Hm as [Hm1 Hm2]. rewrite elem_of_singleton in Hm2.
          rewrite (HX m), decide_False by done. ring.
        - symmetry. apply gsum_subset.
          + intros w Hw. by apply HTW.
          + intros w HwU HwT. assert (w ∈ V' /\ w <> n) as [HwV' Hwn].
            { unfold TW in HwT. rewrite elem_of_union, elem_of_difference, elem_of_singleton in HwT.
              destruct (decide (w ∈ V')); tauto. }
            rewrite (HX w), decide_False by done. ring. }
      exists (filter (fun k => Nd k ∈ TW) V), (fun k => X (Nd k)). split_and!.
      + apply NoDup_filter, Hsi.
      + intros k Hk. apply elem_of_list_filter in Hk. tauto.
      + destruct (HTW n HnT) as [HnU HnQ'].
        destruct (HQ n HnQ' HnU) as (_ & k & -> & Hk).
        exists k. split; [by apply elem_of_list_filter|].
        rewrite (HX (Nd k)), decide_True by done. apply f1_neq_0.
      + intros s Hs. apply elem_of_list_filter in Hs as [HsT HsV].
        rewrite (Heq _ HsT).
        rewrite <- (fsum_map Nd (fun w => match w with Nd r => S_of g r s * X (Nd r) | _ => 0 end)).
        unfold flow, gsum. transitivity (fsum (fun w => match w with Nd r => S_of g r s * X (Nd r) | _ => 0 end) (elements TW)).
        * apply fsum_ext. intros w Hw. rewrite elem_of_elements in Hw.
          destruct (HTW w Hw) as [HwU HwQ]. destruct (HTW _ HsT) as [HsU HsQ].
          destruct (HQ w HwQ HwU) as (_ & k & -> & Hk). destruct (HQ _ HsQ HsU) as (Hne' & _).
          rewrite (pu_ef _ _ _ _ _ _ _ _ Hpu) by done.
          rewrite de by (by rewrite Vd_elem). done.
        * apply fsum_perm. apply NoDup_Permutation; [apply NoDup_elements| |].
          { apply NoDup_fmap; [congruence|]. apply NoDup_filter, Hsi. }
          intros w. rewrite elem_of_elements, elem_of_list_fmap. setoid_rewrite elem_of_list_filter.
          split; [|naive_solver]. intros Hw. destruct (HTW w Hw) as [HwU HwQ].
          destruct (HQ w HwQ HwU) as (_ & k & -> & Hk). eauto.
  Qed.
End main.
