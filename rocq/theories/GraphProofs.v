(** Lemmas about GraphModel: well-formedness, node elimination, the queue loop. *)
From Verif Require Import Fld Py LinSpec LinAlg LinReduce GraphModel.
Local Open Scope fld_scope.

Section gp.
  Context {K : fld} {N : Type} `{Countable N}.
  Add Field FF : (f_theory K).
  Notation graph := (graph K N).
  Context (enum : gset N -> list N) (Henum : forall X, enum X ≡ₚ elements X).

  Definition seqs (g : graph) n := ds_get (g_seq g) n.
  Definition reqs (g : graph) n := ds_get (g_req g) n.
  Definition ef (g : graph) (r s : N) : K :=
    if decide (s ∈ seqs g r) then default 0 (g_em g !! (r, s)) else 0.

  Record wf (V : gset N) (g : graph) : Prop := {
    wf_mirror : forall r s, s ∈ seqs g r <-> r ∈ reqs g s;
    wf_in : forall r s, s ∈ seqs g r -> r ∈ V /\ s ∈ V;
    wf_em : forall r s, r ∈ V -> s ∈ V -> is_Some (g_em g !! (r, s)) <-> s ∈ seqs g r;
  }.

  Lemma wf_ef V g r s : wf V g -> r ∈ V -> s ∈ V -> ef g r s = default 0 (g_em g !! (r, s)).
  Proof using Type.
    intros Hwf Hr Hs. unfold ef. destruct (decide _) as [|Hn]; [done|].
    destruct (g_em g !! (r, s)) eqn:He; [|done]. exfalso. apply Hn.
    apply (wf_em _ _ Hwf); eauto.
  Qed.
  Lemma wf_get V g r s : wf V g -> s ∈ seqs g r -> g_em g !! (r, s) = Some (ef g r s).
  Proof using Type.
    intros Hwf Hs. destruct (wf_in _ _ Hwf _ _ Hs) as [Hr Hs'].
    destruct (wf_em _ _ Hwf r s Hr Hs') as [_ Hi]. destruct (Hi Hs) as [v Hv].
    rewrite (wf_ef V) by done. by rewrite Hv.
  Qed.

  Lemma elem_of_enum X x : x ∈ enum X <-> x ∈ X.
  Proof. rewrite (Henum X). apply elem_of_elements. Qed.
  Lemma NoDup_enum X : NoDup (enum X).
  Proof. rewrite (Henum X). apply NoDup_elements. Qed.
  Lemma enum_split X pre a post : enum X = pre ++ a :: post ->
    a ∈ X /\ a ∉ pre /\ (forall x, x ∈ pre -> x ∈ X).
  Proof.
    intros He. pose proof (NoDup_enum X) as Hn. rewrite He in Hn.
    apply NoDup_app in Hn as (_ & Hd & _). split_and!.
    - rewrite <- elem_of_enum, He. set_solver.
    - intros Ha. apply (Hd a Ha). set_solver.
    - intros x Hx. rewrite <- elem_of_enum, He. set_solver.
  Qed.

  (** ** check_balance is the identity on well-formed graphs *)
  Lemma check_balance_ok V g : wf V g -> check_balance enum g = Ok g.
  Proof.
    intros Hwf. unfold check_balance.
    rewrite (mfor_const _ (enum (dom (g_seq g))) (g_em g)).
    2: { intros node _. apply mfor_const. intros snode Hs. apply elem_of_enum in Hs.
         rewrite decide_True by (by apply (wf_mirror _ _ Hwf)).
         rewrite (wf_get _ _ _ _ Hwf Hs). by destruct (decide _). }
    simpl. rewrite (mfor_const _ (enum (dom (g_req g))) tt).
    2: { intros node _. apply mfor_const. intros rnode Hr. apply elem_of_enum in Hr.
         by rewrite decide_True by (by apply (wf_mirror _ _ Hwf)). }
    simpl. by destruct g.
  Qed.

  (** ** eliminating one node *)
  Context (is_one : K -> bool) (Hone : forall x, is_one x = true -> x = 1).

  Lemma prod_edge_eq clg a b :
    prod_edge is_one clg a b = a * default 1 clg * b.
  Proof.
    unfold prod_edge. destruct clg as [c|]; simpl;
      destruct (is_one a) eqn:Ha; try (apply Hone in Ha; subst; ring);
      destruct (is_one b) eqn:Hb; try (apply Hone in Hb; subst; ring); ring.
  Qed.

  Section elim.
    Context (V : gset N) (g1 : graph) (n : N) (clg : option K).
    Context (Hmir : forall r s, s ∈ seqs g1 r <-> r ∈ reqs g1 s).
    Context (Hin : forall r s, s ∈ seqs g1 r -> r ∈ V /\ s ∈ V).
    Context (Hem : forall r s, r ∈ V -> s ∈ V -> (r <> n \/ s <> n) ->
                   is_Some (g_em g1 !! (r, s)) <-> s ∈ seqs g1 r).
    Context (Hself : n ∉ seqs g1 n).

    Definition tm (r s : N) : K :=
      default 0 (g_em g1 !! (n, s)) * default 1 clg * default 0 (g_em g1 !! (r, n)).

    (** partially processed state: [P r s] = the product r -> n -> s has been
        added, [Dl s] = the edge n -> s has been removed *)
    Record J (P : N -> N -> Prop) (Dl : N -> Prop) (g : graph) : Prop := {
      J_seq : forall r s, s ∈ seqs g r <-> s ∈ seqs g1 r \/ P r s;
      J_req : forall r s, r ∈ reqs g s <-> (r ∈ reqs g1 s /\ ~ (r = n /\ Dl s)) \/ P r s;
      J_em1 : forall r s, P r s -> g_em g !! (r, s) = Some (default 0 (g_em g1 !! (r, s)) + tm r s);
      J_em2 : forall r s, ~ P r s -> ~ (r = n /\ Dl s) -> g_em g !! (r, s) = g_em g1 !! (r, s);
      J_em3 : forall r s, ~ P r s -> r = n -> Dl s -> g_em g !! (r, s) = None;
    }.
    Lemma J_ext P P' Dl Dl' g : (forall r s, P r s <-> P' r s) -> (forall s, Dl s <-> Dl' s) ->
      J P Dl g -> J P' Dl' g.
    Proof.
      intros HP HD [A B C D E]. split.
      - intros. rewrite A. by rewrite HP.
      - intros. rewrite B. by rewrite HP, HD.
      - intros. apply C. by apply HP.
      - intros. apply D; [by rewrite HP|by rewrite HD].
      - intros. apply E; [by rewrite HP|done|by rewrite HD].
    Qed.

    Lemma step_r_ok snode (sedge : K) (pre preR : list N) rnode g inv :
      snode ∈ seqs g1 n -> rnode ∈ reqs g1 n ->
      g_em g1 !! (n, snode) = Some sedge ->
      snode ∉ pre -> rnode ∉ preR ->
      let P := fun r s => r ∈ reqs g1 n /\ (s ∈ pre \/ s = snode /\ r ∈ preR) in
      let P' := fun r s => r ∈ reqs g1 n /\ (s ∈ pre \/ s = snode /\ r ∈ preR ++ [rnode]) in
      (forall s, s ∈ pre -> s ∈ seqs g1 n) ->
      J P (fun s => s ∈ pre) g ->
      exists g' inv', fast_step_r is_one n snode clg sedge (g, inv) rnode = Ok (g', inv') /\
        J P' (fun s => s ∈ pre) g'.
    Proof.
      intros Hs Hr Hse Hsp Hrp P P' Hpre HJ. unfold fast_step_r.
      assert (snode <> n) as Hsn by (intros ->; done).
      assert (rnode <> n) as Hrn by (intros ->; apply Hmir in Hr; done).
      assert (n ∈ seqs g1 rnode) as Hrn' by (by apply Hmir).
      destruct (Hin _ _ Hrn') as [HrV HnV]. destruct (Hin _ _ Hs) as [_ HsV].
      assert (n ∉ pre) as Hnp by (intros Hp; by apply Hpre in Hp).
      assert (is_Some (g_em g1 !! (rnode, n))) as [rv Hrv] by (apply Hem; auto).
      assert (~ P rnode n) as HPn by (intros [_ [?|[-> _]]]; done).
      assert (~ P rnode snode) as HPs by (intros [_ [?|[_ ?]]]; done).
      assert (g_em g !! (rnode, n) = Some rv) as Hgr.
      { rewrite (J_em2 _ _ _ HJ); [done|done|]. intros [? _]. done. }
      unfold d_get. rewrite Hgr. simpl. rewrite prod_edge_eq.
      assert (g_em g !! (rnode, snode) = g_em g1 !! (rnode, snode)) as Hgs.
      { apply (J_em2 _ _ _ HJ); [done|]. intros [? _]; done. }
      assert (tm rnode snode = sedge * default 1 clg * rv) as Htm.
      { unfold tm. by rewrite Hse, Hrv. }
      assert (forall r s, P' r s <-> P r s \/ (r = rnode /\ s = snode)) as HP'.
      { intros r s. unfold P, P'. rewrite elem_of_app, elem_of_list_singleton. split.
        - intros [Hr' [?|[-> [?| ->]]]]; tauto.
        - intros [[? [?|[? ?]]]|[-> ->]]; tauto. }
      destruct (g_em g !! (rnode, snode)) as [pe|] eqn:Hpe.
      - eexists _, _. split; [done|].
        assert (snode ∈ seqs g1 rnode) as Hlink by (apply Hem; eauto).
        split; simpl.
        + intros r s. unfold seqs at 1. simpl. fold (seqs g r). rewrite (J_seq _ _ _ HJ), HP'. naive_solver.
        + intros r s. unfold reqs at 1. simpl. fold (reqs g s). rewrite (J_req _ _ _ HJ), HP'.
          apply Hmir in Hlink. naive_solver.
        + intros r s HPrs. destruct (decide ((r, s) = (rnode, snode))) as [ [= -> ->]|Hne].
          * rewrite lookup_insert. rewrite <- Hgs. simpl. by rewrite Htm.
          * rewrite lookup_insert_ne by congruence. apply (J_em1 _ _ _ HJ).
            apply HP' in HPrs as [?|[-> ->]]; done.
        + intros r s HPrs HD. rewrite HP' in HPrs. rewrite lookup_insert_ne by naive_solver.
          apply (J_em2 _ _ _ HJ); tauto.
        + intros r s HPrs -> HD. rewrite HP' in HPrs. rewrite lookup_insert_ne by naive_solver.
          apply (J_em3 _ _ _ HJ); tauto.
      - eexists _, _. split; [done|].
        split; simpl.
        + intros r s. unfold seqs at 1. simpl. rewrite ds_get_add.
          destruct (decide (r = rnode)) as [->|Hne].
          * rewrite elem_of_union, elem_of_singleton. fold (seqs g rnode).
            rewrite (J_seq _ _ _ HJ), HP'. naive_solver.
          * fold (seqs g r). rewrite (J_seq _ _ _ HJ), HP'. naive_solver.
        + intros r s. unfold reqs at 1. simpl. rewrite ds_get_add.
          destruct (decide (s = snode)) as [->|Hne].
          * rewrite elem_of_union, elem_of_singleton. fold (reqs g snode).
            rewrite (J_req _ _ _ HJ), HP'. naive_solver.
          * fold (reqs g s). rewrite (J_req _ _ _ HJ), HP'. naive_solver.
        + intros r s HPrs. destruct (decide ((r, s) = (rnode, snode))) as [ [= -> ->]|Hne].
          * rewrite lookup_insert. rewrite <- Hgs. simpl. rewrite Htm. f_equal. ring.
          * rewrite lookup_insert_ne by congruence. apply (J_em1 _ _ _ HJ).
            apply HP' in HPrs as [?|[-> ->]]; done.
        + intros r s HPrs HD. rewrite HP' in HPrs. rewrite lookup_insert_ne by naive_solver.
          apply (J_em2 _ _ _ HJ); tauto.
        + intros r s HPrs -> HD. rewrite HP' in HPrs. rewrite lookup_insert_ne by naive_solver.
          apply (J_em3 _ _ _ HJ); tauto.
    Qed.

    Lemma step_s_ok (pre : list N) snode g inv :
      snode ∈ seqs g1 n -> snode ∉ pre -> (forall s, s ∈ pre -> s ∈ seqs g1 n) ->
      J (fun r s => r ∈ reqs g1 n /\ s ∈ pre) (fun s => s ∈ pre) g ->
      exists g' inv', fast_step_s enum is_one n clg (g, inv) snode = Ok (g', inv') /\
        J (fun r s => r ∈ reqs g1 n /\ s ∈ pre ++ [snode]) (fun s => s ∈ pre ++ [snode]) g'.
    Proof.
      intros Hs Hsp Hpre HJ. unfold fast_step_s.
      assert (snode <> n) as Hsn by (intros ->; done).
      assert (n ∉ pre) as Hnp by (intros Hp; by apply Hpre in Hp).
      destruct (Hin _ _ Hs) as [HnV HsV].
      assert (n ∉ reqs g1 n) as Hself' by (by rewrite <- Hmir).
      assert (is_Some (g_em g1 !! (n, snode))) as [se Hse] by (apply Hem; auto).
      assert (g_em g !! (n, snode) = Some se) as Hgse.
      { rewrite (J_em2 _ _ _ HJ); [done|tauto|tauto]. }
      unfold d_get. simpl. rewrite Hgse. simpl.
      assert (reqs g n = reqs g1 n) as Hrq.
      { apply set_eq. intros r. rewrite (J_req _ _ _ HJ). naive_solver. }
      fold (reqs g n). rewrite Hrq.
      edestruct (mfor_ind (fast_step_r is_one n snode clg se)
        (fun preR st => J (fun r s => r ∈ reqs g1 n /\ (s ∈ pre \/ s = snode /\ r ∈ preR))
                          (fun s => s ∈ pre) st.1) (enum (reqs g1 n)) (g, inv))
        as ([g' inv'] & Hfor & HJ').
      - simpl. eapply J_ext; [| |exact HJ]; [|done]. set_solver.
      - intros preR a post [g' inv'] Hl HJ'. apply enum_split in Hl as (Ha & Hap & _).
        destruct (step_r_ok snode se pre preR a g' inv') as (g'' & inv'' & Hst & HJ''); try done.
        exists (g'', inv''). done.
      - rewrite Hfor. simpl in HJ' |- *.
        assert (forall r s, (r ∈ reqs g1 n /\ (s ∈ pre \/ s = snode /\ r ∈ enum (reqs g1 n)))
                       <-> (r ∈ reqs g1 n /\ s ∈ pre ++ [snode])) as HPe.
        { intros r s. rewrite elem_of_enum, elem_of_app, elem_of_list_singleton. tauto. }
        apply (J_ext _ (fun r s => r ∈ reqs g1 n /\ s ∈ pre ++ [snode]) _ (fun s => s ∈ pre)) in HJ';
          [|done|done].
        clear HPe. rewrite ds_remove_ok.
        2: { fold (reqs g' snode). apply (J_req _ _ _ HJ'). left.
             split; [by apply Hmir|naive_solver]. }
        simpl. unfold d_del.
        assert (g_em g' !! (n, snode) = Some se) as ->.
        { rewrite (J_em2 _ _ _ HJ'); [done|tauto|tauto]. }
        simpl. eexists _, _. split; [done|].
        assert (forall s, s ∈ pre ++ [snode] <-> s ∈ pre \/ s = snode) as Hap.
        { intros s. rewrite elem_of_app, elem_of_list_singleton. tauto. }
        split; simpl.
        + intros r s. unfold seqs at 1. simpl. fold (seqs g' r). apply (J_seq _ _ _ HJ').
        + intros r s. unfold reqs at 1. simpl. rewrite ds_get_insert.
          destruct (decide (s = snode)) as [->|Hne].
          * rewrite elem_of_difference, elem_of_singleton. fold (reqs g' snode).
            rewrite (J_req _ _ _ HJ'). rewrite !Hap. naive_solver.
          * fold (reqs g' s). rewrite (J_req _ _ _ HJ'), !Hap. naive_solver.
        + intros r s HP. rewrite lookup_delete_ne; [by apply (J_em1 _ _ _ HJ')|].
          intros [= <- ?]. tauto.
        + intros r s HP HD. rewrite lookup_delete_ne.
          * apply (J_em2 _ _ _ HJ'); [done|]. rewrite Hap in HD. tauto.
          * intros [= <- <-]. apply HD. rewrite Hap. tauto.
        + intros r s HP -> HD. rewrite Hap in HD. destruct (decide (s = snode)) as [->|Hne].
          * apply lookup_delete.
          * rewrite lookup_delete_ne by congruence.
            apply (J_em3 _ _ _ HJ'); [done|done|]. tauto.
    Qed.

    Lemma loop_s_ok inv :
      exists g' inv', mfor (fast_step_s enum is_one n clg) (enum (seqs g1 n)) (g1, inv) = Ok (g', inv') /\
        J (fun r s => r ∈ reqs g1 n /\ s ∈ seqs g1 n) (fun s => s ∈ seqs g1 n) g'.
    Proof.
      edestruct (mfor_ind (fast_step_s enum is_one n clg)
        (fun pre st => J (fun r s => r ∈ reqs g1 n /\ s ∈ pre) (fun s => s ∈ pre) st.1)
        (enum (seqs g1 n)) (g1, inv)) as ([g' inv'] & Hfor & HJ).
      - simpl. split; try set_solver.
      - intros pre a post [g' inv'] Hl HJ. apply enum_split in Hl as (Ha & Hap & Hpre).
        destruct (step_s_ok pre a g' inv') as (g'' & inv'' & Hst & HJ''); try done.
        exists (g'', inv''). done.
      - exists g', inv'. split; [done|]. eapply J_ext; [| |exact HJ]; intros; simpl;
          by rewrite elem_of_enum.
    Qed.

    (** the state after the whole elimination *)
    Record E (g : graph) : Prop := {
      E_seq : forall r s, s ∈ seqs g r <->
        r <> n /\ s <> n /\ (s ∈ seqs g1 r \/ (n ∈ seqs g1 r /\ s ∈ seqs g1 n));
      E_mir : forall r s, s ∈ seqs g r <-> r ∈ reqs g s;
      E_em : forall r s, r <> n -> s <> n -> g_em g !! (r, s) =
        if decide (n ∈ seqs g1 r /\ s ∈ seqs g1 n)
        then Some (default 0 (g_em g1 !! (r, s)) + tm r s) else g_em g1 !! (r, s);
      E_dom : forall r s, is_Some (g_em g !! (r, s)) ->
        is_Some (g_em g1 !! (r, s)) \/ (r ∈ V /\ s ∈ V);
    }.

    Lemma elim_core inv :
      exists g' inv',
        (st ← mfor (fast_step_s enum is_one n clg) (enum (ds_get (g_seq g1) n)) (g1, inv);
         g ← mfor (fun g rnode =>
                em ← d_del (g_em g) (rnode, n);
                seq ← ds_remove (g_seq g) rnode n;
                Ok (Graph seq (g_req g) em))
             (enum (ds_get (g_req st.1) n)) st.1;
         Ok (Graph (delete n (g_seq g)) (delete n (g_req g)) (g_em g), st.2)) = Ok (g', inv') /\ E g'.
    Proof.
      assert (n ∉ reqs g1 n) as Hself' by (by rewrite <- Hmir).
      destruct (loop_s_ok inv) as (g2 & inv2 & Hf & HJ). fold (seqs g1 n). rewrite Hf. simpl.
      assert (reqs g2 n = reqs g1 n) as Hrq.
      { apply set_eq. intros r. rewrite (J_req _ _ _ HJ). naive_solver. }
      fold (reqs g2 n). rewrite Hrq.
      edestruct (mfor_ind (fun (g : graph) rnode =>
                em ← d_del (g_em g) (rnode, n);
                seq ← ds_remove (g_seq g) rnode n;
                Ok (Graph seq (g_req g) em))
        (fun pre g => (forall r s, s ∈ seqs g r <-> s ∈ seqs g2 r /\ ~ (s = n /\ r ∈ pre)) /\
           g_req g = g_req g2 /\
           (forall r s, ~ (s = n /\ r ∈ pre) -> g_em g !! (r, s) = g_em g2 !! (r, s)) /\
           (forall r s, is_Some (g_em g !! (r, s)) -> is_Some (g_em g2 !! (r, s))))
        (enum (reqs g1 n)) g2) as (g3 & Hf3 & Hs3 & Hr3 & He3 & Hd3).
      - split_and!; try done. set_solver.
      - intros pre a post g Hl (Hsq & Hrq' & Hem' & Hdm). apply enum_split in Hl as (Ha & Hap & Hpre).
        assert (a <> n) as Han by (intros ->; done).
        assert (n ∈ seqs g1 a) as Hna by (by apply Hmir).
        destruct (Hin _ _ Hna) as [HaV HnV].
        assert (is_Some (g_em g1 !! (a, n))) as [v Hv] by (apply Hem; auto).
        unfold d_del. rewrite Hem' by tauto.
        rewrite (J_em2 _ _ _ HJ), Hv by tauto. simpl.
        rewrite ds_remove_ok.
        2: { fold (seqs g a). apply Hsq. split; [|tauto]. apply (J_seq _ _ _ HJ). by left. }
        simpl. eexists. split; [done|]. simpl. split_and!; [|done| |].
        + intros r s. unfold seqs at 1. simpl. rewrite ds_get_insert.
          destruct (decide (r = a)) as [->|Hne].
          * rewrite elem_of_difference, elem_of_singleton. fold (seqs g a). rewrite Hsq. set_solver.
          * fold (seqs g r). rewrite Hsq. set_solver.
        + intros r s Hn. rewrite lookup_delete_ne by set_solver. apply Hem'. set_solver.
        + intros r s. rewrite lookup_delete_is_Some. naive_solver.
      - rewrite Hf3. simpl. eexists _, _. split; [done|].
        assert (forall r, r ∈ enum (reqs g1 n) <-> r ∈ reqs g1 n) as Hen by (intros; apply elem_of_enum).
        assert (forall r s, s ∈ seqs (Graph (delete n (g_seq g3)) (delete n (g_req g3)) (g_em g3)) r <->
          r <> n /\ s <> n /\ (s ∈ seqs g1 r \/ (n ∈ seqs g1 r /\ s ∈ seqs g1 n))) as Hseq.
        { intros r s. unfold seqs at 1. simpl. rewrite ds_get_delete.
          destruct (decide (r = n)) as [->|Hne]; [set_solver|].
          fold (seqs g3 r). rewrite Hs3, (J_seq _ _ _ HJ), Hen, !Hmir.
          destruct (decide (s = n)) as [->|Hne']; [|tauto].
          split; [|tauto]. intros [[?|[_ ?]] Hn]; [tauto|done]. }
        split; [exact Hseq| | |].
        + intros r s. rewrite Hseq. unfold reqs at 1. simpl. rewrite ds_get_delete, Hr3.
          destruct (decide (s = n)) as [->|Hne]; [set_solver|].
          fold (reqs g2 s). rewrite (J_req _ _ _ HJ), <- !Hmir.
          destruct (decide (r = n)) as [->|Hne']; [|tauto]. tauto.
        + intros r s Hr Hs. simpl. rewrite He3 by tauto. destruct (decide _) as [Hd|Hd].
          * apply (J_em1 _ _ _ HJ). by rewrite <- Hmir.
          * apply (J_em2 _ _ _ HJ); [by rewrite <- Hmir|tauto].
        + intros r s Hd. simpl in Hd. apply Hd3 in Hd.
          destruct (decide (r ∈ reqs g1 n /\ s ∈ seqs g1 n)) as [[Hr Hs]|Hn].
          * right. rewrite <- Hmir in Hr. split; [by apply (Hin r n)|by apply (Hin n s)].
          * left. destruct (decide (r = n /\ s ∈ seqs g1 n)) as [[-> Hs]|Hn'].
            -- destruct (Hin _ _ Hs). apply Hem; [done|done| |done]. right. by intros ->.
            -- by rewrite <- (J_em2 _ _ _ HJ).
    Qed.
  End elim.

  Lemma eliminate_ok V g n inv :
    wf V g -> n ∈ V -> 1 - ef g n n <> 0 ->
    exists g' inv', fast_eliminate enum is_one n g inv = Ok (g', inv') /\
      wf (V ∖ {[n]}) g' /\
      (forall r s, r ∈ V ∖ {[n]} -> s ∈ V ∖ {[n]} -> ef g' r s = s_elim n (ef g) r s) /\
      (forall r s, s ∈ seqs g' r <->
        r <> n /\ s <> n /\ (s ∈ seqs g r \/ (n ∈ seqs g r /\ s ∈ seqs g n))) /\
      (forall r s, is_Some (g_em g' !! (r, s)) -> is_Some (g_em g !! (r, s)) \/ (r ∈ V /\ s ∈ V)).
  Proof.
    intros Hwf Hn Hp. unfold fast_eliminate.
    assert (exists g1 clg, fast_loop_gain n g = Ok (g1, clg) /\
      (forall r s, s ∈ seqs g1 r <-> s ∈ seqs g r /\ ~ (r = n /\ s = n)) /\
      (forall r s, r ∈ reqs g1 s <-> r ∈ reqs g s /\ ~ (r = n /\ s = n)) /\
      g_em g1 = g_em g /\ default 1 clg = 1 / (1 - ef g n n)) as (g1 & clg & -> & Hs & Hr & He & Hc).
    { unfold fast_loop_gain. fold (seqs g n). destruct (decide (n ∈ seqs g n)) as [Hl|Hl].
      - unfold d_get. rewrite (wf_get V) by done. simpl. rewrite decide_False by done.
        rewrite (ds_remove_ok (g_seq g)) by done. simpl. rewrite (ds_remove_ok (g_req g)) by (by apply (wf_mirror _ _ Hwf)).
        simpl. eexists _, _. split; [done|]. split_and!; [| |done|done].
        + intros r s. unfold seqs at 1. simpl. rewrite ds_get_insert.
          destruct (decide (r = n)) as [->|]; [|unfold seqs; tauto].
          unfold seqs. set_solver.
        + intros r s. unfold reqs at 1. simpl. rewrite ds_get_insert.
          destruct (decide (s = n)) as [->|]; [|unfold reqs; tauto].
          unfold reqs. set_solver.
      - exists g, None. split; [done|]. split_and!; [| |done|].
        + intros r s. split; [|tauto]. intros Hrs. split; [done|]. intros [-> ->]. done.
        + intros r s. split; [|tauto]. intros Hrs. split; [done|]. intros [-> ->].
          apply Hl. by apply (wf_mirror _ _ Hwf).
        + simpl. assert (ef g n n = 0) as ->; [unfold ef; by rewrite decide_False|].
          field. exact (@f1_neq_0 K). }
    simpl.
    assert (n ∉ seqs g1 n) as Hself by (rewrite Hs; tauto).
    destruct (elim_core V g1 n clg) with (inv := inv) as (g' & inv' & -> & HE).
    { intros r s. rewrite Hs, Hr. by rewrite (wf_mirror _ _ Hwf). }
    { intros r s. rewrite Hs. intros [Hrs _]. by apply (wf_in _ _ Hwf). }
    { intros r s HrV HsV Hd. rewrite Hs, He, (wf_em _ _ Hwf) by done. naive_solver. }
    { done. }
    exists g', inv'. split; [done|].
    assert (forall r s, r <> n \/ s <> n -> s ∈ seqs g1 r <-> s ∈ seqs g r) as Hs1
      by (intros r s Hd; rewrite Hs; naive_solver).
    assert (forall r s, s ∈ seqs g' r <->
        r <> n /\ s <> n /\ (s ∈ seqs g r \/ (n ∈ seqs g r /\ s ∈ seqs g n))) as Hseq.
    { intros r s. rewrite (E_seq _ _ _ _ _ HE). split.
      - intros (Hrn & Hsn & Hor). rewrite !Hs1 in Hor by tauto. tauto.
      - intros (Hrn & Hsn & Hor). rewrite !Hs1 by tauto. tauto. }
    assert (forall r s, r ∈ V ∖ {[n]} -> s ∈ V ∖ {[n]} ->
       is_Some (g_em g' !! (r, s)) <-> s ∈ seqs g' r) as Hem.
    { intros r s HrV HsV. rewrite Hseq. rewrite (E_em _ _ _ _ _ HE) by set_solver.
      assert (r <> n /\ s <> n) as [Hrn Hsn] by set_solver.
      destruct (decide _) as [Hd|Hd].
      - rewrite !Hs1 in Hd by tauto. split; [tauto|]. eauto.
      - rewrite !Hs1 in Hd by tauto. rewrite He, (wf_em _ _ Hwf) by set_solver. tauto. }
    assert (wf (V ∖ {[n]}) g') as Hwf'.
    { split; [apply (E_mir _ _ _ _ _ HE)| |done].
      intros r s Hrs. apply Hseq in Hrs as (Hrn & Hsn & Hor).
      destruct Hor as [Hor|[Ho1 Ho2]].
      - apply (wf_in _ _ Hwf) in Hor. set_solver.
      - apply (wf_in _ _ Hwf) in Ho1, Ho2. set_solver. }
    split_and!; [done| |done|].
    - intros r s HrV HsV. rewrite (wf_ef (V ∖ {[n]})) by done.
      rewrite (E_em _ _ _ _ _ HE) by set_solver.
      assert (r <> n /\ s <> n) as [Hrn Hsn] by set_solver.
      assert (r ∈ V /\ s ∈ V) as [HrV' HsV'] by set_solver.
      unfold s_elim. rewrite !(wf_ef V) by done. rewrite He.
      destruct (decide _) as [Hd|Hd]; simpl.
      + unfold tm. rewrite He, Hc, (wf_ef V) by done. done.
      + rewrite !Hs1 in Hd by tauto.
        assert (default 0 (g_em g !! (n, s)) = 0 \/ default 0 (g_em g !! (r, n)) = 0) as [->| ->]; [|ring|ring].
        destruct (decide (s ∈ seqs g n)) as [H1|H1].
        * right. rewrite <- (wf_ef V) by done. unfold ef. rewrite decide_False; [done|tauto].
        * left. rewrite <- (wf_ef V) by done. unfold ef. rewrite decide_False; [done|tauto].
    - intros r s Hd. apply (E_dom _ _ _ _ _ HE) in Hd. by rewrite He in Hd.
  Qed.

  Lemma eliminate_err V g n inv :
    wf V g -> n ∈ V -> 1 - ef g n n = 0 ->
    fast_eliminate enum is_one n g inv = Err ZeroDivisionError.
  Proof.
    intros Hwf Hn Hp. unfold fast_eliminate, fast_loop_gain. fold (seqs g n).
    destruct (decide (n ∈ seqs g n)) as [Hl|Hl].
    - unfold d_get. rewrite (wf_get V) by done. simpl. by rewrite decide_True.
    - exfalso. unfold ef in Hp. rewrite decide_False in Hp by done.
      apply (@f1_neq_0 K). rewrite <- Hp. ring.
  Qed.

  (** ** the queue loop *)
  Context {C : Type} (cost : graph -> N -> C)
          (qpop : list (C * N) -> option ((C * N) * list (C * N))).
  Context (Hqpop : forall l x l', qpop l = Some (x, l') -> l ≡ₚ x :: l')
          (Hqpop_none : forall l, qpop l = None -> l = []).

  Lemma refresh_ok fuel : forall g inv node q, size inv <= fuel ->
    exists node' q' inv', fast_refresh cost qpop fuel g inv node q = Ok (node', q', inv') /\
      node :: q.*2 ≡ₚ node' :: q'.*2.
  Proof.
    induction fuel as [|fuel IH]; intros g inv node q Hsz; simpl.
    - destruct (decide (node ∈ inv)) as [Hn|Hn]; [|by eexists _, _, _].
      exfalso. assert (inv ≡ ∅) as He by (apply size_empty_iff; lia). set_solver.
    - destruct (decide (node ∈ inv)) as [Hn|Hn]; [|by eexists _, _, _].
      destruct (qpop _) as [[[c node'] q']|] eqn:Hq.
      + apply Hqpop in Hq.
        destruct (IH g (inv ∖ {[node]}) node' q') as (n'' & q'' & inv'' & -> & Hp).
        { rewrite size_difference by set_solver. rewrite size_singleton. lia. }
        eexists _, _, _. split; [done|]. rewrite <- Hp.
        change (node :: q.*2) with (((cost g node, node) :: q).*2). by rewrite Hq.
      + apply Hqpop_none in Hq. done.
  Qed.

  Definition done_node (g : graph) (n : N) : Prop := seqs g n = ∅ \/ reqs g n = ∅.

  Lemma fast_loop_ok fuel : forall g inv q V,
    length q <= fuel -> wf V g -> NoDup (q.*2) -> (forall n, n ∈ q.*2 -> n ∈ V) ->
    (forall n, n ∈ V -> n ∉ q.*2 -> done_node g n) ->
    (exists g', fast_loop enum is_one cost qpop fuel g inv q = Ok g' /\
       wf (V ∖ list_to_set (q.*2)) g' /\
       reduces V (ef g) (V ∖ list_to_set (q.*2)) (ef g') /\
       (forall n, n ∈ V ∖ list_to_set (q.*2) -> done_node g' n) /\
       (forall r s, is_Some (g_em g' !! (r, s)) -> is_Some (g_em g !! (r, s)) \/ (r ∈ V /\ s ∈ V)) /\
       (forall n, seqs g n = ∅ -> seqs g' n = ∅) /\
       (forall n, reqs g n = ∅ -> reqs g' n = ∅)) \/
    (fast_loop enum is_one cost qpop fuel g inv q = Err ZeroDivisionError /\
     exists V' e' n, reduces V (ef g) V' e' /\ n ∈ V' /\ n ∈ q.*2 /\
       (forall m, m ∈ V ∖ V' -> m ∈ q.*2) /\ e' n n = 1).
  Proof.
    induction fuel as [|fuel IH]; intros g inv q V Hlen Hwf Hnd HqV Hdone; simpl.
    - destruct q; [|simpl in Hlen; lia].
      destruct (qpop []) as [[[c node] q']|] eqn:Hq.
      { apply Hqpop in Hq. by apply Permutation_nil_cons in Hq. }
      left. exists g. assert (V ∖ list_to_set ([] : list (C * N)).*2 = V) as -> by set_solver.
      split_and!; [done|done|apply reduces_refl| |by left|done|done].
      intros n Hn. apply Hdone; [done|]. set_solver.
    - destruct (qpop q) as [[[c node] q']|] eqn:Hq.
      2: { apply Hqpop_none in Hq. subst. left. exists g.
           assert (V ∖ list_to_set ([] : list (C * N)).*2 = V) as -> by set_solver.
           split_and!; [done|done|apply reduces_refl| |by left|done|done].
           intros n Hn. apply Hdone; [done|]. set_solver. }
      apply Hqpop in Hq.
      destruct (refresh_ok (size inv) g inv node q') as (n & q2 & inv2 & -> & Hp); [lia|]. simpl.
      assert (q.*2 ≡ₚ n :: q2.*2) as Hqp.
      { rewrite <- Hp. change (node :: q'.*2) with (((c, node) :: q').*2). by rewrite Hq. }
      assert (length q = S (length q2)) as Hl2.
      { apply Permutation_length in Hqp. simpl in Hqp. by rewrite !fmap_length in Hqp. }
      rewrite Hqp in Hnd. apply NoDup_cons in Hnd as [Hnq Hnd2].
      assert (forall m, m ∈ q.*2 <-> m = n \/ m ∈ q2.*2) as Hmem.
      { intros m. rewrite Hqp. apply elem_of_cons. }
      assert (n ∈ V) as HnV by (apply HqV, Hmem; by left).
      destruct (decide (1 - ef g n n = 0)) as [Hz|Hz].
      + right. rewrite (eliminate_err V) by done. split; [done|].
        exists V, (ef g), n. split_and!; [apply reduces_refl|done| |set_solver|].
        * apply Hmem; by left.
        * symmetry. by apply fsub_0_eq.
      + destruct (eliminate_ok V g n inv2 Hwf HnV Hz) as (g' & inv' & -> & Hwf' & Hef & Hsq & Hdm).
        simpl.
        assert (reduces V (ef g) (V ∖ {[n]}) (ef g')) as Hred by (by apply reduces_step).
        destruct (IH g' inv' q2 (V ∖ {[n]})) as
          [(gf & Hf & Hwff & Hredf & Hdf & Hdmf & Hsqf & Hrqf)|(Hf & V' & e' & m & Hr' & Hm & Hmq & Hsub & H1)].
        * lia.
        * done.
        * done.
        * intros m Hm. assert (m ∈ V) by (apply HqV, Hmem; by right).
          assert (m <> n) by (intros ->; done). set_solver.
        * intros m Hm Hmq.
          assert (m <> n /\ m ∈ V) as [Hmn HmV] by set_solver.
          destruct (Hdone m HmV) as [He|He]; [rewrite Hmem; tauto| |].
          -- left. apply set_eq. intros s. rewrite Hsq, He. set_solver.
          -- right. apply set_eq. intros r.
             rewrite <- (wf_mirror _ _ Hwf'), Hsq.
             split; [|set_solver]. intros (_ & _ & [Hx|[_ Hx]]);
               apply (wf_mirror _ _ Hwf) in Hx; rewrite He in Hx; set_solver.
        * left. exists gf.
          assert (V ∖ list_to_set q.*2 = V ∖ {[n]} ∖ list_to_set q2.*2) as ->.
          { apply set_eq. intros m. rewrite !elem_of_difference, !elem_of_list_to_set, Hmem.
            set_solver. }
          split_and!; [done|done|by eapply reduces_trans|done| | |].
          -- intros r s Hrs. apply Hdmf in Hrs as [Hrs|Hrs]; [by apply Hdm|]. right. set_solver.
          -- intros k Hk. apply Hsqf. apply set_eq. intros s. rewrite Hsq, Hk. set_solver.
          -- intros k Hk. apply Hrqf. apply set_eq. intros r.
             rewrite <- (wf_mirror _ _ Hwf'), Hsq.
             split; [|set_solver]. intros (_ & _ & [Hx|[_ Hx]]);
               apply (wf_mirror _ _ Hwf) in Hx; rewrite Hk in Hx; set_solver.
        * right. split; [done|]. exists V', e', m. split_and!; [by eapply reduces_trans|done| | |done].
          -- apply Hmem; by right.
          -- intros k Hk. rewrite Hmem. destruct (decide (k = n)); [by left|right].
             apply Hsub. set_solver.
  Qed.

  Lemma fast_queue_nodes g n : n ∈ (fast_queue enum cost g).*2 <->
    seqs g n <> ∅ /\ reqs g n <> ∅.
  Proof.
    unfold fast_queue. rewrite <- list_fmap_compose. simpl.
    rewrite list_fmap_id, elem_of_list_filter, elem_of_enum.
    fold (seqs g n) (reqs g n). split; [tauto|]. intros [Hs Hr]. split; [done|].
    apply elem_of_dom. unfold seqs, ds_get in Hs. destruct (g_seq g !! n); [eauto|done].
  Qed.

  Lemma fast_simplify_ok g V :
    wf V g ->
    let Q := (fast_queue enum cost g).*2 in
    (exists g', fast_simplify enum is_one cost qpop g = Ok g' /\
       wf (V ∖ list_to_set Q) g' /\
       reduces V (ef g) (V ∖ list_to_set Q) (ef g') /\
       (forall n, n ∈ V ∖ list_to_set Q -> done_node g' n) /\
       (forall r s, is_Some (g_em g' !! (r, s)) -> is_Some (g_em g !! (r, s)) \/ (r ∈ V /\ s ∈ V)) /\
       (forall n, seqs g n = ∅ -> seqs g' n = ∅) /\
       (forall n, reqs g n = ∅ -> reqs g' n = ∅)) \/
    (fast_simplify enum is_one cost qpop g = Err ZeroDivisionError /\
     exists V' e' n, reduces V (ef g) V' e' /\ n ∈ V' /\ n ∈ Q /\
       (forall m, m ∈ V ∖ V' -> m ∈ Q) /\ e' n n = 1).
  Proof.
    intros Hwf Q. unfold fast_simplify. rewrite (check_balance_ok V) by done. simpl.
    apply (fast_loop_ok (length (fast_queue enum cost g))); [lia|done| | |].
    - unfold fast_queue. rewrite <- list_fmap_compose. simpl. rewrite list_fmap_id.
      apply NoDup_filter, NoDup_enum.
    - intros n Hn. apply fast_queue_nodes in Hn as [Hs _].
      apply set_choose_L in Hs as [s Hs]. by apply (wf_in _ _ Hwf) in Hs as [? _].
    - intros n HnV Hn. rewrite fast_queue_nodes in Hn. unfold done_node.
      destruct (decide (seqs g n = ∅)); [by left|]. destruct (decide (reqs g n = ∅)); [by right|].
      tauto.
  Qed.
End gp.
