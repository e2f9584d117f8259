(** Lemmas about the sparse solver. *)
From Verif Require Import Fld Py LinSpec LinAlg LinReduce LinIo Herm GraphModel GraphSpec GraphProofs GraphPurge GraphSolve GraphMain.
From Verif Require Import DagModel DagSpec DagElim DagLoops DagPurge DagSolve DagFinal SparseModel SparseSpec.
Local Open Scope fld_scope.

Section simplify.
  Context {K : fld} {N : Type} `{Countable N}.
  Add Field FF : (f_theory K).
  Notation W := (wnode N).
  Notation srabe := (srabe K W).
  Context (rt : sparse_runtime K N) (Hrt : sparse_runtime_ok rt).
  Notation enum := (sr_enum rt).
  Implicit Types s : srabe.
  Implicit Types A B P : gset W.

  Lemma elem_of_members (m : gmap W (gset W)) x : x ∈ members m <-> exists n, x ∈ ds_get m n.
  Proof using Type.
    unfold members. rewrite elem_of_union_list. split.
    - intros (X & HX & Hx). apply elem_of_list_fmap in HX as ([n Y] & -> & HX).
      apply elem_of_map_to_list in HX. exists n. unfold ds_get. by rewrite HX.
    - intros (n & Hx). unfold ds_get in Hx. destruct (m !! n) as [X|] eqn:HX; [|by apply elem_of_empty in Hx].
      exists X. split; [|done]. apply elem_of_list_fmap. exists (n, X). split; [done|]. by apply elem_of_map_to_list.
  Qed.

  Lemma sp_keys_eq P A B s : dinv P A B s -> sp_keys s = P.
  Proof using Type.
    intros Hd. pose proof Hd as [HVA HVB HAB [wseq wreq wra wsb] Ds Dr]. unfold sp_keys. rewrite Ds, Dr.
    apply set_eq. intros x. rewrite !elem_of_union, !elem_of_members. split; [|tauto].
    intros [[[?|?]|[n Hx]]|[n Hx]]; try done.
    - apply wreq in Hx. tauto.
    - apply wseq in Hx. tauto.
  Qed.

  Definition one_out s : Prop := forall m b, b ∈ qsb s m -> exists o, m = Nd o /\ b = WOut o.

  (** the result loop *)
  Lemma sp_entries P A B s (X : gmap (W * W) K) : dinv P A B s -> one_out s ->
    (forall c k, is_Some (X !! (c, k)) -> c ∈ A /\ k ∈ P) -> (forall a o, a ∈ A -> a <> Nd o) ->
    exists s', mfor (sp_entry s) (sr_xenum rt X) (with_em s ∅) = Ok s' /\
      (forall c o, q_em s' !! (c, WOut o) = if decide (WOut o ∈ qsb s (Nd o)) then (fun x => x * qe s (Nd o) (WOut o)) <$> X !! (c, Nd o) else None) /\
      (forall c b, c ∈ A -> b ∈ qsb s' c <-> (is_Some (q_em s' !! (c, b)) /\ exists o, b = WOut o)).
  Proof using Hrt.
    intros Hd Hone HX HA. pose proof Hd as [HVA HVB HAB [wseq wreq wra wsb] Ds Dr].
    set (l := sr_xenum rt X).
    assert (NoDup l.*1) as Hnd.
    { unfold l. rewrite (sr_xenum_ok _ Hrt). apply NoDup_fst_map_to_list. }
    assert (forall c k x, ((c, k), x) ∈ l <-> X !! (c, k) = Some x) as Hl.
    { intros. unfold l. rewrite (sr_xenum_ok _ Hrt). apply elem_of_map_to_list. }
    destruct (mfor_ind (sp_entry s) (fun pre s' =>
      (forall c o, q_em s' !! (c, WOut o) = if decide (WOut o ∈ qsb s (Nd o)) then (fun x => x * qe s (Nd o) (WOut o)) <$> ((list_to_map pre : gmap (W * W) K) !! (c, Nd o)) else None) /\
      (forall c b, c ∈ A -> b ∈ qsb s' c <-> (is_Some (q_em s' !! (c, b)) /\ exists o, b = WOut o))) l (with_em s ∅)) as (s' & He & I1 & I2).
    - split.
      + intros c o. cbn [q_em with_em list_to_map]. rewrite lookup_empty. destruct (decide _); [|done].
        change (list_to_map []) with (∅ : gmap (W * W) K). by rewrite lookup_empty.
      + intros c b Hc. cbn [q_em with_em]. rewrite lookup_empty. split; [|intros [[] _]; done].
        intros Hb. change (qsb (with_em s ∅) c) with (qsb s c) in Hb. apply Hone in Hb as (o & -> & _). by destruct (HA _ o Hc).
    - intros pre [[c k] x] post s' Hsp (I1 & I2).
      assert (((c, k), x) ∈ l) as Hin by (rewrite Hsp; apply elem_of_app; right; left).
      assert (list_to_map (pre ++ [((c, k), x)]) = <[(c, k) := x]> (list_to_map pre : gmap (W * W) K)) as Hmap.
      { rewrite list_to_map_snoc; [done|]. rewrite Hsp, fmap_app in Hnd. cbn [fmap list_fmap] in Hnd.
        apply NoDup_app in Hnd as (_ & Hdj & _). intros Hx. apply (Hdj _ Hx). left. }
      destruct (HX c k) as [Hc Hk]; [apply Hl in Hin; eauto|].
      unfold sp_entry. fold (qsb s k). destruct (elements (qsb s k)) as [|b [|b' l']] eqn:Hel.
      + exists s'. split; [done|]. split; [|done]. intros c' o. rewrite I1, Hmap.
        destruct (decide _) as [Ho|]; [|done]. rewrite lookup_insert_ne; [done|]. intros [= -> ->].
        apply elem_of_elements in Ho. rewrite Hel in Ho. by apply elem_of_nil in Ho.
      + assert (b ∈ qsb s k) as Hb by (apply elem_of_elements; rewrite Hel; left).
        pose proof (Hone k b Hb) as (o & -> & ->).
        pose proof Hb as Hb'. apply wsb in Hb' as [_ Hsm]. unfold d_get. rewrite (qe_some _ _ _ Hsm). cbn [mbind res_bind].
        eexists. split; [done|]. cbn [q_em]. split.
        * intros c' o'. rewrite Hmap. destruct (decide (c' = c /\ o' = o)) as [[-> ->]|Hne].
          -- rewrite !lookup_insert, decide_True by done. done.
          -- rewrite !lookup_insert_ne by (intros [= -> ->]; tauto). apply I1.
        * intros c' b Hc'. unfold qsb. cbn [q_sb]. rewrite ds_get_add. destruct (decide (c' = c)) as [->|Hne].
          -- rewrite elem_of_union, elem_of_singleton. fold (qsb s' c). rewrite I2 by done. split.
             ++ intros [->|[Hs (o' & ->)]]; [rewrite lookup_insert; eauto|].
                split; [|eauto]. destruct (decide (o' = o)) as [->|]; [rewrite lookup_insert; eauto|].
                by rewrite lookup_insert_ne by congruence.
             ++ intros [Hs (o' & ->)]. destruct (decide (o' = o)) as [->|]; [by left|]. right.
                rewrite lookup_insert_ne in Hs by congruence. eauto.
          -- fold (qsb s' c'). rewrite I2 by done. rewrite lookup_insert_ne by congruence. done.
      + exfalso. assert (b ∈ qsb s k /\ b' ∈ qsb s k) as [Hb Hb'].
        { split; apply elem_of_elements; rewrite Hel; [left|right; left]. }
        apply Hone in Hb as (o & -> & ->). apply Hone in Hb' as (o' & [= <-] & ->).
        pose proof (NoDup_elements (qsb s (Nd o))) as Hn. rewrite Hel in Hn. apply NoDup_cons in Hn as [Hn _]. apply Hn. left.
    - exists s'. split; [done|]. split; [|done]. intros c o. rewrite I1. destruct (decide _); [|done]. f_equal.
      destruct (X !! (c, Nd o)) as [x|] eqn:Hx.
      + apply elem_of_list_to_map; [done|]. by apply Hl.
      + apply not_elem_of_list_to_map. intros Hin. apply elem_of_list_fmap in Hin as ([[c' k'] x] & [= <- <-] & Hin).
        apply Hl in Hin. congruence.
  Qed.

  Lemma sp_simplify_unfold P A B s : dfresh P A B s ->
    sp_simplify enum (sr_spsolve rt) (sr_xenum rt) s =
    (x ← sr_spsolve rt P (members (q_ra s)) (sp_A s) (sp_b s); mfor (sp_entry s) (sr_xenum rt x) (with_em s ∅)).
  Proof using Hrt.
    intros [Hd Hra Hsb]. pose proof Hd as [HVA HVB HAB [wseq wreq wra wsb] Ds Dr].
    pose proof (sr_enum_ok _ Hrt) as Henum.
    unfold sp_simplify. rewrite (dag_balance_ok enum Henum P A B) by done. cbn [mbind res_bind].
    assert (with_em s (g_em (Graph (q_seq s) (q_req s) (q_em s))) = s) as -> by (by destruct s).
    rewrite (sp_keys_eq P A B) by done.
    rewrite (mfor_const _ (enum (dom (q_sb s))) tt).
    2: { intros n _. apply mfor_const. intros o Ho. apply (elem_of_enum enum Henum) in Ho. apply wsb in Ho as [_ [v Hv]].
         unfold d_get. by rewrite Hv. }
    cbn [mbind res_bind].
    rewrite (mfor_const _ (enum (dom (q_seq s))) tt).
    2: { intros n _. apply mfor_const. intros o Ho. apply (elem_of_enum enum Henum) in Ho. apply wseq in Ho as [_ [v Hv]].
         unfold d_get. by rewrite Hv. }
    cbn [mbind res_bind].
    rewrite (mfor_const _ (enum (dom (q_ra s))) tt); [done|].
    intros n _. apply mfor_const. intros a Ha. apply (elem_of_enum enum Henum) in Ha.
    assert (n ∈ P) as Hn by (apply Hra, (ds_get_dom _ _ a); done).
    apply wra in Ha as [_ [v Hv]]. unfold d_get. rewrite Hv. cbn [mbind res_bind]. by rewrite decide_True.
  Qed.

  (** the solution as input/output behaviour *)
  Lemma sp_flow P A B s (X : gmap (W * W) K) s' o : dfresh P A B s -> one_out s -> nonsing P A (qe s) ->
    (forall a o, a ∈ A -> a <> Nd o) -> WOut o ∈ B ->
    (forall c k, is_Some (X !! (c, k)) -> c ∈ members (q_ra s) /\ k ∈ P) ->
    (forall c, c ∈ members (q_ra s) -> solves (elements P) (sp_A s) (sp_b s c) (fun k => default 0 (X !! (c, k)))) ->
    (forall c o, q_em s' !! (c, WOut o) = if decide (WOut o ∈ qsb s (Nd o)) then (fun x => x * qe s (Nd o) (WOut o)) <$> X !! (c, Nd o) else None) ->
    forall Y, sol P A (qe s) Y -> flow (P ∪ A) (qe s) Y (WOut o) = - gsum (fun c => qe s' c (WOut o) * Y c) A.
  Proof using Hrt.
    intros [Hd Hra Hsb] Hone Hns HA Ho HX Hsolve Hem Y HY. pose proof Hd as [HVA HVB HAB [wseq wreq wra wsb] Ds Dr].
    assert (forall F : W -> K, gsum F (P ∪ A) = gsum F P + gsum F A) as Hun.
    { intros F. unfold gsum. rewrite <- fsum_app. apply fsum_perm. by rewrite elements_disj_union. }
    set (x := fun c k => default 0 (X !! (c, k))).
    assert (forall c n, c ∈ A -> n ∈ P -> gsum (fun k => qe s k n * x c k) P = qe s c n) as Hx.
    { intros c n Hc Hn. destruct (decide (c ∈ members (q_ra s))) as [Hm|Hm].
      - transitivity (fsum (fun k => sp_A s k n * x c k) (elements P)).
        { apply fsum_ext. intros k Hk. apply elem_of_elements in Hk. unfold sp_A. fold (qseq s k) (qe s k n).
          destruct (decide _) as [|Hnk]; [done|]. rewrite qe_none; [done|]. intros Hs. apply Hnk, wseq. tauto. }
        etrans; [apply (Hsolve c Hm n); by apply elem_of_elements|]. unfold sp_b. fold (qra s n) (qe s c n).
        destruct (decide _) as [|Hnk]; [done|]. symmetry. apply qe_none. intros Hs. apply Hnk, wra. tauto.
      - rewrite (qe_none s c n).
        + apply gsum_0. intros k Hk. unfold x. destruct (X !! (c, k)) eqn:Hxx.
          * exfalso. apply Hm. apply (HX c k). eauto.
          * cbn [from_option id]. ring.
        + intros Hs. apply Hm, elem_of_members. exists n. apply wra. tauto. }
    pose (Z := fun n => if decide (n ∈ P) then Y n + gsum (fun c => x c n * Y c) A else 0).
    assert (forall n, n ∈ P -> Z n = 0) as HZ.
    { apply Hns.
      - intros a Ha. unfold Z. rewrite decide_False; [done|]. intros Hp. by apply (HVA a).
      - intros n Hn. specialize (HY n Hn). unfold flow in *. rewrite Hun in HY |- *.
        rewrite (gsum_0 (fun r => qe s r n * Z r) A).
        2: { intros a Ha. unfold Z. rewrite decide_False; [ring|]. intros Hp. by apply (HVA a). }
        rewrite (gsum_ext _ (fun r => qe s r n * Y r + gsum (fun c => qe s r n * (x c r * Y c)) A)).
        2: { intros r Hr. unfold Z. rewrite decide_True by done. unfold gsum. rewrite fsum_mul_l. ring. }
        unfold gsum in *. rewrite fsum_add, fsum_swap.
        rewrite (fsum_ext (fun b => fsum (fun a => qe s a n * (x b a * Y b)) (elements P)) (fun c => qe s c n * Y c)).
        + etrans; [|exact HY]. ring.
        + intros c Hc. apply elem_of_elements in Hc. rewrite <- (Hx c n Hc Hn). unfold gsum. rewrite <- fsum_mul_r.
          apply fsum_ext. intros; ring. }
    unfold flow. rewrite Hun.
    rewrite (gsum_0 (fun r => qe s r (WOut o) * Y r) A).
    2: { intros a Ha. rewrite qe_none; [ring|]. intros Hs.
         assert (WOut o ∈ qsb s a) as Hq by (apply wsb; tauto). apply Hone in Hq as (o' & -> & _). by destruct (HA _ o' Ha). }
    destruct (decide (WOut o ∈ qsb s (Nd o))) as [Hq|Hq].
    - assert (Nd o ∈ P) as HoP by (apply Hsb, (ds_get_dom _ _ (WOut o)); done).
      rewrite (gsum_split _ P (Nd o)) by done. rewrite gsum_0.
      2: { intros n Hn. apply elem_of_difference in Hn as [Hn Hne]. rewrite qe_none; [ring|]. intros Hs.
           assert (WOut o ∈ qsb s n) as Hq' by (apply wsb; tauto). apply Hone in Hq' as (o' & -> & [= ->]).
           apply Hne. by apply elem_of_singleton. }
      rewrite (gsum_ext (fun c => qe s' c (WOut o) * Y c) (fun c => qe s (Nd o) (WOut o) * (x c (Nd o) * Y c))).
      2: { intros c Hc. unfold qe at 1. rewrite Hem, decide_True by done. unfold x.
           destruct (X !! (c, Nd o)); cbn [fmap option_fmap option_map from_option id]; ring. }
      unfold gsum. rewrite fsum_mul_l. specialize (HZ (Nd o) HoP). unfold Z in HZ. rewrite decide_True in HZ by done.
      fold (gsum (fun c => x c (Nd o) * Y c) A).
      assert (Y (Nd o) = - gsum (fun c => x c (Nd o) * Y c) A) as ->; [|ring].
      apply fsub_0_eq. rewrite <- HZ. ring.
    - rewrite (gsum_0 (fun r => qe s r (WOut o) * Y r) P).
      2: { intros n Hn. rewrite qe_none; [ring|]. intros Hs.
           assert (WOut o ∈ qsb s n) as Hq' by (apply wsb; tauto).
           pose proof Hq' as Hq2. apply Hone in Hq2 as (o' & -> & [= ->]). done. }
      rewrite gsum_0; [ring|]. intros c Hc. unfold qe. rewrite Hem, decide_False by done. cbn [from_option id]. ring.
  Qed.
End simplify.

Section main.
  Context {K : fld} {N : Type} `{Countable N}.
  Add Field FF : (f_theory K).
  Notation W := (wnode N).
  Notation wgraph := (graph K W).
  Notation srabe := (srabe K W).
  Context (rt : sparse_runtime K N) (Hrt : sparse_runtime_ok rt).
  Context (V I O : list N) (om : option (list (N * K))) (Hrq : request_ok V I O om).
  Notation enum := (sr_enum rt).

  Lemma sp_dress_dag (g : wgraph) neg : sp_dress g O I om neg = dag_dress g O I om (negb neg).
  Proof using Type. unfold sp_dress, dag_dress. by destruct neg. Qed.

  Lemma As_not_Nd a o : a ∈ As (N := N) I -> a <> Nd o.
  Proof using Type. intros Ha ->. apply in_As in Ha as [?|(n & ? & _)]; done. Qed.

  Lemma sp_unwrap_ok (s : srabe) :
    (forall c b, c ∈ As I -> b ∈ qsb s c <-> (is_Some (q_em s !! (c, b)) /\ exists o, b = WOut o)) ->
    exists sol, unwrap enum (ds_get (q_sb s)) (q_em s) O I (match om with Some _ => true | None => false end) = Ok sol /\
      (forall i o, i ∈ I -> o ∈ O -> R_of sol i o = qe s (WIn i) (WOut o)) /\
      (forall o, o ∈ O -> om <> None -> m_out sol o = qe s WVac (WOut o)).
  Proof using Hrq Hrt.
    intros Hsb. pose proof (sr_enum_ok _ Hrt) as Henum.
    (* restrict the dict to the inputs *)
    set (q := filter (fun kv => kv.1 ∈ As I) (q_sb s)).
    assert (forall c, c ∈ As I -> ds_get q c = qsb s c) as Hq.
    { intros c Hc. unfold q, qsb, ds_get. destruct (q_sb s !! c) as [X|] eqn:HX.
      - by rewrite (map_filter_lookup_Some_2 _ _ _ X).
      - rewrite map_filter_lookup_None_2; [done|by left]. }
    assert (forall c, c ∉ As I -> ds_get q c = ∅) as Hq'.
    { intros c Hc. unfold q, ds_get. rewrite map_filter_lookup_None_2; [done|]. right. intros X HX. exact Hc. }
    set (gg := Graph q ∅ (q_em s) : wgraph).
    assert (forall i w, w ∈ seqs gg (WIn i) -> is_out w /\ is_Some (q_em s !! (WIn i, w))) as Hg.
    { intros i w Hw. unfold seqs in Hw. cbn [g_seq gg] in Hw. destruct (decide (WIn i ∈ As I)) as [Hi|Hi].
      - rewrite Hq in Hw by done. apply Hsb in Hw as [Hs (o & ->)]; done.
      - rewrite Hq' in Hw by done. by apply elem_of_empty in Hw. }
    unfold GraphModel.unwrap.
    destruct (unwrap_total enum Henum gg I) with (um := (∅ : gmap (N * N) K)) as (um & Hum).
    { intros i w Hw. by apply Hg in Hw as [_ ?]. }
    { intros i w _ Hw. by apply Hg in Hw as [? _]. }
    pose proof (unwrap_outer enum Henum gg I _ _ Hum) as Hlk. cbn [g_seq g_em gg] in Hum.
    assert (forall (l : list N) (um0 : gmap (N * N) K), (forall i, i ∈ l -> i ∈ I) ->
      mfor (unwrap_in enum (ds_get (q_sb s)) (q_em s)) l um0 = mfor (unwrap_in enum (ds_get q) (q_em s)) l um0) as Hsame.
    { induction l as [|i l IH]; intros um0 Hl; [done|]. simpl. unfold unwrap_in at 1 3. fold (qsb s (WIn i)).
      rewrite Hq by (apply in_As; right; exists i; split; [done|apply Hl; left]).
      destruct (mfor _ _ um0); [|done]. apply IH. intros j Hj. apply Hl. by right. }
    rewrite Hsame by done. rewrite Hum.
    cbn [mbind res_bind]. eexists. split; [done|]. split.
    - intros i o Hi Ho. unfold R_of, qe. cbn [sol_edge_map]. rewrite Hlk.
      destruct (decide _) as [_|Hn]; [done|]. cbn [gg g_em].
      destruct (q_em s !! (WIn i, WOut o)) eqn:He; [|done]. exfalso. apply Hn. split; [done|].
      unfold seqs. cbn [g_seq gg]. assert (WIn i ∈ As I) by (apply in_As; eauto). rewrite Hq by done. apply Hsb; [done|].
      rewrite He. eauto.
    - intros o Ho Hom. destruct om as [l|]; [|done]. unfold m_out. cbn [sol_outputs_map default].
      pose proof (unwrap_map enum Henum gg O ∅ o (rq_O _ _ _ _ Hrq)) as Hum'. cbn [g_em gg] in Hum'.
      rewrite decide_True in Hum' by done. cbn [from_option id]. setoid_rewrite Hum'. unfold qe.
      by destruct (q_em s !! (WVac, WOut o)).
  Qed.

  Lemma sp_plain_core (g : wgraph) pi po neg :
    plain_input V g -> injective_sys V (S_of g) ->
    (spsolve_total (sr_spsolve rt) -> exists sol, scisparse rt g O I om pi po neg false = Ok sol) /\
    (forall sol, scisparse rt g O I om pi po neg false = Ok sol ->
       dag_answer V I O om (S_of g) (if neg then 1 else - (1)) sol).
  Proof using Hrt Hrq.
    intros Hpl Hinj. destruct Hrt as [R1 R2 R3 R4 R5].
    unfold scisparse, sp_inverse_solve. destruct (decide _) as [Hex|_].
    { split; [eauto|]. intros sol [= <-] x a t Ht Hx o Ho. destruct Hex as [HO|[Hom HI]].
      { rewrite HO in Ho. by apply elem_of_nil in Ho. }
      rewrite (Ht Hom). rewrite HI in Hx |- *. cbn [fsum].
      assert (x o = 0) as ->; [|ring].
      apply Hinj; [|by apply (rq_OV _ _ _ _ Hrq)]. intros n Hn. rewrite <- (Hx n Hn). rewrite Hom. unfold source, m_of.
      cbn [from_option id list_to_map fmap]. rewrite decide_False by (intros Hz; by apply elem_of_nil in Hz). simpl.
      try (rewrite lookup_empty; cbn [from_option id]); ring. }
    cbn [mbind res_bind]. rewrite sp_dress_dag.
    destruct (dag_purged V I O om Hrq enum R1 (sr_pick rt) R2 R3 g pi po (negb neg) Hpl Hinj)
      as (s1 & P2 & s2 & E1 & E2 & Hf2 & Hio & Hone).
    set (s0 := dag_dress (pre_purge g) O I om (negb neg)) in *.
    assert (nonsing (Vs V) (As I) (qe s0)) as Hns0 by (by apply dress_nonsing).
    assert (nonsing P2 (As I) (qe s2)) as Hns2 by (by apply Hio).
    rewrite E1. cbn [mbind res_bind]. rewrite E2. cbn [mbind res_bind].
    rewrite (sp_simplify_unfold rt Hrt P2 (As I) (Bs O)) by done.
    pose proof (df_inv _ _ _ _ Hf2) as Hd2. pose proof Hd2 as [HVA HVB HAB [wseq wreq wra wsb] Ds Dr].
    assert (injective_sys (elements P2) (sp_A s2)) as Hi2.
    { apply nonsing_inj in Hns2; [|done]. intros x Hx. apply Hns2. intros n Hn. rewrite <- (Hx n Hn). apply fsum_ext.
      intros k Hk. unfold sp_A. fold (qseq s2 k) (qe s2 k n). destruct (decide _) as [|Hnk]; [done|].
      rewrite qe_none; [done|]. intros Hs. apply Hnk, wseq. apply elem_of_elements in Hn, Hk. tauto. }
    assert (forall c, c ∈ members (q_ra s2) -> c ∈ As I) as Hmem.
    { intros c Hc. apply elem_of_members in Hc as (n & Hn). apply wra in Hn. tauto. }
    destruct (sr_spsolve rt P2 (members (q_ra s2)) (sp_A s2) (sp_b s2)) as [X|e] eqn:HX.
    2: { split; [|done]. intros Htot. destruct (Htot P2 (members (q_ra s2)) (sp_A s2) (sp_b s2) Hi2) as (X & HX'). congruence. }
    cbn [mbind res_bind]. destruct (R4 _ _ _ _ _ Hi2 HX) as [HX1 HX2].
    destruct (sp_entries rt Hrt P2 (As I) (Bs O) s2 X Hd2 Hone) as (s3 & -> & Hem3 & Hsb3).
    { intros c k Hs. apply HX1 in Hs as [Hc Hk]. auto. }
    { intros. by apply As_not_Nd. }
    cbn [mbind res_bind].
    destruct (sp_unwrap_ok s3 Hsb3) as (sol & -> & HR & Hm).
    split; [eauto|]. intros sol' [= <-].
    intros x a t Ht Hx o Ho. destruct Hio as [Hfw _ _].
    destruct (Hfw (Xd x a t)) as (X' & HX' & Ha & Hb).
    { intros w Hw. apply in_Vs in Hw as (n & -> & Hn). unfold s0. rewrite (dress_flow_node V I O om Hrq (negb neg) g) by done. by apply Hx. }
    assert (WOut o ∈ Bs O) as HoB by (apply in_Bs; eauto).
    specialize (Hb (WOut o) HoB).
    rewrite (sp_flow rt Hrt P2 (As I) (Bs O) s2 X s3 o Hf2 Hone Hns2 (fun a o => As_not_Nd a o) HoB HX1 HX2 Hem3 X' HX') in Hb.
    unfold s0 in Hb. rewrite (dress_flow_out V I O om Hrq (negb neg) g) in Hb by done. cbn [Xd] in Hb.
    transitivity (- ((if negb neg then 1 else - (1)) * x o)); [destruct neg; simpl; ring|].
    rewrite <- Hb.
    pose proof (flow_As V I O om Hrq (qe s3) X' (WOut o)) as Hfl. unfold flow in Hfl.
    assert (∅ ∪ As I = As I) as HeA by (apply set_eq; intros z; rewrite elem_of_union; split; [intros [Hz|]; [by apply elem_of_empty in Hz|done]|auto]).
    rewrite HeA in Hfl. rewrite Hfl.
    rewrite (fsum_ext (fun i => R_of sol i o * a i) (fun i => qe s3 (WIn i) (WOut o) * X' (WIn i))).
    2: { intros i Hi. rewrite HR, (Ha (WIn i)) by (done || apply in_As; eauto). done. }
    rewrite (Ha WVac) by (apply in_As; by left). cbn [Xd].
    destruct (decide (om = None)) as [He|He]; [rewrite (Ht He); ring|]. rewrite Hm by done. ring.
  Qed.

  Lemma sp_plain (g : wgraph) pi po neg :
    scattering_input V g ->
    (forall w, w ∈ dom (g_seq g) \/ w ∈ dom (g_req g) -> exists n, w = Nd n /\ n ∈ V) ->
    injective_sys V (S_of g) ->
    (spsolve_total (sr_spsolve rt) -> exists sol, scisparse rt g O I om pi po neg false = Ok sol) /\
    (forall sol, scisparse rt g O I om pi po neg false = Ok sol -> plain_spec V I O om (S_of g) neg sol).
  Proof using Hrt Hrq.
    intros Hsi Hk Hi. pose proof (keyed_plain V g Hsi Hk Hi) as Hpl.
    destruct (sp_plain_core g pi po neg Hpl Hi) as [Hex Hsol].
    split; [done|]. intros sol Hs. apply answer_plain; [apply Hsi|done|auto].
  Qed.

  Lemma sp_scattering (g : wgraph) pi po neg :
    scattering_input V g -> all_mentioned V I O om g -> self_valued g -> nonsingular V (S_of g) ->
    (spsolve_total (sr_spsolve rt) -> exists sol, scisparse rt g O I om pi po neg true = Ok sol) /\
    (forall sol, scisparse rt g O I om pi po neg true = Ok sol -> scattering_spec V I O om (S_of g) neg sol).
  Proof using Hrt Hrq.
    intros Hsi Hk Hsv Hns. assert (NoDup V) as Hnd by apply Hsi.
    destruct (diag_ok enum (sr_enum_ok _ Hrt) V g (dom (g_seq g) ∪ dom (g_req g) ∪ list_to_set (Nd <$> I)
                         ∪ list_to_set (Nd <$> O) ∪ list_to_set (Nd <$> (default [] om).*1)) Hsi) as (g1 & Hg1 & Hpl & HS); [|..|done|].
    { intros w. rewrite !elem_of_union. tauto. }
    { apply set_eq. intros w. etrans; [|symmetry; apply in_Vs]. etrans; [|apply Hk].
      rewrite !elem_of_union, !elem_of_list_to_set, !elem_of_list_fmap. clear. naive_solver. }
    pose proof (scat_inj V _ _ HS Hnd Hns) as Hi.
    destruct (sp_plain_core g1 pi po (negb neg) Hpl Hi) as [Hex Hsol].
    assert (scisparse rt g O I om pi po neg true = scisparse rt g1 O I om pi po (negb neg) false) as ->.
    { unfold scisparse, sp_inverse_solve, sp_scatter. destruct (decide _); [done|]. rewrite Hg1. done. }
    split; [done|]. intros sol Hs.
    apply (answer_scattering V I O om (S_of g1)); [done|done|done|auto].
  Qed.
End main.

(** an exact solver exists *)
Section ref.
  Context {K : fld} {N : Type} `{Countable N}.
  Notation W := (wnode N).
  Definition ref_spsolve (keys cols : gset W) (A b : W -> W -> K) : res (gmap (W * W) K) :=
    Ok (list_to_map (c ← elements cols; k ← elements keys; [((c, k), lsolve (elements keys) A (b c) k)])).
  Definition ref_rt : sparse_runtime K N :=
    SparseRuntime elements (fun X => head (elements X)) ref_spsolve map_to_list.
  Lemma ref_rt_ok : sparse_runtime_ok ref_rt.
  Proof.
    split; simpl; try done.
    - intros X n Hn. destruct (elements X) as [|x l] eqn:He; [done|]. injection Hn as <-.
      apply elem_of_elements. rewrite He. left.
    - intros X Hn. destruct (elements X) as [|x l] eqn:He; [|done]. by apply elements_empty_inv, leibniz_equiv in He.
    - intros keys cols A b X Hinj [= <-].
      set (l := c ← elements cols; k ← elements keys; [((c, k), lsolve (elements keys) A (b c) k)]).
      assert (forall c k v, ((c, k), v) ∈ l <-> c ∈ cols /\ k ∈ keys /\ v = lsolve (elements keys) A (b c) k) as Hl.
      { intros c k v. unfold l. rewrite elem_of_list_bind. split.
        - intros (c' & Hin & Hc). apply elem_of_list_bind in Hin as (k' & Hin & Hk). apply elem_of_list_singleton in Hin as [= -> -> ->].
          apply elem_of_elements in Hc, Hk. done.
        - intros (Hc & Hk & ->). exists c. split; [|by apply elem_of_elements]. apply elem_of_list_bind. exists k.
          split; [apply elem_of_list_singleton; reflexivity|by apply elem_of_elements]. }
      assert (forall c k, c ∈ cols -> k ∈ keys -> (list_to_map l : gmap (W * W) K) !! (c, k) = Some (lsolve (elements keys) A (b c) k)) as Hlk.
      { intros c k Hc Hk. apply elem_of_list_to_map'; [|by apply Hl]. intros v Hv1 Hv. apply Hl in Hv as (_ & _ & ->). done. }
      split.
      + intros c k [v Hv]. apply elem_of_list_to_map_2 in Hv. apply Hl in Hv. tauto.
      + intros c Hc n Hn. rewrite (fsum_ext _ (fun m => A m n * lsolve (elements keys) A (b c) m)).
        * apply lsolve_ok; [apply NoDup_elements|done|done].
        * intros m Hm. apply elem_of_elements in Hm. by rewrite Hlk.
  Qed.
  Lemma ref_rt_total : spsolve_total (sr_spsolve ref_rt).
  Proof. intros keys cols A b _. eauto. Qed.
End ref.
