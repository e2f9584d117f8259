(** Lemmas about DagModel: one reduction step and the simplification loops. *)
From Verif Require Import Fld Py LinSpec LinAlg LinReduce LinIo Herm GraphModel GraphProofs DagModel DagSpec DagElim DagPivot DagHouse.
Local Open Scope fld_scope.

Lemma NoDup_fst_filter {A B : Type} (P : A * B -> Prop) `{forall x, Decision (P x)} (l : list (A * B)) :
  NoDup l.*1 -> NoDup (filter P l).*1.
Proof.
  induction l as [|[a b] l IH]; [done|]. cbn [fmap list_fmap]. intros Hn. apply NoDup_cons in Hn as [Ha Hn].
  rewrite filter_cons. destruct (decide _); [|auto]. cbn [fmap list_fmap]. constructor; [|auto].
  intros Hx. apply Ha. apply elem_of_list_fmap in Hx as (y & Hy & Hx).
  apply elem_of_list_filter in Hx as [_ Hx]. apply elem_of_list_fmap. eauto.
Qed.

Section io.
  Context {K : fld} {N : Type} `{Countable N}.
  Notation srabe := (srabe K N).
  Add Field FF : (f_theory K).
  Context (enum : gset N -> list N) (Henum : forall X, enum X ≡ₚ elements X).
  Implicit Types (s : srabe) (inv V A B : gset N).

  Lemma lu_io V A B s inv v :
    dinv V A B s -> v ∈ V -> is_Some (q_em s !! (v, v)) -> qe s v v <> 0 ->
    exists s' inv', reduce_lu enum v (s, inv) = Ok (s', inv') /\
      dinv (V ∖ {[v]}) A B s' /\ io_equiv A B V (qe s) (V ∖ {[v]}) (qe s') /\ inv' ⊆ inv ∪ V.
  Proof using Henum.
    intros Hd Hv Hs Hnz. destruct (reduce_lu_ok enum Henum V A B s inv v Hd Hv Hs Hnz) as (s' & inv' & He & Hd' & Hq & Hi).
    exists s', inv'. split_and!; try done. apply io_elim; try done; apply Hd.
  Qed.
  Lemma lu_io' V A B s inv v st :
    dinv V A B s -> reduce_lu enum v (s, inv) = Ok st ->
    v ∈ V /\ dinv (V ∖ {[v]}) A B st.1 /\ io_equiv A B V (qe s) (V ∖ {[v]}) (qe st.1).
  Proof using Henum.
    intros Hd He. destruct (reduce_lu_pivot enum V A B s inv v st Hd He) as (Hv & Hs & Hnz).
    destruct (lu_io V A B s inv v Hd Hv Hs Hnz) as (s' & inv' & He' & ? & ? & _).
    rewrite He in He'. injection He' as ->. done.
  Qed.
  Lemma pivot_io V A B s inv a b :
    dinv V A B s -> a ∈ V -> b ∈ V -> a <> b ->
    exists s' inv', pivot_col enum a b (s, inv) = Ok (s', inv') /\
      dinv V A B s' /\ io_equiv A B V (qe s) V (qe s') /\ inv' ⊆ inv ∪ V /\
      (forall m n, m ∈ V ∪ A -> n ∈ V ∪ B -> q_em s' !! (m, n) = q_em s !! (swap a b m, n)).
  Proof using Henum.
    intros Hd Ha Hb Hne. destruct (pivot_col_ok enum Henum V A B s inv a b Hd Ha Hb Hne) as (s' & inv' & He & Hd' & Hq & Hi).
    exists s', inv'. split_and!; try done. eapply io_swap_cols; [exact Ha|exact Hb|apply Hd|].
    intros m n Hm Hn. unfold qe. by rewrite Hq.
  Qed.
  Lemma pivot_row_io V A B s inv a b :
    dinv V A B s -> a ∈ V -> b ∈ V -> a <> b ->
    exists s' inv', pivot_row enum a b (s, inv) = Ok (s', inv') /\
      dinv V A B s' /\ io_equiv A B V (qe s) V (qe s') /\
      (forall m n, m ∈ V ∪ A -> n ∈ V ∪ B -> qe s' m n = qe s m (swap a b n)).
  Proof using Henum.
    intros Hd Ha Hb Hne. destruct (pivot_row_ok enum Henum V A B s inv a b Hd Ha Hb Hne) as (s' & inv' & He & Hd' & Hq & Hi).
    assert (forall m n, m ∈ V ∪ A -> n ∈ V ∪ B -> qe s' m n = qe s m (swap a b n)) as Hq'.
    { intros m n Hm Hn. unfold qe. by rewrite Hq. }
    exists s', inv'. split_and!; try done. eapply io_swap_rows; [exact Ha|exact Hb|apply Hd|done].
  Qed.

  Context (h : herm K).
  Notation house := (householder_row enum (h_conj h) (h_sqrt h) (h_abs h)).
  Lemma house_io V A B s into from :
    dinv V A B s -> into ∈ V -> into ∉ from -> NoDup from ->
    (forall k, k ∈ from -> k ∈ V /\ is_Some (q_em s !! (k, into))) ->
    is_Some (q_em s !! (into, into)) -> qe s into into <> 0 ->
    exists s', house into from s = Ok s' /\ dinv V A B s' /\ io_equiv A B V (qe s) V (qe s') /\
      (forall k, k ∈ from -> q_em s' !! (k, into) = None) /\
      is_Some (q_em s' !! (into, into)) /\ qe s' into into <> 0.
  Proof using Henum.
    intros Hd Hi Hni Hnd Hfr Hs Hnz.
    destruct (householder_row_ok h enum Henum V A B s into from Hd Hi Hni Hnd Hfr Hs Hnz)
      as (s' & u & He & Hd' & Hu & Hq & HqA & Hz & Hs' & Hnz').
    exists s'. split_and!; try done.
    eapply (io_reflect_cols A B V (qe s) (qe s') u (fun k => h_conj h (u k))
      (fun n => gsum (fun j => h_conj h (u j) * qe s j n) V)); [apply Hd|done|done|done|done].
  Qed.
  Lemma house_col_io V A B s into from :
    dinv V A B s -> into ∈ V -> into ∉ from -> NoDup from ->
    (forall k, k ∈ from -> k ∈ V /\ is_Some (q_em s !! (into, k))) ->
    is_Some (q_em s !! (into, into)) -> qe s into into <> 0 ->
    exists s', householder_col enum (h_conj h) (h_sqrt h) (h_abs h) into from s = Ok s' /\
      dinv V A B s' /\ io_equiv A B V (qe s) V (qe s') /\
      (forall k, k ∈ from -> q_em s' !! (into, k) = None) /\
      is_Some (q_em s' !! (into, into)) /\ qe s' into into <> 0.
  Proof using Henum.
    intros Hd Hi Hni Hnd Hfr Hs Hnz.
    destruct (householder_row_ok h enum Henum V B A (transpose s) into from)
      as (s' & u & He & Hd' & Hu & Hq & HqA & Hz & Hs' & Hnz'); try done.
    { by apply transpose_dinv. }
    { intros k Hk. rewrite transpose_em. auto. }
    { by rewrite transpose_em. }
    { by rewrite transpose_qe. }
    unfold householder_col. rewrite He. cbn [mbind res_bind]. exists (transpose s').
    split_and!; try done.
    - by apply transpose_dinv.
    - eapply (io_reflect_rows A B V (qe s) (qe (transpose s')) u (fun k => h_conj h (u k))
        (fun n => gsum (fun j => h_conj h (u j) * qe s n j) V)); [apply Hd|done|done| |].
      + intros m n Hm Hn. rewrite transpose_qe, Hq by done. rewrite transpose_qe. f_equal. f_equal.
        apply gsum_ext. intros j _. by rewrite transpose_qe.
      + intros m n Hm Hn. rewrite transpose_qe, HqA by done. by rewrite transpose_qe.
    - intros k Hk. rewrite transpose_em. auto.
    - by rewrite transpose_em.
    - by rewrite transpose_qe.
  Qed.

  (** ** reduceLUQ_row *)
  Context (big : nat -> K -> K -> bool).
  Context (Hbig : big_ok h big).
  Notation luq := (reduce_luq_row enum (h_conj h) (h_sqrt h) (h_abs h) big).

  Lemma row_values_ok V A B s node :
    dinv V A B s -> row_values enum s node = Ok ((fun r => (r, qe s r node)) <$> enum (qreq s node)).
  Proof using Henum.
    intros Hd. change (row_values enum s node) with (hh_collect s node (enum (qreq s node))).
    apply hh_collect_ok. intros k Hk. apply (elem_of_enum enum Henum) in Hk.
    by apply (dw_req _ _ _ _ (di_wf _ _ _ _ Hd)) in Hk as [_ ?].
  Qed.

  Lemma norm_nz (l : list K) x : x ∈ l -> x <> 0 -> norm_of h l <> 0.
  Proof using Type.
    intros Hx Hnz Hz.
    assert (forall y, h_nn h (h_abs h y * h_abs h y)) as Hn.
    { intros y. apply (h_nn_mul K h); apply (h_abs_nn K h). }
    assert (norm_of h l * norm_of h l = fsum (fun x => h_abs h x * h_abs h x) l) as Hsq.
    { apply (h_sqrt_sq K h). apply nn_fsum. auto. }
    assert (fsum (fun x => h_abs h x * h_abs h x) l = 0) as Hs0.
    { rewrite <- Hsq, Hz. ring. }
    clear Hsq Hz. induction l as [|y l IH]; [by apply elem_of_nil in Hx|]. cbn [fsum] in Hs0.
    assert (h_nn h (fsum (fun x => h_abs h x * h_abs h x) l)) as Hnl by (apply nn_fsum; auto).
    apply elem_of_cons in Hx as [->|Hx].
    - apply (h_nn_sum0 K h) in Hs0; [|done..]. apply fmul_integral in Hs0 as [Hs0|Hs0]; by apply (abs_0 h) in Hs0.
    - apply (nn_sum0_r h) in Hs0; [|done..]. by apply IH.
  Qed.

  Lemma luq_ok V A B s inv node :
    dinv V A B s -> nonsing V A (qe s) -> node ∈ V ->
    exists s' inv', luq node (s, inv) = Ok (s', inv') /\
      dinv (V ∖ {[node]}) A B s' /\ io_equiv A B V (qe s) (V ∖ {[node]}) (qe s') /\ inv' ⊆ inv ∪ V.
  Proof using Henum Hbig.
    intros Hd Hns Hnode. pose proof Hd as [HVA HVB HAB [wseq wreq wra wsb] Ds Dr].
    destruct (nonsing_row V A (qe s) node HVA Hns Hnode) as (m0 & Hm0 & Hnz0).
    assert (m0 ∈ qreq s node) as Hm0r.
    { apply wreq. split; [done|]. destruct (decide (is_Some (q_em s !! (m0, node)))) as [|Hn]; [done|].
      by apply qe_none in Hn. }
    unfold reduce_luq_row. rewrite (row_values_ok V A B) by done. cbn [mbind res_bind].
    set (l := enum (qreq s node)). set (vals := (fun r => (r, qe s r node)) <$> l).
    rewrite decide_False.
    2: { fold (qreq s node). intros He. rewrite He in Hm0r. by apply elem_of_empty in Hm0r. }
    assert (row_norm (h_sqrt h) (h_abs h) vals = norm_of h ((fun r => qe s r node) <$> l)) as Hrn.
    { unfold row_norm, norm_of, vals. rewrite !fsum_map. done. }
    assert (m0 ∈ l) as Hm0l by (by apply (elem_of_enum enum Henum)).
    assert (norm_of h ((fun r => qe s r node) <$> l) <> 0) as Hnn.
    { apply (norm_nz _ (qe s m0 node)); [|done]. apply elem_of_list_fmap. eauto. }
    rewrite decide_False by (by rewrite Hrn).
    set (bn := bignodes (h_sqrt h) (h_abs h) big vals).
    assert (length vals = length ((fun r => qe s r node) <$> l)) as Hlen by (unfold vals; by rewrite !fmap_length).
    assert (forall r, r ∈ bn -> r ∈ V /\ is_Some (q_em s !! (r, node)) /\ qe s r node <> 0) as Hbn.
    { intros r Hr. unfold bn, bignodes in Hr. apply elem_of_list_fmap in Hr as ([r' e] & -> & Hr).
      apply elem_of_list_filter in Hr as [Hb Hin]. cbn [fst snd] in *.
      unfold vals in Hin. apply elem_of_list_fmap in Hin as (r & [= -> ->] & Hin).
      unfold l in Hin. apply (elem_of_enum enum Henum) in Hin. apply wreq in Hin as [[? ?] ?]. split_and!; try done.
      eapply (proj1 Hbig); [| |exact Hb]; [|by rewrite Hrn].
      rewrite Hlen, fmap_length. clear -Hm0l. destruct l; [by apply elem_of_nil in Hm0l|simpl; lia]. }
    assert (exists b, b ∈ bn) as Hbne.
    { destruct (proj2 Hbig _ Hnn) as (x & Hx & Hb). apply elem_of_list_fmap in Hx as (r & -> & Hr).
      exists r. unfold bn, bignodes. apply elem_of_list_fmap. exists (r, qe s r node). split; [done|].
      apply elem_of_list_filter. cbn [snd]. split.
      - by rewrite Hrn, Hlen.
      - unfold vals. apply elem_of_list_fmap. eauto. }
    assert (NoDup bn) as Hnd.
    { unfold bn, bignodes, vals.
      apply NoDup_fst_filter. rewrite <- list_fmap_compose.
      replace (fst ∘ (fun r => (r, qe s r node)) <$> l) with l; [by apply NoDup_enum|].
      clear. induction l as [|a l IH]; [done|]. cbn [fmap list_fmap]. by rewrite <- IH. }
    fold bn. clearbody bn. destruct bn as [|b bn']; [destruct Hbne as (? & Hx); by apply elem_of_nil in Hx|].
    destruct (Hbn b) as (HbV & Hbs & Hbz); [left|].
    assert (forall inv0 : gset N, inv0 ⊆ inv ∪ V -> {[node; b]} ∪ inv0 ⊆ inv ∪ V) as Hinv.
    { intros inv0 Hi x. rewrite !elem_of_union, !elem_of_singleton.
      intros [[->| ->]|Hx]; auto. apply Hi, elem_of_union in Hx. done. }
    assert (node ∈ b :: bn' -> is_Some (q_em s !! (node, node)) /\ qe s node node <> 0) as Hnb.
    { intros Hx. apply Hbn in Hx. tauto. }
    destruct bn' as [|b2 bn'].
    - destruct (decide (node ∈ [b])) as [Hin|Hin].
      + destruct (Hnb Hin). by apply lu_io.
      + assert (node <> b) as Hne by (intros ->; apply Hin; left).
        destruct (pivot_io V A B s inv node b Hd Hnode HbV Hne) as (s1 & inv1 & -> & Hd1 & Hio1 & Hi1 & Hq1).
        cbn [mbind res_bind].
        assert (q_em s1 !! (node, node) = q_em s !! (b, node)) as Hself.
        { rewrite Hq1 by (apply elem_of_union; auto). by rewrite swap_l. }
        destruct (lu_io V A B s1 ({[node; b]} ∪ inv1) node Hd1 Hnode) as (s2 & inv2 & He & Hd2 & Hio2 & Hi2).
        { by rewrite Hself. }
        { unfold qe. by rewrite Hself. }
        exists s2, inv2. split_and!; try done.
        * by eapply io_trans.
        * intros x Hx. apply Hi2, elem_of_union in Hx as [Hx|Hx]; [by apply (Hinv inv1)|apply elem_of_union; auto].
    - set (bn := b :: b2 :: bn') in *.
      assert (exists s1 inv1 nfrom, (if decide (node ∈ bn) then Ok (s, inv, filter (.≠ node) bn)
                            else '(s, inv) ← pivot_col enum node b (s, inv);
                                 Ok (s, {[node; b]} ∪ inv, filter (.≠ b) bn)) = Ok (s1, inv1, nfrom) /\
        dinv V A B s1 /\ io_equiv A B V (qe s) V (qe s1) /\ inv1 ⊆ inv ∪ V /\
        is_Some (q_em s1 !! (node, node)) /\ qe s1 node node <> 0 /\ NoDup nfrom /\ node ∉ nfrom /\
        forall k, k ∈ nfrom -> k ∈ V /\ is_Some (q_em s1 !! (k, node))) as Hpre.
      { destruct (decide (node ∈ bn)) as [Hin|Hin].
        - exists s, inv, (filter (.≠ node) bn). destruct (Hnb Hin). split_and!; try done.
          + apply io_refl.
          + apply union_subseteq_l.
          + by apply NoDup_filter.
          + intros Hx. apply elem_of_list_filter in Hx as [? _]. done.
          + intros k Hk. apply elem_of_list_filter in Hk as [_ Hk]. apply Hbn in Hk. tauto.
        - assert (node <> b) as Hne by (intros ->; apply Hin; left).
          destruct (pivot_io V A B s inv node b Hd Hnode HbV Hne) as (s1 & inv1 & -> & Hd1 & Hio1 & Hi1 & Hq1).
          cbn [mbind res_bind].
          assert (q_em s1 !! (node, node) = q_em s !! (b, node)) as Hself.
          { rewrite Hq1 by (apply elem_of_union; auto). by rewrite swap_l. }
          exists s1, ({[node; b]} ∪ inv1), (filter (.≠ b) bn). split_and!; try done.
          + by apply Hinv.
          + by rewrite Hself.
          + unfold qe. by rewrite Hself.
          + by apply NoDup_filter.
          + intros Hx. apply elem_of_list_filter in Hx as [_ ?]. done.
          + intros k Hk. apply elem_of_list_filter in Hk as [Hkb Hk].
            assert (k <> node) by (intros ->; done). apply Hbn in Hk as (? & ? & ?). split; [done|].
            rewrite Hq1 by (apply elem_of_union; auto). by rewrite swap_ne. }
      destruct Hpre as (s1 & inv1 & nfrom & -> & Hd1 & Hio1 & Hi1 & Hs1 & Hz1 & Hndf & Hnf & Hfr).
      cbn [mbind res_bind].
      destruct (house_io V A B s1 node nfrom Hd1 Hnode Hnf Hndf Hfr Hs1 Hz1) as (s2 & -> & Hd2 & Hio2 & _ & Hs2 & Hz2).
      cbn [mbind res_bind].
      destruct (lu_io V A B s2 inv1 node Hd2 Hnode Hs2 Hz2) as (s3 & inv3 & He & Hd3 & Hio3 & Hi3).
      exists s3, inv3. split_and!; try done.
      * eapply io_trans; [exact Hio1|]. by eapply io_trans.
      * intros x Hx. apply Hi3, elem_of_union in Hx as [Hx|Hx]; [by apply Hi1|apply elem_of_union; auto].
  Qed.
End io.

(** ** loops *)
Section loops.
  Context {K : fld} {N : Type} `{Countable N} (h : herm K).
  Notation srabe := (srabe K N).
  Context (enum : gset N -> list N) (Henum : forall X, enum X ≡ₚ elements X).
  Context (big : nat -> K -> K -> bool) (Hbig : big_ok h big).
  Context (order : srabe -> list N) (bad : srabe -> N -> bool).
  Context {C : Type} (cost : nat -> srabe -> N -> C) (drift : C -> C -> bool)
          (qpop : list (C * N) -> option ((C * N) * list (C * N))).
  Context (Hdrift : forall c, drift c c = false)
          (Hqpop : forall l x l', qpop l = Some (x, l') -> l ≡ₚ x :: l')
          (Hqpop_none : forall l, qpop l = None -> l = []).
  Implicit Types (s : srabe) (inv V A B : gset N) (q : list (C * N)).
  Notation luq := (reduce_luq_row enum (h_conj h) (h_sqrt h) (h_abs h) big).

  (** the trivial pass *)
  Lemma trivial_ok V A B s :
    dinv V A B s -> order s ≡ₚ elements V ->
    exists V' s', simplify_trivial enum order bad s = Ok s' /\ dinv V' A B s' /\
      io_equiv A B V (qe s) V' (qe s').
  Proof using Henum.
    intros Hd Ho. unfold simplify_trivial.
    destruct (mfor_ind (trivial_step enum bad) (fun pre (st : srabe * gset N) =>
      exists V', dinv V' A B st.1 /\ io_equiv A B V (qe s) V' (qe st.1) /\
        forall n, n ∈ V -> n ∉ pre -> n ∈ V') (order s) (s, ∅)) as ([s' inv'] & -> & V' & Hd' & Hio & _).
    - exists V. split_and!; [done|apply io_refl|auto].
    - intros pre a post [s1 inv1] Hsp (V1 & Hd1 & Hio1 & HV1). cbn [fst snd] in *.
      unfold trivial_step. cbn [fst snd].
      assert (forall n, n ∈ V -> n ∉ pre ++ [a] -> n ∈ V1) as HV1'.
      { intros n Hn Hx. apply HV1; [done|]. intros Hp. apply Hx. apply elem_of_app. auto. }
      assert (a ∈ V /\ a ∉ pre) as [Ha Hap].
      { assert (NoDup (order s)) as Hnd by (rewrite Ho; apply NoDup_elements).
        split.
        - apply elem_of_elements. rewrite <- Ho, Hsp. apply elem_of_app. right. left.
        - rewrite Hsp in Hnd. apply NoDup_app in Hnd as (_ & Hnd & _). intros Hp. apply (Hnd a Hp). left. }
      destruct (q_em s1 !! (a, a)) as [e|] eqn:He.
      2: { eexists; split; [done|]. cbn [fst]. eauto. }
      destruct (decide (e = 0)) as [|Hnz].
      { eexists; split; [done|]. cbn [fst]. eauto. }
      destruct (bad s1 a).
      { eexists; split; [done|]. cbn [fst]. eauto. }
      destruct (lu_io enum Henum V1 A B s1 inv1 a Hd1) as (s2 & inv2 & Hlu & Hd2 & Hio2 & _).
      { auto. }
      { rewrite He. eauto. }
      { unfold qe. by rewrite He. }
      exists (s2, inv2). split; [done|]. exists (V1 ∖ {[a]}). cbn [fst]. split_and!; [done| |].
      + by eapply io_trans.
      + intros n Hn Hx. apply elem_of_difference. rewrite elem_of_app, elem_of_list_singleton in Hx.
        rewrite elem_of_singleton. split; [apply HV1; tauto|tauto].
    - cbn [fst] in *. cbn [mbind res_bind fst]. eauto.
  Qed.

  (** sorted elimination: sound whenever it succeeds *)
  Lemma sorted_ok A B (q : list N) : forall V s s',
    dinv V A B s -> sorted_loop enum q s = Ok s' ->
    dinv ∅ A B s' /\ io_equiv A B V (qe s) ∅ (qe s').
  Proof using Henum.
    induction q as [|node q IH]; intros V s s' Hd; cbn [sorted_loop].
    - rewrite (di_req _ _ _ _ Hd). destruct (decide (V = ∅)) as [->|]; [|discriminate].
      intros [= <-]. split; [done|apply io_refl].
    - rewrite (di_req _ _ _ _ Hd). destruct (decide (V = ∅)) as [->|].
      { intros [= <-]. split; [done|apply io_refl]. }
      destruct (reduce_lu enum node (s, ∅)) as [st|] eqn:He; [|discriminate]. cbn [mbind res_bind].
      intros Hl. destruct (lu_io' enum Henum V A B s ∅ node st Hd He) as (Hn & Hd' & Hio).
      destruct (IH _ _ _ Hd' Hl) as [Hd2 Hio2]. split; [done|]. by eapply io_trans.
  Qed.

  (** the priority queue *)
  Definition live V (cn : C * N) : Prop := cn.2 ∈ V.
  Lemma skip_dead_ok V A B s fuel cn q :
    dinv V A B s -> (length q <= fuel)%nat -> (exists x, x ∈ cn :: q /\ live V x) ->
    exists cn' q', skip_dead qpop fuel s cn q = Ok (Some (cn', q')) /\ live V cn' /\
      (length q' <= length q)%nat /\ (forall x, x ∈ cn' :: q' -> x ∈ cn :: q) /\
      (forall x, x ∈ cn :: q -> live V x -> x ∈ cn' :: q') /\
      (exists dead, cn :: q ≡ₚ dead ++ cn' :: q').
  Proof using Hqpop Hqpop_none.
    intros Hd. revert cn q. induction fuel as [|fuel IH]; intros cn q Hf Hx.
    - cbn [skip_dead]. rewrite (di_seq _ _ _ _ Hd).
      destruct (decide (cn.2 ∈ V)) as [Hl|Hl].
      + exists cn, q. split_and!; auto. by exists [].
      + destruct q; [|simpl in Hf; lia]. destruct Hx as (x & Hx & Hlv). exfalso.
        apply elem_of_list_singleton in Hx. by subst.
    - cbn [skip_dead]. rewrite (di_seq _ _ _ _ Hd).
      destruct (decide (cn.2 ∈ V)) as [Hl|Hl].
      + exists cn, q. split_and!; auto. by exists [].
      + destruct (qpop q) as [[cn1 q1]|] eqn:Hq.
        * apply Hqpop in Hq. pose proof (Permutation_length Hq) as Hlen. simpl in Hlen.
          destruct (IH cn1 q1) as (cn' & q' & He & Hlv & Hl1 & Hs1 & Hs2 & dead & Hp).
          { lia. }
          { destruct Hx as (x & Hx & Hlv). exists x. split; [|done].
            apply elem_of_cons in Hx as [->|Hx]; [done|]. by rewrite Hq in Hx. }
          exists cn', q'. split_and!; try done.
          -- lia.
          -- intros x Hx'. right. rewrite Hq. auto.
          -- intros x Hx' Hlx. apply Hs2; [|done]. apply elem_of_cons in Hx' as [->|Hx']; [done|].
             by rewrite Hq in Hx'.
          -- exists (cn :: dead). rewrite Hq, Hp. done.
        * apply Hqpop_none in Hq. subst. destruct Hx as (x & Hx & Hlv). exfalso.
          apply elem_of_list_singleton in Hx. by subst.
  Qed.

  Definition stale (round : nat) s (cn : C * N) : Prop := drift cn.1 (cost round s cn.2) = true.
  #[local] Instance stale_dec round s cn : Decision (stale round s cn).
  Proof. unfold stale. apply _. Defined.
  Definition nstale (round : nat) s q : nat := length (filter (stale round s) q).
  Lemma nstale_perm round s q q' : q ≡ₚ q' -> nstale round s q = nstale round s q'.
  Proof using Type. intros Hp. unfold nstale. by rewrite Hp. Qed.
  Lemma nstale_cons round s cn q : nstale round s (cn :: q) =
    ((if drift cn.1 (cost round s cn.2) then 1 else 0) + nstale round s q)%nat.
  Proof using Type.
    unfold nstale. rewrite filter_cons. unfold stale at 1.
    destruct (decide _) as [Hs|Hs]; [by rewrite Hs|]. by apply not_true_is_false in Hs as ->.
  Qed.
  Lemma nstale_app round s q q' : nstale round s (q ++ q') = (nstale round s q + nstale round s q')%nat.
  Proof using Type. unfold nstale. by rewrite filter_app, app_length. Qed.
  Lemma nstale_le round s q : (nstale round s q <= length q)%nat.
  Proof using Type. apply filter_length. Qed.

  Lemma drift_loop_ok V A B s round fuel : forall cn q,
    dinv V A B s -> live V cn -> (nstale round s (cn :: q) <= fuel)%nat ->
    (forall v, v ∈ V -> exists x, x ∈ cn :: q /\ x.2 = v) ->
    exists node q', drift_loop cost drift qpop fuel round s cn q = Ok (Some (node, q')) /\
      node ∈ V /\ (length q' <= length q)%nat /\
      (forall v, v ∈ V -> v = node \/ exists x, x ∈ q' /\ x.2 = v).
  Proof using Hqpop Hqpop_none Hdrift.
    induction fuel as [|fuel IH]; intros cn q Hd Hl Hst Hcov.
    - cbn [drift_loop]. rewrite nstale_cons in Hst.
      destruct (drift cn.1 (cost round s cn.2)) eqn:Hdr; [lia|].
      exists cn.2, q. split_and!; try done. intros v Hv. destruct (Hcov v Hv) as (x & Hx & <-).
      apply elem_of_cons in Hx as [->|Hx]; eauto.
    - cbn [drift_loop]. rewrite nstale_cons in Hst.
      destruct (drift cn.1 (cost round s cn.2)) eqn:Hdr.
      2: { exists cn.2, q. split_and!; try done. intros v Hv. destruct (Hcov v Hv) as (x & Hx & <-).
           apply elem_of_cons in Hx as [->|Hx]; eauto. }
      destruct (qpop ((cost round s cn.2, cn.2) :: q)) as [[cn1 q1]|] eqn:Hq.
      2: { by apply Hqpop_none in Hq. }
      apply Hqpop in Hq. pose proof (Permutation_length Hq) as Hlen. simpl in Hlen.
      destruct (skip_dead_ok V A B s (length q1) cn1 q1 Hd) as (cn2 & q2 & -> & Hl2 & Hle & Hs1 & Hs2 & dead & Hp).
      { done. }
      { exists (cost round s cn.2, cn.2). rewrite <- Hq. split; [left|done]. }
      cbn [mbind res_bind].
      destruct (IH cn2 q2 Hd Hl2) as (node & q' & He & Hn & Hle' & Hcov').
      { assert (nstale round s (cn2 :: q2) <= nstale round s (cn1 :: q1))%nat as Hx.
        { rewrite (nstale_perm _ _ _ _ Hp), nstale_app. lia. }
        rewrite <- (nstale_perm _ _ _ _ Hq), (nstale_cons _ _ (cost round s cn.2, cn.2)) in Hx.
        cbn [fst snd] in Hx. rewrite Hdrift in Hx. lia. }
      { intros v Hv. destruct (Hcov v Hv) as (x & Hx & <-).
        assert (exists y, y ∈ (cost round s cn.2, cn.2) :: q /\ y.2 = x.2) as (y & Hy & Hyx).
        { apply elem_of_cons in Hx as [->|Hx].
          - exists (cost round s cn.2, cn.2). split; [left|done].
          - exists x. split; [by right|done]. }
        exists y. split; [|done]. apply Hs2; [by rewrite <- Hq|]. unfold live. by rewrite Hyx. }
      exists node, q'. split_and!; try done. lia.
  Qed.

  Notation bloop := (bad_loop enum (h_conj h) (h_sqrt h) (h_abs h) big cost drift qpop).
  Lemma bad_loop_ok A B n fuel : forall V s inv q,
    dinv V A B s -> nonsing V A (qe s) ->
    (size V <= n)%nat ->
    (length q + size (inv ∩ V) + size V * n < fuel)%nat ->
    (forall v, v ∈ V -> exists x, x ∈ q /\ x.2 = v) ->
    exists s', bloop fuel s inv q = Ok s' /\ dinv ∅ A B s' /\ io_equiv A B V (qe s) ∅ (qe s').
  Proof using Henum Hbig Hqpop Hqpop_none Hdrift order bad.
    induction fuel as [|fuel IH]; intros V s inv q Hd Hns Hn Hf Hcov; [lia|].
    cbn [bad_loop]. rewrite (di_req _ _ _ _ Hd), (di_seq _ _ _ _ Hd).
    destruct (decide (V = ∅)) as [->|HV].
    { exists s. split_and!; [done|done|apply io_refl]. }
    set (ps := (fun n => (cost fuel s n, n)) <$> filter (.∈ V) (enum inv)).
    assert (length ps = size (inv ∩ V)) as Hps.
    { unfold ps. rewrite fmap_length. unfold size, set_size. simpl.
      apply Permutation_length. apply NoDup_Permutation.
      - apply NoDup_filter. by apply NoDup_enum.
      - apply NoDup_elements.
      - intros x. rewrite elem_of_list_filter, (elem_of_enum enum Henum), elem_of_elements, elem_of_intersection. tauto. }
    destruct (qpop (ps ++ q)) as [[cn q1]|] eqn:Hq.
    2: { apply Hqpop_none in Hq. exfalso. apply set_choose_L in HV as [v Hv].
         destruct (Hcov v Hv) as (x & Hx & _). apply app_eq_nil in Hq as [_ ->]. by apply elem_of_nil in Hx. }
    apply Hqpop in Hq. pose proof (Permutation_length Hq) as Hlen. rewrite app_length in Hlen. simpl in Hlen.
    assert (forall v, v ∈ V -> exists x, x ∈ cn :: q1 /\ x.2 = v) as Hcov1.
    { intros v Hv. destruct (Hcov v Hv) as (x & Hx & He). exists x. split; [|done].
      rewrite <- Hq. apply elem_of_app. by right. }
    destruct (decide (cn.2 ∈ V)) as [Hl|Hl].
    - destruct (drift_loop_ok V A B s fuel (S (length q1)) cn q1 Hd Hl) as (node & q2 & -> & Hnode & Hle & Hcov2).
      { etrans; [apply nstale_le|]. done. }
      { done. }
      cbn [mbind res_bind].
      destruct (luq_ok enum Henum h big Hbig V A B s ∅ node Hd Hns Hnode) as (s2 & inv2 & -> & Hd2 & Hio2 & Hi2).
      cbn [mbind res_bind].
      assert (size (V ∖ {[node]}) = size V - 1)%nat as Hsz.
      { rewrite size_difference by (by apply singleton_subseteq_l). by rewrite size_singleton. }
      assert (0 < size V)%nat as Hpos.
      { destruct (size V) eqn:Hs0; [|lia]. apply size_empty_inv in Hs0. exfalso. apply (not_elem_of_empty (C := gset N) node).
        by rewrite <- Hs0. }
      destruct (IH (V ∖ {[node]}) s2 inv2 q2) as (s3 & He & Hd3 & Hio3).
      { done. }
      { by apply Hio2. }
      { lia. }
      { rewrite Hsz. assert (size (inv2 ∩ (V ∖ {[node]})) <= size V - 1)%nat as Hx.
        { rewrite <- Hsz. apply subseteq_size, intersection_subseteq_r. }
        rewrite <- Hps in Hf. rewrite Nat.mul_sub_distr_r. 
        assert (1 * n <= size V * n)%nat by (apply Nat.mul_le_mono_r; lia). lia. }
      { intros v Hv. apply elem_of_difference in Hv as [Hv Hvn]. rewrite elem_of_singleton in Hvn.
        destruct (Hcov2 v Hv) as [->|?]; [done|done]. }
      exists s3. split_and!; try done. by eapply io_trans.
    - destruct (IH V s ∅ q1) as (s3 & He & Hd3 & Hio3); try done.
      { assert (size ((∅ : gset N) ∩ V) = 0)%nat as Hx by (rewrite intersection_empty_l_L; apply size_empty). lia. }
      { intros v Hv. destruct (Hcov1 v Hv) as (x & Hx & Hxe). exists x. split; [|done].
        apply elem_of_cons in Hx as [->|Hx]; [|done]. by rewrite Hxe in Hl. }
      eauto.
  Qed.

  Lemma badguys_ok V A B s :
    dinv V A B s -> nonsing V A (qe s) ->
    exists s', simplify_badguys enum (h_conj h) (h_sqrt h) (h_abs h) big cost drift qpop s = Ok s' /\
      dinv ∅ A B s' /\ io_equiv A B V (qe s) ∅ (qe s').
  Proof using Henum Hbig Hqpop Hqpop_none Hdrift order bad.
    intros Hd Hns. unfold simplify_badguys.
    assert (length (bad_queue enum cost s) = size V) as Hlq.
    { unfold bad_queue. rewrite fmap_length, (di_seq _ _ _ _ Hd), Henum. done. }
    apply (bad_loop_ok A B (size V)); try done.
    - rewrite Hlq, intersection_empty_l_L, size_empty. unfold bad_fuel. rewrite (di_seq _ _ _ _ Hd). lia.
    - intros v Hv. exists (cost 0 s v, v). split; [|done]. unfold bad_queue. apply elem_of_list_fmap.
      exists v. split; [done|]. rewrite (di_seq _ _ _ _ Hd). by apply (elem_of_enum enum Henum).
  Qed.

  Lemma dag_balance_ok V A B s :
    dinv V A B s -> check_balance enum (Graph (q_seq s) (q_req s) (q_em s)) = Ok (Graph (q_seq s) (q_req s) (q_em s)).
  Proof using Henum.
    intros Hd. pose proof Hd as [HVA HVB HAB [wseq wreq wra wsb] Ds Dr]. unfold check_balance. cbn [g_seq g_req g_em].
    rewrite (mfor_const _ (enum (dom (q_seq s))) (q_em s)).
    2: { intros node _. apply mfor_const. intros snode Hs. apply (elem_of_enum enum Henum) in Hs.
         apply wseq in Hs as [Hm Hs]. rewrite decide_True by (by apply wreq).
         rewrite (qe_some _ _ _ Hs). by destruct (decide _). }
    cbn [mbind res_bind]. rewrite (mfor_const _ (enum (dom (q_req s))) tt).
    2: { intros node _. apply mfor_const. intros rnode Hr. apply (elem_of_enum enum Henum) in Hr.
         apply wreq in Hr. rewrite decide_True by (by apply wseq). done. }
    done.
  Qed.

  Notation simplify := (dag_simplify enum (h_conj h) (h_sqrt h) (h_abs h) big order bad cost drift qpop).
  Lemma dag_simplify_ok V A B s :
    (forall s, order s ≡ₚ elements (dom (q_seq s))) ->
    dinv V A B s -> nonsing V A (qe s) ->
    exists s', simplify false s = Ok s' /\ dinv ∅ A B s' /\ io_equiv A B V (qe s) ∅ (qe s').
  Proof using Henum Hbig Hqpop Hqpop_none Hdrift order bad.
    intros Ho Hd Hns. unfold dag_simplify. rewrite (dag_balance_ok V A B) by done. cbn [mbind res_bind].
    assert (with_em s (g_em (Graph (q_seq s) (q_req s) (q_em s))) = s) as -> by (by destruct s).
    destruct (trivial_ok V A B s Hd) as (V1 & s1 & -> & Hd1 & Hio1); [by rewrite Ho, (di_seq _ _ _ _ Hd)|].
    cbn [mbind res_bind].
    destruct (trivial_ok V1 A B s1 Hd1) as (V2 & s2 & -> & Hd2 & Hio2); [by rewrite Ho, (di_seq _ _ _ _ Hd1)|].
    cbn [mbind res_bind].
    destruct (trivial_ok V2 A B s2 Hd2) as (V3 & s3 & -> & Hd3 & Hio3); [by rewrite Ho, (di_seq _ _ _ _ Hd2)|].
    cbn [mbind res_bind].
    assert (io_equiv A B V (qe s) V3 (qe s3)) as Hio.
    { eapply io_trans; [exact Hio1|]. by eapply io_trans. }
    destruct (badguys_ok V3 A B s3 Hd3) as (s4 & He & Hd4 & Hio4); [by apply Hio|].
    exists s4. split_and!; try done. by eapply io_trans.
  Qed.
  Lemma dag_sorted_ok V A B s s' :
    dinv V A B s -> simplify true s = Ok s' -> dinv ∅ A B s' /\ io_equiv A B V (qe s) ∅ (qe s').
  Proof using Henum.
    intros Hd. unfold dag_simplify. rewrite (dag_balance_ok V A B) by done. cbn [mbind res_bind].
    assert (with_em s (g_em (Graph (q_seq s) (q_req s) (q_em s))) = s) as -> by (by destruct s).
    by apply sorted_ok.
  Qed.
End loops.
