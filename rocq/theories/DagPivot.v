(** Lemmas about DagModel: transposition and the pivot operations. *)
From Verif Require Import Fld Py LinSpec LinAlg LinReduce LinIo GraphModel GraphProofs DagModel DagSpec DagElim.
Local Open Scope fld_scope.

Section transpose.
  Context {K : fld} {N : Type} `{Countable N}.
  Notation srabe := (srabe K N).
  Lemma transpose_em (s : srabe) m n : q_em (transpose s) !! (m, n) = q_em s !! (n, m).
  Proof.
    assert (Inj (=) (=) (fun p : N * N => (p.2, p.1))) as Hinj.
    { intros [a b] [c d] [= -> ->]. done. }
    exact (lookup_kmap (fun p : N * N => (p.2, p.1)) (q_em s) (n, m)).
  Qed.
  Lemma transpose_qe (s : srabe) m n : qe (transpose s) m n = qe s n m.
  Proof. unfold qe. by rewrite transpose_em. Qed.
  Lemma transpose_dwf V A B (s : srabe) : dwf V A B s -> dwf V B A (transpose s).
  Proof.
    intros [a b c d]. split; intros m n; rewrite transpose_em.
    - change (qseq (transpose s) m) with (qreq s m). rewrite b. tauto.
    - change (qreq (transpose s) n) with (qseq s n). rewrite a. tauto.
    - change (qra (transpose s) n) with (qsb s n). rewrite d. tauto.
    - change (qsb (transpose s) m) with (qra s m). rewrite c. tauto.
  Qed.
  Lemma transpose_dinv V A B (s : srabe) : dinv V A B s -> dinv V B A (transpose s).
  Proof. intros [HA HB HAB Hw D1 D2]. split; try done. by apply transpose_dwf. Qed.
End transpose.

Section piv.
  Context {K : fld} {N : Type} `{Countable N}.
  Notation srabe := (srabe K N).
  Notation pst := (@piv_state K N _ _).
  Context (enum : gset N -> list N) (Henum : forall X, enum X ≡ₚ elements X).
  Implicit Types (s : srabe) (inv X : gset N) (em : gmap (N * N) K).

  Lemma check_node_sym s n :
    (forall x, x ∈ qseq s n -> n ∈ qreq s x) -> (forall x, x ∈ qreq s n -> n ∈ qseq s x) ->
    check_node enum s n = Ok tt.
  Proof using Henum.
    intros H1 H2. unfold check_node. rewrite (mfor_const _ (enum (ds_get (q_seq s) n))).
    - cbn [mbind res_bind]. apply mfor_const. intros a Ha. apply (elem_of_enum enum Henum) in Ha.
      rewrite decide_True; [done|]. by apply H2.
    - intros a Ha. apply (elem_of_enum enum Henum) in Ha.
      rewrite decide_True; [done|]. by apply H1.
  Qed.
  Lemma check_node_ok V A B s n : dwf V A B s -> check_node enum s n = Ok tt.
  Proof using Henum.
    intros [a b _ _]. apply check_node_sym; intros x; rewrite a, b; tauto.
  Qed.

  Lemma piv_beta_loop n1 n2 s em2 inv X :
    (forall x, x ∈ X -> is_Some (q_em s !! (n1, x))) ->
    exists em' em2', mfor (piv_beta n1 n2) (enum X) (s, em2, inv) = Ok (with_em s em', em2', inv) /\
      (forall m n, em' !! (m, n) = if decide (m = n1 /\ n ∈ X) then None else q_em s !! (m, n)) /\
      (forall m n, em2' !! (m, n) = if decide (m = n2 /\ n ∈ X) then q_em s !! (n1, n) else em2 !! (m, n)).
  Proof using Henum.
    intros HX.
    destruct (mfor_ind (piv_beta n1 n2) (fun pre (p : pst) => exists em' em2', p = (with_em s em', em2', inv) /\
      (forall m n, em' !! (m, n) = if decide (m = n1 /\ n ∈ pre) then None else q_em s !! (m, n)) /\
      (forall m n, em2' !! (m, n) = if decide (m = n2 /\ n ∈ pre) then q_em s !! (n1, n) else em2 !! (m, n)))
      (enum X) (s, em2, inv)) as (p & Hm & em' & em2' & -> & H1 & H2).
    - exists (q_em s), em2. split_and!; [by destruct s| |].
      + intros m n. rewrite decide_False; [done|]. intros [_ Hn]. by apply elem_of_nil in Hn.
      + intros m n. rewrite decide_False; [done|]. intros [_ Hn]. by apply elem_of_nil in Hn.
    - intros pre t post p He (em' & em2' & -> & H1 & H2).
      destruct (enum_split enum Henum _ _ _ _ He) as (Ht & Htp & _).
      destruct (HX t Ht) as [e Hse]. unfold piv_beta, d_get. cbn [with_em q_em].
      rewrite H1, decide_False, Hse by tauto. cbn [mbind res_bind].
      eexists; split; [done|]. eexists _, _. split; [done|]. split.
      + intros m n. destruct (decide (m = n1 /\ n = t)) as [[-> ->]|Hne].
        * rewrite lookup_delete, decide_True; [done|]. split; [done|app_solver].
        * rewrite lookup_delete_ne by (intros [= -> ->]; tauto). rewrite H1.
          apply decide_ext. rewrite elem_of_app, elem_of_list_singleton. tauto.
      + intros m n. destruct (decide (m = n2 /\ n = t)) as [[-> ->]|Hne].
        * rewrite lookup_insert, decide_True; [done|]. split; [done|app_solver].
        * rewrite lookup_insert_ne by (intros [= -> ->]; tauto). rewrite H2.
          apply decide_ext. rewrite elem_of_app, elem_of_list_singleton. tauto.
    - exists em', em2'. split_and!; [done| |].
      + intros m n. rewrite H1. apply decide_ext. by rewrite (elem_of_enum enum Henum).
      + intros m n. rewrite H2. apply decide_ext. by rewrite (elem_of_enum enum Henum).
  Qed.

  Lemma piv_seq1_loop n1 n2 s em2 inv :
    n1 <> n2 ->
    (forall x, x ∈ qseq s n1 -> is_Some (q_em s !! (n1, x)) /\ n1 ∈ qreq s x /\ x ∈ dom (q_req s)) ->
    exists req' em' em2' inv',
      mfor (piv_seq1 n1 n2) (enum (qseq s n1)) (s, em2, inv) =
        Ok (SR (q_seq s) req' (q_ra s) (q_sb s) em', em2', inv') /\
      (forall m n, m ∈ ds_get req' n <->
         if decide (n ∈ qseq s n1) then m = n2 \/ (m ∈ qreq s n /\ m <> n1) else m ∈ qreq s n) /\
      dom req' = dom (q_req s) /\
      (forall m n, em' !! (m, n) = if decide (m = n1 /\ n ∈ qseq s n1) then None else q_em s !! (m, n)) /\
      (forall m n, em2' !! (m, n) =
         if decide (m = n2 /\ n ∈ qseq s n1) then q_em s !! (n1, n) else em2 !! (m, n)) /\
      inv' = inv ∪ qseq s n1.
  Proof using Henum.
    intros Hne HX. set (X := qseq s n1) in *.
    destruct (mfor_ind (piv_seq1 n1 n2) (fun pre (p : pst) => exists req' em' em2' inv',
      p = (SR (q_seq s) req' (q_ra s) (q_sb s) em', em2', inv') /\
      (forall m n, m ∈ ds_get req' n <->
         if decide (n ∈ pre) then m = n2 \/ (m ∈ qreq s n /\ m <> n1) else m ∈ qreq s n) /\
      dom req' = dom (q_req s) /\
      (forall m n, em' !! (m, n) = if decide (m = n1 /\ n ∈ pre) then None else q_em s !! (m, n)) /\
      (forall m n, em2' !! (m, n) =
         if decide (m = n2 /\ n ∈ pre) then q_em s !! (n1, n) else em2 !! (m, n)) /\
      inv' = inv ∪ list_to_set pre)
      (enum X) (s, em2, inv)) as (p & Hm & req' & em' & em2' & inv' & -> & H1 & H2 & H3 & H4 & H5).
    - exists (q_req s), (q_em s), em2, inv. split_and!; [by destruct s| |done| | |].
      + intros m n. rewrite decide_False; [done|]. apply not_elem_of_nil.
      + intros m n. rewrite decide_False; [done|]. intros [_ Hn]. by apply elem_of_nil in Hn.
      + intros m n. rewrite decide_False; [done|]. intros [_ Hn]. by apply elem_of_nil in Hn.
      + apply set_eq. intros x. rewrite elem_of_union, elem_of_list_to_set, elem_of_nil. tauto.
    - intros pre t post p He (req' & em' & em2' & inv' & -> & H1 & H2 & H3 & H4 & H5).
      destruct (enum_split enum Henum _ _ _ _ He) as (Ht & Htp & _).
      destruct (HX t Ht) as ([e Hse] & Hr & Hd). unfold piv_seq1, d_get. cbn [q_em q_req q_seq q_ra q_sb].
      rewrite H3, decide_False, Hse by tauto. cbn [mbind res_bind].
      rewrite ds_remove_ok by (apply H1; by rewrite decide_False). cbn [mbind res_bind].
      eexists; split; [done|]. eexists _, _, _, _. split; [done|]. split_and!.
      + intros m n. rewrite elem_add, elem_remove, H1. destruct (decide (n = t)) as [->|Hnt].
        * rewrite decide_False by done. rewrite decide_True by app_solver. tauto.
        * destruct (decide (n ∈ pre)); destruct (decide (n ∈ pre ++ [t])) as [Hp|Hp];
            rewrite elem_of_app, elem_of_list_singleton in Hp; tauto.
      + unfold ds_add. rewrite !dom_insert_L, H2. clear -Hd. set_solver.
      + intros m n. destruct (decide (m = n1 /\ n = t)) as [[-> ->]|Hne'].
        * rewrite lookup_delete, decide_True; [done|]. split; [done|app_solver].
        * rewrite lookup_delete_ne by (intros [= -> ->]; tauto). rewrite H3.
          apply decide_ext. rewrite elem_of_app, elem_of_list_singleton. tauto.
      + intros m n. destruct (decide (m = n2 /\ n = t)) as [[-> ->]|Hne'].
        * rewrite lookup_insert, decide_True; [done|]. split; [done|app_solver].
        * rewrite lookup_insert_ne by (intros [= -> ->]; tauto). rewrite H4.
          apply decide_ext. rewrite elem_of_app, elem_of_list_singleton. tauto.
      + rewrite H5. apply set_eq. intros x.
        rewrite !elem_of_union, !elem_of_list_to_set, elem_of_app, elem_of_list_singleton, elem_of_singleton. tauto.
    - exists req', em', em2', inv'. split_and!; [done| |done| | |].
      + intros m n. rewrite H1. pose proof (elem_of_enum enum Henum X n).
        destruct (decide (n ∈ enum X)); destruct (decide (n ∈ X)); tauto.
      + intros m n. rewrite H3. apply decide_ext. by rewrite (elem_of_enum enum Henum).
      + intros m n. rewrite H4. apply decide_ext. by rewrite (elem_of_enum enum Henum).
      + rewrite H5. apply set_eq. intros x. by rewrite !elem_of_union, elem_of_list_to_set, (elem_of_enum enum Henum).
  Qed.

  Lemma piv_seq2_loop n1 n2 s em2 inv :
    n1 <> n2 ->
    (forall x, x ∈ qseq s n2 -> is_Some (q_em s !! (n2, x)) /\ n2 ∈ qreq s x /\ x ∈ dom (q_req s)) ->
    exists req' em' em2' inv',
      mfor (piv_seq2 n1 n2) (enum (qseq s n2)) (s, em2, inv) =
        Ok (SR (q_seq s) req' (q_ra s) (q_sb s) em', em2', inv') /\
      (forall m n, m ∈ ds_get req' n <->
         if decide (n ∈ qseq s n2) then m = n1 \/ (m ∈ qreq s n /\ (m <> n2 \/ n ∈ qseq s n1)) else m ∈ qreq s n) /\
      dom req' = dom (q_req s) /\
      (forall m n, em' !! (m, n) = if decide (m = n2 /\ n ∈ qseq s n2) then None else q_em s !! (m, n)) /\
      (forall m n, em2' !! (m, n) =
         if decide (m = n1 /\ n ∈ qseq s n2) then q_em s !! (n2, n) else em2 !! (m, n)) /\
      inv' = inv ∪ qseq s n2.
  Proof using Henum.
    intros Hne HX. set (X := qseq s n2) in *.
    destruct (mfor_ind (piv_seq2 n1 n2) (fun pre (p : pst) => exists req' em' em2' inv',
      p = (SR (q_seq s) req' (q_ra s) (q_sb s) em', em2', inv') /\
      (forall m n, m ∈ ds_get req' n <->
         if decide (n ∈ pre) then m = n1 \/ (m ∈ qreq s n /\ (m <> n2 \/ n ∈ qseq s n1)) else m ∈ qreq s n) /\
      dom req' = dom (q_req s) /\
      (forall m n, em' !! (m, n) = if decide (m = n2 /\ n ∈ pre) then None else q_em s !! (m, n)) /\
      (forall m n, em2' !! (m, n) =
         if decide (m = n1 /\ n ∈ pre) then q_em s !! (n2, n) else em2 !! (m, n)) /\
      inv' = inv ∪ list_to_set pre)
      (enum X) (s, em2, inv)) as (p & Hm & req' & em' & em2' & inv' & -> & H1 & H2 & H3 & H4 & H5).
    - exists (q_req s), (q_em s), em2, inv. split_and!; [by destruct s| |done| | |].
      + intros m n. rewrite decide_False; [done|]. apply not_elem_of_nil.
      + intros m n. rewrite decide_False; [done|]. intros [_ Hn]. by apply elem_of_nil in Hn.
      + intros m n. rewrite decide_False; [done|]. intros [_ Hn]. by apply elem_of_nil in Hn.
      + apply set_eq. intros x. rewrite elem_of_union, elem_of_list_to_set, elem_of_nil. tauto.
    - intros pre t post p He (req' & em' & em2' & inv' & -> & H1 & H2 & H3 & H4 & H5).
      destruct (enum_split enum Henum _ _ _ _ He) as (Ht & Htp & _).
      destruct (HX t Ht) as ([e Hse] & Hr & Hd). unfold piv_seq2, d_get. cbn [q_em q_req q_seq q_ra q_sb].
      rewrite H3, (decide_False (P := n2 = n2 /\ t ∈ pre)), Hse by tauto. cbn [mbind res_bind].
      fold (qseq s n1).
      assert (exists r2, (if decide (t ∈ qseq s n1) then Ok req' else ds_remove req' t n2) = Ok r2 /\
          (forall m n, m ∈ ds_get r2 n <-> m ∈ ds_get req' n /\ ~ (n = t /\ m = n2 /\ t ∉ qseq s n1)) /\
          dom r2 = dom (q_req s)) as (r2 & -> & Hr2 & Hd2).
      { destruct (decide (t ∈ qseq s n1)).
        - exists req'. split_and!; [done| |done]. intros. tauto.
        - rewrite ds_remove_ok by (apply H1; by rewrite decide_False). eexists. split_and!; [done| |].
          + intros m n'. rewrite elem_remove. tauto.
          + rewrite dom_insert_L, H2. clear -Hd. set_solver. }
      cbn [mbind res_bind].
      eexists; split; [done|]. eexists _, _, _, _. split; [done|]. split_and!.
      + intros m n. rewrite elem_add, Hr2, H1. destruct (decide (n = t)) as [->|Hnt].
        * rewrite decide_False by done. rewrite decide_True by app_solver.
          destruct (decide (t ∈ qseq s n1)); destruct (decide (m = n2)); destruct (decide (m = n1)); tauto.
        * destruct (decide (n ∈ pre)); destruct (decide (n ∈ pre ++ [t])) as [Hp|Hp];
            rewrite elem_of_app, elem_of_list_singleton in Hp; tauto.
      + unfold ds_add. rewrite !dom_insert_L, Hd2. clear -Hd. set_solver.
      + intros m n. destruct (decide (m = n2 /\ n = t)) as [[-> ->]|Hne'].
        * rewrite lookup_delete, decide_True; [done|]. split; [done|app_solver].
        * rewrite lookup_delete_ne by (intros [= -> ->]; tauto). rewrite H3.
          apply decide_ext. rewrite elem_of_app, elem_of_list_singleton. tauto.
      + intros m n. destruct (decide (m = n1 /\ n = t)) as [[-> ->]|Hne'].
        * rewrite lookup_insert, decide_True; [done|]. split; [done|app_solver].
        * rewrite lookup_insert_ne by (intros [= -> ->]; tauto). rewrite H4.
          apply decide_ext. rewrite elem_of_app, elem_of_list_singleton. tauto.
      + rewrite H5. apply set_eq. intros x.
        rewrite !elem_of_union, !elem_of_list_to_set, elem_of_app, elem_of_list_singleton, elem_of_singleton. tauto.
    - exists req', em', em2', inv'. split_and!; [done| |done| | |].
      + intros m n. rewrite H1. pose proof (elem_of_enum enum Henum X n).
        destruct (decide (n ∈ enum X)); destruct (decide (n ∈ X)); tauto.
      + intros m n. rewrite H3. apply decide_ext. by rewrite (elem_of_enum enum Henum).
      + intros m n. rewrite H4. apply decide_ext. by rewrite (elem_of_enum enum Henum).
      + rewrite H5. apply set_eq. intros x. by rewrite !elem_of_union, elem_of_list_to_set, (elem_of_enum enum Henum).
  Qed.

  Lemma pivot_col_ok V A B s inv n1 n2 :
    dinv V A B s -> n1 ∈ V -> n2 ∈ V -> n1 <> n2 ->
    exists s' inv', pivot_col enum n1 n2 (s, inv) = Ok (s', inv') /\
      dinv V A B s' /\
      (forall m n, m ∈ V ∪ A -> n ∈ V ∪ B -> q_em s' !! (m, n) = q_em s !! (swap n1 n2 m, n)) /\
      inv' ⊆ inv ∪ V.
  Proof using Henum.
    intros [HVA HVB HAB Hwf Hds Hdr] Hn1 Hn2 Hne.
    unfold pivot_col. rewrite !(check_node_ok V A B) by done. cbn [mbind res_bind].
    pose proof Hwf as [wseq wreq wra wsb].
    assert (forall n x, x ∈ qseq s n -> is_Some (q_em s !! (n, x)) /\ n ∈ qreq s x /\ x ∈ dom (q_req s)) as Hsq.
    { intros n x Hx. apply wseq in Hx as [[? ?] ?]. split_and!; [done| |by rewrite Hdr]. by apply wreq. }
    assert (forall n x, x ∈ qsb s n -> is_Some (q_em s !! (n, x)) /\ x ∉ qseq s n) as Hsb.
    { intros n x Hx. apply wsb in Hx as [[_ HxB] ?]. split; [done|]. intros Hs. apply wseq in Hs as [[_ ?] _].
      clear -HVB HxB H1. set_solver. }
    fold (qseq s n1) (qseq s n2) (qsb s n1) (qsb s n2).
    destruct (piv_seq1_loop n1 n2 s ∅ inv) as (req1 & em1 & em21 & inv1 & -> & R1 & D1 & E1 & F1 & I1);
      [done|apply Hsq|]. cbn [mbind res_bind].
    set (s1 := SR _ _ _ _ _).
    destruct (piv_beta_loop n1 n2 s1 em21 inv1 (qsb s n1)) as (em2 & em22 & -> & E2 & F2).
    { intros x Hx. destruct (Hsb _ _ Hx). simpl. rewrite E1, decide_False by tauto. done. }
    cbn [mbind res_bind]. set (s2 := with_em s1 em2).
    change (qseq s n2) with (qseq s2 n2).
    destruct (piv_seq2_loop n1 n2 s2 em22 inv1) as (req3 & em3 & em23 & inv3 & -> & R3 & D3 & E3 & F3 & I3).
    { done. }
    { intros x Hx. change (qseq s2 n2) with (qseq s n2) in Hx. destruct (Hsq n2 x Hx) as (? & ? & ?).
      split_and!.
      - simpl. rewrite E2, decide_False by (intros [? ?]; congruence). simpl.
        rewrite E1, decide_False by (intros [? ?]; congruence). done.
      - change (qreq s2 x) with (ds_get req1 x). apply R1. destruct (decide _); auto.
      - simpl. by rewrite D1. }
    cbn [mbind res_bind]. set (s3 := SR _ _ _ _ _).
    destruct (piv_beta_loop n2 n1 s3 em23 inv3 (qsb s n2)) as (em4 & em24 & -> & E4 & F4).
    { intros x Hx. destruct (Hsb _ _ Hx). simpl. change (qseq s2 n2) with (qseq s n2) in E3.
      rewrite E3, decide_False by tauto. simpl.
      rewrite E2, decide_False by (intros [? ?]; congruence). simpl.
      rewrite E1, decide_False by (intros [? ?]; congruence). done. }
    cbn [mbind res_bind].
    change (qseq s2) with (qseq s) in *. simpl in E2, E3, E4, F2, F3, F4.
    change (qreq s2) with (ds_get req1) in *.
    set (s4 := SR _ _ _ _ _).
    (* the edge map *)
    set (emf := em24 ∪ em4).
    assert (forall n, n ∈ V ∪ B -> ~ is_Some (q_em s !! (n1, n)) \/ n ∈ qseq s n1 \/ n ∈ qsb s n1) as Hcase.
    { intros n Hn. rewrite wseq, wsb. apply elem_of_union in Hn. destruct (q_em s !! (n1, n)).
      - right. destruct Hn; [left|right]; split; eauto.
      - left. by intros [? ?]. }
    assert (forall n, n ∈ V ∪ B -> ~ is_Some (q_em s !! (n2, n)) \/ n ∈ qseq s n2 \/ n ∈ qsb s n2) as Hcase2.
    { intros n Hn. rewrite wseq, wsb. apply elem_of_union in Hn. destruct (q_em s !! (n2, n)).
      - right. destruct Hn; [left|right]; split; eauto.
      - left. by intros [? ?]. }
    assert (forall m n, em4 !! (m, n) = if decide (m = n1 /\ (n ∈ qseq s n1 \/ n ∈ qsb s n1) \/ m = n2 /\ (n ∈ qseq s n2 \/ n ∈ qsb s n2))
              then None else q_em s !! (m, n)) as G1.
    { intros m n. rewrite E4, E3, E2, E1. repeat destruct (decide _); try done; tauto. }
    assert (forall m n, em24 !! (m, n) = if decide (m = n1 /\ (n ∈ qseq s n2 \/ n ∈ qsb s n2)) then q_em s !! (n2, n)
              else if decide (m = n2 /\ (n ∈ qseq s n1 \/ n ∈ qsb s n1)) then q_em s !! (n1, n) else None) as G2.
    { intros m n. rewrite F4, F3, F2, F1.
      assert (n ∈ qsb s n2 -> em3 !! (n2, n) = q_em s !! (n2, n)) as X1.
      { intros Hn. destruct (Hsb _ _ Hn) as [_ Hn']. rewrite E3, E2, E1.
        rewrite !decide_False; [done|intros [? _]; congruence|intros [? _]; congruence|intros [_ ?]; done]. }
      assert (n ∈ qsb s n1 -> em1 !! (n1, n) = q_em s !! (n1, n)) as X2.
      { intros Hn. destruct (Hsb _ _ Hn) as [_ Hn']. rewrite E1.
        rewrite !decide_False; [done|intros [_ ?]; done]. }
      assert (em2 !! (n2, n) = q_em s !! (n2, n)) as X3.
      { rewrite E2, E1. rewrite !decide_False; [done|intros [? _]; congruence|intros [? _]; congruence]. }
      assert ((∅ : gmap (N * N) K) !! (m, n) = None) as X4 by apply lookup_empty.
      clear -X1 X2 X3 X4 Hne.
      destruct (decide (m = n1)) as [->|Hm1].
      - rewrite (decide_False (P := n1 = n2 /\ n ∈ qsb s n1)) by (intros [? _]; done).
        rewrite !(decide_False (P := n1 = n2 /\ n ∈ qseq s n1)) by (intros [? _]; done).
        rewrite (decide_False (P := n1 = n2 /\ (n ∈ qseq s n1 \/ n ∈ qsb s n1))) by (intros [? _]; done).
        destruct (decide (n1 = n1 /\ n ∈ qsb s n2)) as [[_ Hn]|Hn].
        + rewrite decide_True by auto. auto.
        + destruct (decide (n1 = n1 /\ n ∈ qseq s n2)) as [[_ Hn']|Hn'].
          * rewrite decide_True by auto. auto.
          * rewrite decide_False by tauto. done.
      - rewrite (decide_False (P := m = n1 /\ n ∈ qsb s n2)) by (intros [? _]; done).
        rewrite !(decide_False (P := m = n1 /\ n ∈ qseq s n2)) by (intros [? _]; done).
        rewrite (decide_False (P := m = n1 /\ (n ∈ qseq s n2 \/ n ∈ qsb s n2))) by (intros [? _]; done).
        destruct (decide (m = n2 /\ n ∈ qsb s n1)) as [[-> Hn]|Hn].
        + rewrite decide_True by auto. auto.
        + destruct (decide (m = n2 /\ n ∈ qseq s n1)) as [[-> Hn']|Hn'].
          * rewrite decide_True by auto. auto.
          * rewrite decide_False by tauto. done. }
    assert (forall m n, m ∈ V ∪ A -> n ∈ V ∪ B -> emf !! (m, n) = q_em s !! (swap n1 n2 m, n)) as He.
    { intros m n Hm Hn. unfold emf. rewrite lookup_union, G1, G2.
      destruct (decide (m = n1)) as [->|Hm1].
      - rewrite swap_l. destruct (Hcase n Hn) as [C1|C1]; destruct (Hcase2 n Hn) as [C2|C2].
        +  
          rewrite (proj2 (eq_None_not_Some (q_em s !! (n1, n))) C1), (proj2 (eq_None_not_Some (q_em s !! (n2, n))) C2).
          repeat destruct (decide _); done.
        + rewrite (proj2 (eq_None_not_Some (q_em s !! (n1, n))) C1).
          rewrite decide_True by tauto. destruct (decide _); destruct (q_em s !! (n2, n)); done.
        + rewrite (proj2 (eq_None_not_Some (q_em s !! (n2, n))) C2).
          rewrite (decide_True (P := n1 = n1 /\ (n ∈ qseq s n1 \/ n ∈ qsb s n1) \/ _)) by tauto.
          repeat destruct (decide _); try done; tauto.
        + rewrite decide_True by tauto. rewrite decide_True by tauto. by destruct (q_em s !! (n2, n)).
      - destruct (decide (m = n2)) as [->|Hm2].
        + rewrite swap_r. rewrite decide_False by tauto.
          destruct (Hcase n Hn) as [C1|C1]; destruct (Hcase2 n Hn) as [C2|C2].
          * rewrite (proj2 (eq_None_not_Some (q_em s !! (n1, n))) C1), (proj2 (eq_None_not_Some (q_em s !! (n2, n))) C2).
            repeat destruct (decide _); done.
          * rewrite (proj2 (eq_None_not_Some (q_em s !! (n1, n))) C1).
            rewrite (decide_True (P := n2 = n1 /\ _ \/ _)) by tauto. repeat destruct (decide _); done.
          * rewrite decide_True by tauto.
            rewrite (proj2 (eq_None_not_Some (q_em s !! (n2, n))) C2).
            destruct (decide _); by destruct (q_em s !! (n1, n)).
          * rewrite decide_True by tauto. rewrite decide_True by tauto. by destruct (q_em s !! (n1, n)).
        + rewrite swap_ne by done. rewrite !decide_False by tauto. by destruct (q_em s !! (m, n)). }
    assert (forall m, m ∈ V -> swap n1 n2 m ∈ V) as Hsw.
    { intros m Hm. unfold swap. repeat destruct (decide _); done. }
    assert (forall m, m ∈ A -> swap n1 n2 m = m) as HswA.
    { intros m Hm. pose proof (proj1 (elem_of_disjoint V A) HVA) as Hdj; apply swap_ne; intros ->; eauto. }
    assert (forall m n, n ∈ qseq s4 m <-> n ∈ qseq s (swap n1 n2 m)) as S4.
    { intros m n. unfold qseq at 1, s4. cbn [q_seq with_em s3 s2 s1]. rewrite !ds_get_insert.
      unfold swap. repeat destruct (decide _); subst; done. }
    assert (forall m n, n ∈ qsb s4 m <-> n ∈ qsb s (swap n1 n2 m)) as B4.
    { intros m n. unfold qsb at 1, s4. cbn [q_sb with_em s3 s2 s1]. rewrite !ds_get_insert.
      unfold swap. repeat destruct (decide _); subst; done. }
    assert (forall m n, m ∈ qreq s4 n <-> swap n1 n2 m ∈ qreq s n) as R4.
    { intros m n. change (qreq s4 n) with (ds_get req3 n). rewrite R3. pose proof (R1 m n) as R1m. change (qreq s2 n) with (ds_get req1 n).
      assert (forall k, k ∈ qreq s n <-> n ∈ qseq s k) as Hbal by (intros k; rewrite wseq, wreq; done).
      pose proof (Hbal n1) as Hb1. pose proof (Hbal n2) as Hb2.
      clear -Hne R1m Hb1 Hb2.
      unfold swap. destruct (decide (n ∈ qseq s n2)); destruct (decide (n ∈ qseq s n1));
        destruct (decide (m = n1)); destruct (decide (m = n2)); subst; tauto. }
    assert (dwf V A B (with_em s4 emf)) as Hwf4.
    { split.
      - intros m n. change (qseq (with_em s4 emf) m) with (qseq s4 m). rewrite S4, wseq. cbn [with_em q_em].
        split.
        + intros [[Hm Hn] Hs]. apply Hsw in Hm. rewrite swap_swap in Hm.
          rewrite He by (apply elem_of_union; auto). done.
        + intros [[Hm Hn] Hs]. rewrite He in Hs by (apply elem_of_union; auto). auto.
      - intros m n. change (qreq (with_em s4 emf) n) with (qreq s4 n). rewrite R4, wreq. cbn [with_em q_em].
        split.
        + intros [[Hm Hn] Hs]. apply Hsw in Hm. rewrite swap_swap in Hm.
          rewrite He by (apply elem_of_union; auto). done.
        + intros [[Hm Hn] Hs]. rewrite He in Hs by (apply elem_of_union; auto). auto.
      - intros m n. change (qra (with_em s4 emf) n) with (qra s n). rewrite wra. cbn [with_em q_em].
        split.
        + intros [[Hm Hn] Hs]. rewrite He by (apply elem_of_union; auto). rewrite HswA by done. done.
        + intros [[Hm Hn] Hs]. rewrite He in Hs by (apply elem_of_union; auto). rewrite HswA in Hs by done. done.
      - intros m n. change (qsb (with_em s4 emf) m) with (qsb s4 m). rewrite B4, wsb. cbn [with_em q_em].
        split.
        + intros [[Hm Hn] Hs].
          assert (m ∈ V \/ m ∈ A) as Hm'.
          { destruct Hm as [Hm|Hm].
            - apply Hsw in Hm. rewrite swap_swap in Hm. auto.
            - pose proof (HswA _ Hm) as Hx. rewrite swap_swap in Hx. rewrite <- Hx in Hm. auto. }
          rewrite He by (apply elem_of_union; auto). done.
        + intros [[Hm Hn] Hs]. rewrite He in Hs by (apply elem_of_union; auto). split_and!; [|done|done].
          destruct Hm as [Hm|Hm]; [left; auto|right; by rewrite HswA]. }
    assert (forall n, check_node enum s4 n = Ok tt) as Hck.
    { intros n. pose proof (check_node_ok _ _ _ _ n Hwf4) as Hc. exact Hc. }
    rewrite !Hck. cbn [mbind res_bind]. eexists _, _. split; [reflexivity|]. split_and!.
    - split; [done..|exact Hwf4| |].
      + cbn [with_em s4 q_seq s3 s2 s1]. rewrite !dom_insert_L, Hds. clear -Hn1 Hn2. set_solver.
      + cbn [with_em s4 q_req s3]. rewrite D3. simpl. by rewrite D1.
    - exact He.
    - rewrite I3, I1. intros x. rewrite !elem_of_union, !wseq. tauto.
  Qed.

  Lemma pivot_row_ok V A B s inv n1 n2 :
    dinv V A B s -> n1 ∈ V -> n2 ∈ V -> n1 <> n2 ->
    exists s' inv', pivot_row enum n1 n2 (s, inv) = Ok (s', inv') /\
      dinv V A B s' /\
      (forall m n, m ∈ V ∪ A -> n ∈ V ∪ B -> q_em s' !! (m, n) = q_em s !! (m, swap n1 n2 n)) /\
      inv' ⊆ inv ∪ V.
  Proof using Henum.
    intros Hd H1 H2 Hne. unfold pivot_row.
    destruct (pivot_col_ok V B A (transpose s) inv n1 n2) as (s' & inv' & Hp & Hd' & He & Hi);
      [by apply transpose_dinv|done..|].
    cbn [fst snd]. rewrite Hp. cbn [mbind res_bind fst snd]. eexists _, _. split; [done|]. split_and!.
    - by apply transpose_dinv.
    - intros m n Hm Hn. rewrite transpose_em, He by done. by rewrite transpose_em.
    - done.
  Qed.
End piv.
