(** Lemmas about DagModel: well-formed systems and the LU elimination. *)
From Verif Require Import Fld Py LinSpec LinAlg LinReduce LinIo GraphModel GraphProofs DagModel DagSpec.
Local Open Scope fld_scope.

Ltac app_solver := rewrite elem_of_app, elem_of_list_singleton; tauto.

Section wf.
  Context {K : fld} {N : Type} `{Countable N}.
  Notation srabe := (srabe K N).
  Implicit Types s : srabe.
  Lemma qe_none s m n : ~ is_Some (q_em s !! (m, n)) -> qe s m n = 0.
  Proof. unfold qe. destruct (q_em s !! (m, n)); [|done]. intros Hn. exfalso. eauto. Qed.
  Lemma qe_some s m n : is_Some (q_em s !! (m, n)) -> q_em s !! (m, n) = Some (qe s m n).
  Proof. unfold qe. by intros [v ->]. Qed.
End wf.

Section lu.
  Context {K : fld} {N : Type} `{Countable N}.
  Add Field FF : (f_theory K).
  Notation srabe := (srabe K N).
  Context (enum : gset N -> list N) (Henum : forall X, enum X ≡ₚ elements X).
  Context (V A B : gset N) (HVA : V ## A) (HVB : V ## B) (HAB : A ## B) (v : N) (Hv : v ∈ V).

  Lemma v_not_A : v ∉ A. Proof using HVA Hv. clear -HVA Hv. set_solver. Qed.
  Lemma v_not_B : v ∉ B. Proof using HVB Hv. clear -HVB Hv. set_solver. Qed.

  (** [s'] is [s] with [F] added to the coefficients; the row and column of [v]
      are untouched *)
  Record inc (s s' : srabe) (F : N -> N -> K) : Prop := {
    in_wf : dwf V A B s';
    in_e : forall m n, m ∈ V ∪ A -> n ∈ V ∪ B -> qe s' m n = qe s m n + F m n;
    in_row : forall m n, m = v \/ n = v -> q_em s' !! (m, n) = q_em s !! (m, n);
    in_dom : dom (q_seq s') = dom (q_seq s);
    in_domr : dom (q_req s') = dom (q_req s);
  }.
  Lemma inc_refl s : dwf V A B s -> inc s s (fun _ _ => 0).
  Proof using Type. intros. split; [done| |done..]. intros; ring. Qed.
  Lemma inc_trans s1 s2 s3 F G H' :
    inc s1 s2 F -> inc s2 s3 G ->
    (forall m n, m ∈ V ∪ A -> n ∈ V ∪ B -> H' m n = F m n + G m n) -> inc s1 s3 H'.
  Proof using Type.
    intros [W1 E1 R1 D1 D1'] [W2 E2 R2 D2 D2'] HH. split; [done| | |congruence|congruence].
    - intros m n Hm Hn. rewrite E2, E1, HH by done. ring.
    - intros m n Hmn. rewrite R2, R1 by done. done.
  Qed.
  Lemma inc_rows s s' F : dwf V A B s -> inc s s' F ->
    qseq s' v = qseq s v /\ qreq s' v = qreq s v /\ qra s' v = qra s v /\ qsb s' v = qsb s v.
  Proof using Type.
    intros [a b c d] [[a' b' c' d'] _ R]. split_and!; apply set_eq; intros x.
    - rewrite a, a', R by auto. done.
    - rewrite b, b', R by auto. done.
    - rewrite c, c', R by auto. done.
    - rewrite d, d', R by auto. done.
  Qed.

  Lemma lookup_lu_acc em (r t : N) (p : K) m n :
    lu_acc em r t p !! (m, n) =
      if decide (m = r /\ n = t) then Some (default 0 (em !! (m, n)) + p) else em !! (m, n).
  Proof using Type.
    unfold lu_acc. destruct (decide _) as [[-> ->]|Hn].
    - rewrite lookup_insert. destruct (em !! (r, t)); simpl; f_equal; ring.
    - rewrite lookup_insert_ne; [done|]. intros [= -> ->]. by apply Hn.
  Qed.

  (** one accumulation *)
  Definition delta (r t : N) (p : K) (m n : N) : K := if decide (m = r /\ n = t) then p else 0.
  Lemma acc_inc s s' r t p :
    dwf V A B s -> r <> v -> t <> v ->
    q_em s' = lu_acc (q_em s) r t p ->
    (forall m n, n ∈ qseq s' m <-> n ∈ qseq s m \/ (m = r /\ n = t) /\ r ∈ V /\ t ∈ V) ->
    (forall m n, m ∈ qreq s' n <-> m ∈ qreq s n \/ (m = r /\ n = t) /\ r ∈ V /\ t ∈ V) ->
    (forall m n, m ∈ qra s' n <-> m ∈ qra s n \/ (m = r /\ n = t) /\ r ∈ A) ->
    (forall m n, n ∈ qsb s' m <-> n ∈ qsb s m \/ (m = r /\ n = t) /\ t ∈ B) ->
    r ∈ V ∪ A -> t ∈ V ∪ B ->
    dom (q_seq s') = dom (q_seq s) -> dom (q_req s') = dom (q_req s) ->
    inc s s' (delta r t p).
  Proof using Type.
    intros [a b c d] Hr Ht He Hs Hq Hra Hsb HrV HtV Hd Hd'.
    assert (forall m n, is_Some (q_em s' !! (m, n)) <-> is_Some (q_em s !! (m, n)) \/ (m = r /\ n = t)) as Hsome.
    { intros m n. rewrite He, lookup_lu_acc. destruct (decide _) as [[-> ->]|].
      - split; [auto|]. intros _. eauto.
      - split; [auto|]. intros [?|?]; [done|contradiction]. }
    apply elem_of_union in HrV, HtV.
    split; [split| | |done|done].
    - intros m n. rewrite Hs, a, Hsome. clear. split.
      + intros [[? ?]|[[-> ->] [? ?]]]; tauto.
      + intros [[? ?] [?|[-> ->]]]; tauto.
    - intros m n. rewrite Hq, b, Hsome. clear. split.
      + intros [[? ?]|[[-> ->] [? ?]]]; tauto.
      + intros [[? ?] [?|[-> ->]]]; tauto.
    - intros m n. rewrite Hra, c, Hsome. clear -HrV HtV. split.
      + intros [[? ?]|[[-> ->] ?]]; tauto.
      + intros [[? ?] [?|[-> ->]]]; tauto.
    - intros m n. rewrite Hsb, d, Hsome. clear -HrV HtV. split.
      + intros [[? ?]|[[-> ->] ?]]; tauto.
      + intros [[? ?] [?|[-> ->]]]; tauto.
    - intros m n _ _. unfold qe, delta. rewrite He, lookup_lu_acc. destruct (decide _); simpl; [done|ring].
    - intros m n Hmn. rewrite He, lookup_lu_acc, decide_False; [done|]. clear -Hmn Hr Ht. intros [-> ->]. tauto.
  Qed.

  Lemma elem_add (m : gmap N (gset N)) r t k x :
    x ∈ ds_get (ds_add m r t) k <-> x ∈ ds_get m k \/ (k = r /\ x = t).
  Proof using Type.
    rewrite ds_get_add. destruct (decide (k = r)) as [->|].
    - rewrite elem_of_union, elem_of_singleton. tauto.
    - tauto.
  Qed.
  Lemma dom_add (m : gmap N (gset N)) r t : r ∈ dom m -> dom (ds_add m r t) = dom m.
  Proof using Type. intros. unfold ds_add. rewrite dom_insert_L. clear -H0. set_solver. Qed.

  Definition keyed (s : srabe) : Prop := V ⊆ dom (q_seq s) /\ V ⊆ dom (q_req s).
  Lemma keyed_inc s s' F : keyed s -> inc s s' F -> keyed s'.
  Proof using Type. intros [? ?] [_ _ _ D D']. split; [by rewrite D|by rewrite D']. Qed.

  (** the four bodies *)
  Definition good_body (bd : N -> K -> srabe -> N -> res srabe) (R T : gset N) : Prop :=
    forall s t p r, dwf V A B s -> keyed s -> r ∈ R -> t ∈ T -> r <> v -> t <> v ->
      is_Some (q_em s !! (r, v)) ->
      exists s', bd t p s r = Ok s' /\ inc s s' (delta r t (p * qe s r v)).
  Lemma lu_vv_good : good_body (lu_vv v) V V.
  Proof using HVA HVB.
    intros s t p r Hwf Hk Hr Ht Hrv Htv Hs. unfold lu_vv, d_get. rewrite (qe_some _ _ _ Hs). simpl.
    eexists; split; [done|]. destruct Hk. apply acc_inc; try done; unfold qseq, qreq, qra, qsb; simpl.
    - intros m n. rewrite elem_add. tauto.
    - intros m n. rewrite elem_add. tauto.
    - intros m n. split; [tauto|]. intros [?|[? ?]]; [done|]. clear -HVA Hr H3. set_solver.
    - intros m n. split; [tauto|]. intros [?|[? ?]]; [done|]. clear -HVB Ht H3. set_solver.
    - apply elem_of_union; auto.
    - apply elem_of_union; auto.
    - apply dom_add. auto.
    - apply dom_add. auto.
  Qed.
  Lemma lu_av_good : good_body (lu_av v) A V.
  Proof using HVA HVB.
    intros s t p r Hwf Hk Hr Ht Hrv Htv Hs. unfold lu_av, d_get. rewrite (qe_some _ _ _ Hs). simpl.
    eexists; split; [done|]. destruct Hk. apply acc_inc; try done; unfold qseq, qreq, qra, qsb; simpl.
    - intros m n. split; [tauto|]. intros [?|[? [? ?]]]; [done|]. clear -HVA Hr H3. set_solver.
    - intros m n. split; [tauto|]. intros [?|[? [? ?]]]; [done|]. clear -HVA Hr H3. set_solver.
    - intros m n. rewrite elem_add. tauto.
    - intros m n. split; [tauto|]. intros [?|[? ?]]; [done|]. clear -HVB Ht H3. set_solver.
    - apply elem_of_union; auto.
    - apply elem_of_union; auto.
  Qed.
  Lemma lu_vb_good : good_body (lu_vb v) V B.
  Proof using HVA HVB.
    intros s t p r Hwf Hk Hr Ht Hrv Htv Hs. unfold lu_vb, d_get. rewrite (qe_some _ _ _ Hs). simpl.
    eexists; split; [done|]. destruct Hk. apply acc_inc; try done; unfold qseq, qreq, qra, qsb; simpl.
    - intros m n. split; [tauto|]. intros [?|[? [? ?]]]; [done|]. clear -HVB Ht H4. set_solver.
    - intros m n. split; [tauto|]. intros [?|[? [? ?]]]; [done|]. clear -HVB Ht H4. set_solver.
    - intros m n. split; [tauto|]. intros [?|[? ?]]; [done|]. clear -HVA Hr H3. set_solver.
    - intros m n. rewrite elem_add. tauto.
    - apply elem_of_union; auto.
    - apply elem_of_union; auto.
  Qed.
  Lemma lu_ab_good : good_body (lu_ab v) A B.
  Proof using HVA HVB.
    intros s t p r Hwf Hk Hr Ht Hrv Htv Hs. unfold lu_ab, d_get. rewrite (qe_some _ _ _ Hs). simpl.
    eexists; split; [done|]. destruct Hk. apply acc_inc; try done; unfold qseq, qreq, qra, qsb; simpl.
    - intros m n. split; [tauto|]. intros [?|[? [? ?]]]; [done|]. clear -HVA Hr H3. set_solver.
    - intros m n. split; [tauto|]. intros [?|[? [? ?]]]; [done|]. clear -HVA Hr H3. set_solver.
    - intros m n. rewrite elem_add. tauto.
    - intros m n. rewrite elem_add. tauto.
    - apply elem_of_union; auto.
    - apply elem_of_union; auto.
  Qed.

  (** an inner loop *)
  Lemma inner_loop bd R T t p s (X : gset N) :
    good_body bd R T -> dwf V A B s -> keyed s -> t ∈ T -> t <> v -> v ∉ X ->
    (forall r, r ∈ X <-> r ∈ R /\ r <> v /\ is_Some (q_em s !! (r, v))) ->
    exists s', mfor (bd t p) (enum X) s = Ok s' /\
      inc s s' (fun m n => if decide (n = t /\ m ∈ R /\ m <> v) then p * qe s m v else 0).
  Proof using Henum.
    intros Hbd Hwf Hk Ht Htv HvX HX.
    destruct (mfor_ind (bd t p) (fun pre s' =>
      inc s s' (fun m n => if decide (n = t /\ m ∈ pre) then p * qe s m v else 0)) (enum X) s)
      as (s' & Hm & Hi).
    - eapply inc_trans; [by apply inc_refl|by apply inc_refl|]. intros m n _ _. simpl.
      rewrite decide_False; [ring|]. intros [_ Hn]. by apply elem_of_nil in Hn.
    - intros pre r post s1 He Hi. destruct (enum_split enum Henum _ _ _ _ He) as (Hr & Hrp & _).
      apply HX in Hr as (HrR & Hrv & Hrs).
      destruct (Hbd s1 t p r) as (s2 & Hb & Hi2); try done.
      + apply Hi.
      + by eapply keyed_inc.
      + rewrite (in_row _ _ _ Hi) by auto. done.
      + exists s2. split; [done|]. eapply inc_trans; [exact Hi|exact Hi2|].
        intros m n Hm Hn. unfold delta.
        assert (qe s1 r v = qe s r v) as ->. { unfold qe. by rewrite (in_row _ _ _ Hi) by auto. }
        destruct (decide (m = r /\ n = t)) as [[-> ->]|Hne].
        * rewrite decide_True by (split; [done|app_solver]). rewrite decide_False by (intros [_ ?]; done). ring.
        * destruct (decide (n = t /\ m ∈ pre)) as [[-> Hp]|Hp].
          -- rewrite decide_True by (split; [done|app_solver]). ring.
          -- rewrite decide_False; [ring|]. clear -Hne Hp. intros [-> Hin].
             apply elem_of_app in Hin as [?|Hin]; [tauto|]. apply elem_of_list_singleton in Hin. subst. tauto.
    - exists s'. split; [done|]. eapply inc_trans; [by apply inc_refl|exact Hi|].
      intros m n Hm0 Hn. cbv beta.
      destruct (decide (n = t /\ m ∈ enum X)) as [[-> Hin]|Hnin].
      + apply (elem_of_enum enum Henum) in Hin. apply HX in Hin as (? & ? & ?).
        rewrite decide_True by done. ring.
      + destruct (decide (n = t /\ m ∈ R /\ m <> v)) as [(-> & HmR & Hmv)|]; [|ring].
        rewrite (qe_none s m v); [ring|]. intros Hs. apply Hnin. split; [done|].
        apply (elem_of_enum enum Henum), HX. done.
  Qed.

  (** an outer body *)
  Definition good_outer (ob : K -> srabe -> N -> res srabe) (T : gset N) : Prop :=
    forall s t clg, dwf V A B s -> keyed s -> ~ is_Some (q_em s !! (v, v)) -> t ∈ T -> t <> v ->
      is_Some (q_em s !! (v, t)) ->
      exists s', ob clg s t = Ok s' /\
        inc s s' (fun m n => if decide (n = t /\ m <> v) then qe s v t * clg * qe s m v else 0).
  Lemma outer_good b1 b2 ob T :
    good_body b1 V T -> good_body b2 A T ->
    (forall clg s t, ob clg s t =
       (sedge ← d_get (q_em s) (v, t);
        s ← mfor (b1 t (sedge * clg)) (enum (ds_get (q_req s) v)) s;
        mfor (b2 t (sedge * clg)) (enum (ds_get (q_ra s) v)) s)) ->
    good_outer ob T.
  Proof using Henum Hv HVA.
    intros Hb1 Hb2 Hob s t clg Hwf Hk Hself Ht Htv Hs. rewrite Hob.
    unfold d_get. rewrite (qe_some _ _ _ Hs). cbn [mbind res_bind].
    pose proof v_not_A as HvA.
    destruct (inner_loop b1 V T t (qe s v t * clg) s (ds_get (q_req s) v)) as (s1 & -> & Hi1); try done.
    { intros Hin. apply (dw_req _ _ _ _ Hwf) in Hin as [_ ?]. done. }
    { intros r. rewrite (dw_req _ _ _ _ Hwf r v : _ ∈ ds_get _ _ <-> _). split.
      - intros [[? ?] Hr]. split_and!; [done| |done]. intros ->. done.
      - intros (? & ? & ?). done. }
    cbn [mbind res_bind].
    destruct (inc_rows _ _ _ Hwf Hi1) as (_ & _ & Hra & _).
    destruct (inner_loop b2 A T t (qe s v t * clg) s1 (ds_get (q_ra s1) v)) as (s2 & Hm & Hi2); try done.
    { apply Hi1. }
    { by eapply keyed_inc. }
    { intros Hin. apply (dw_ra _ _ _ _ (in_wf _ _ _ Hi1)) in Hin as [[? _] _]. done. }
    { intros r. rewrite (dw_ra _ _ _ _ (in_wf _ _ _ Hi1) r v : _ ∈ ds_get _ _ <-> _). split.
      - intros [[? ?] Hr]. split_and!; [done| |done]. intros ->. done.
      - intros (? & ? & ?). auto. }
    exists s2. split; [done|]. eapply inc_trans; [exact Hi1|exact Hi2|].
    intros m n Hm' Hn. cbv beta.
    assert (qe s1 m v = qe s m v) as ->. { unfold qe. by rewrite (in_row _ _ _ Hi1) by auto. }
    apply elem_of_union in Hm'.
    destruct (decide (n = t /\ m <> v)) as [[-> Hmv]|Hne].
    - destruct Hm' as [HmV|HmA].
      + rewrite decide_True by done. rewrite decide_False; [ring|].
        intros (_ & ? & _). clear -HVA HmV H0. set_solver.
      + rewrite decide_False, decide_True; [ring|done|].
        intros (_ & ? & _). clear -HVA HmA H0. set_solver.
    - rewrite !decide_False; [ring|tauto..].
  Qed.
  Lemma lu_seq_good : good_outer (lu_seq enum v) V.
  Proof using Henum Hv HVA HVB. eapply outer_good; [apply lu_vv_good|apply lu_av_good|done]. Qed.
  Lemma lu_beta_good : good_outer (lu_beta enum v) B.
  Proof using Henum Hv HVA HVB. eapply outer_good; [apply lu_vb_good|apply lu_ab_good|done]. Qed.

  Lemma outer_loop ob T clg s (X : gset N) :
    good_outer ob T -> dwf V A B s -> keyed s -> ~ is_Some (q_em s !! (v, v)) ->
    (forall t, t ∈ X <-> t ∈ T /\ is_Some (q_em s !! (v, t))) ->
    exists s', mfor (ob clg) (enum X) s = Ok s' /\
      inc s s' (fun m n => if decide (n ∈ T /\ m <> v /\ n <> v) then qe s v n * clg * qe s m v else 0).
  Proof using Henum.
    intros Hob Hwf Hk Hself HX.
    destruct (mfor_ind (ob clg) (fun pre s' =>
      inc s s' (fun m n => if decide (n ∈ pre /\ m <> v) then qe s v n * clg * qe s m v else 0)) (enum X) s)
      as (s' & Hm & Hi).
    - eapply inc_trans; [by apply inc_refl|by apply inc_refl|]. intros m n _ _. cbv beta.
      rewrite decide_False; [ring|]. intros [Hn _]. by apply elem_of_nil in Hn.
    - intros pre t post s1 He Hi. destruct (enum_split enum Henum _ _ _ _ He) as (Ht & Htp & _).
      apply HX in Ht as (HtT & Hts).
      assert (forall m n, m = v \/ n = v -> qe s1 m n = qe s m n) as Hqe.
      { intros m n Hmn. unfold qe. by rewrite (in_row _ _ _ Hi). }
      destruct (Hob s1 t clg) as (s2 & Hb & Hi2); try done.
      + apply Hi.
      + by eapply keyed_inc.
      + by rewrite (in_row _ _ _ Hi) by auto.
      + intros ->. done.
      + by rewrite (in_row _ _ _ Hi) by auto.
      + exists s2. split; [done|]. eapply inc_trans; [exact Hi|exact Hi2|].
        intros m n Hm Hn. cbv beta. rewrite (Hqe v t), (Hqe m v) by auto.
        destruct (decide (n = t /\ m <> v)) as [[-> Hmv]|Hne].
        * rewrite decide_True by (split; [app_solver|done]). rewrite decide_False by (intros [? _]; done). ring.
        * destruct (decide (n ∈ pre /\ m <> v)) as [[Hp Hmv]|Hp].
          -- rewrite decide_True by (split; [app_solver|done]). ring.
          -- rewrite decide_False; [ring|]. clear -Hne Hp. intros [Hin Hmv].
             apply elem_of_app in Hin as [?|Hin]; [tauto|]. apply elem_of_list_singleton in Hin. subst. tauto.
    - exists s'. split; [done|]. eapply inc_trans; [by apply inc_refl|exact Hi|].
      intros m n Hm0 Hn. cbv beta.
      destruct (decide (n ∈ enum X /\ m <> v)) as [[Hin Hmv]|Hnin].
      + apply (elem_of_enum enum Henum) in Hin. apply HX in Hin as (? & ?).
        rewrite decide_True; [ring|]. split_and!; [done|done|]. intros ->. done.
      + destruct (decide (n ∈ T /\ m <> v /\ n <> v)) as [(HnT & Hmv & Hnv)|]; [|ring].
        rewrite (qe_none s v n); [ring|]. intros Hs. apply Hnin. split; [|done].
        apply (elem_of_enum enum Henum), HX. done.
  Qed.

End lu.

(** ** the deletions *)
Section lu1.
  Context {K : fld} {N : Type} `{Countable N}.
  Notation srabe := (srabe K N).
  Context (enum : gset N -> list N) (Henum : forall X, enum X ≡ₚ elements X) (v : N).

  Lemma elem_remove (m : gmap N (gset N)) n x k y :
    y ∈ ds_get (<[n := ds_get m n ∖ {[x]}]> m) k <-> y ∈ ds_get m k /\ ~ (k = n /\ y = x).
  Proof using Type.
    rewrite ds_get_insert. destruct (decide (k = n)) as [->|].
    - rewrite elem_of_difference, elem_of_singleton. tauto.
    - tauto.
  Qed.
  Lemma inv_add_sub (inv : gset N) n : inv_add inv n ⊆ {[n]} ∪ inv.
  Proof using Type. unfold inv_add. destruct (decide _); [apply empty_subseteq|done]. Qed.

  Lemma del_seq_loop (s : srabe) (inv : gset N) :
    (forall n, n ∈ qseq s v -> is_Some (q_em s !! (v, n)) /\ v ∈ qreq s n) ->
    exists s' inv', mfor (lu_del_seq v) (enum (qseq s v)) (s, inv) = Ok (s', inv') /\
      q_seq s' = q_seq s /\ q_ra s' = q_ra s /\ q_sb s' = q_sb s /\
      (forall m n, m ∈ qreq s' n <-> m ∈ qreq s n /\ ~ (m = v /\ n ∈ qseq s v)) /\
      (forall m n, q_em s' !! (m, n) = if decide (m = v /\ n ∈ qseq s v) then None else q_em s !! (m, n)) /\
      inv' ⊆ inv ∪ qseq s v /\ dom (q_req s') ⊆ dom (q_req s) ∪ qseq s v /\ dom (q_req s) ⊆ dom (q_req s').
  Proof using Henum.
    intros Hs.
    destruct (mfor_ind (lu_del_seq v) (fun pre (st : srabe * gset N) =>
      q_seq st.1 = q_seq s /\ q_ra st.1 = q_ra s /\ q_sb st.1 = q_sb s /\
      (forall m n, m ∈ qreq st.1 n <-> m ∈ qreq s n /\ ~ (m = v /\ n ∈ pre)) /\
      (forall m n, q_em st.1 !! (m, n) = if decide (m = v /\ n ∈ pre) then None else q_em s !! (m, n)) /\
      st.2 ⊆ inv ∪ list_to_set pre /\ dom (q_req st.1) ⊆ dom (q_req s) ∪ qseq s v
        /\ dom (q_req s) ⊆ dom (q_req st.1))
      (enum (qseq s v)) (s, inv)) as ([s' inv'] & Hm & H1 & H2 & H3 & H4 & H5 & H6 & H7 & H8).
    - cbn [fst snd]. split_and!; try done.
      + intros m n. split; [|tauto]. intros; split; [done|]. intros [_ Hn]. by apply elem_of_nil in Hn.
      + intros m n. rewrite decide_False; [done|]. intros [_ Hn]. by apply elem_of_nil in Hn.
      + set_solver.
      + apply union_subseteq_l.
    - intros pre t post [s1 inv1] He (H1 & H2 & H3 & H4 & H5 & H6 & H7 & H8). cbn [fst snd] in *.
      destruct (enum_split enum Henum _ _ _ _ He) as (Ht & Htp & _).
      destruct (Hs t Ht) as [Hsome Hreq]. unfold lu_del_seq. cbn [fst snd].
      unfold d_del. rewrite H5, decide_False by tauto.
      destruct Hsome as [e Hse]. rewrite Hse. cbn [mbind res_bind].
      rewrite ds_remove_ok by (apply (H4 v t); tauto). cbn [mbind res_bind].
      eexists; split; [done|]. cbn [fst snd q_seq q_ra q_sb q_req q_em]. split_and!; try done.
      + intros m n. unfold qreq. cbn [q_req]. rewrite elem_remove. fold (qreq s1 n). rewrite H4.
        rewrite elem_of_app, elem_of_list_singleton. tauto.
      + intros m n. destruct (decide (m = v /\ n = t)) as [[-> ->]|Hne].
        * rewrite lookup_delete, decide_True; [done|]. set_solver.
        * rewrite lookup_delete_ne by (intros [= -> ->]; tauto). rewrite H5.
          destruct (decide (m = v /\ n ∈ pre)); destruct (decide (m = v /\ n ∈ pre ++ [t])) as [Hd|Hd]; try done.
          -- exfalso. set_solver.
          -- exfalso. rewrite elem_of_app, elem_of_list_singleton in Hd. tauto.
      + pose proof (inv_add_sub inv1 t) as Hia. rewrite list_to_set_app. clear -Hia H6. set_solver.
      + rewrite dom_insert. clear -H7 Ht. set_solver.
      + rewrite dom_insert. clear -H8. set_solver.
    - exists s', inv'. cbn [fst snd] in *. split_and!; try done.
      + intros m n. rewrite H4, (elem_of_enum enum Henum). done.
      + intros m n. rewrite H5. destruct (decide _) as [[? Hin]|Hn]; destruct (decide _) as [|Hn']; try done;
          rewrite (elem_of_enum enum Henum) in *; tauto.
      + etrans; [exact H6|]. intros x. rewrite !elem_of_union, elem_of_list_to_set, (elem_of_enum enum Henum). done.
  Qed.
  Lemma del_req_loop (s : srabe) (inv : gset N) :
    (forall n, n ∈ qreq s v -> is_Some (q_em s !! (n, v)) /\ v ∈ qseq s n) ->
    exists s' inv', mfor (lu_del_req v) (enum (qreq s v)) (s, inv) = Ok (s', inv') /\
      q_req s' = q_req s /\ q_ra s' = q_ra s /\ q_sb s' = q_sb s /\
      (forall m n, n ∈ qseq s' m <-> n ∈ qseq s m /\ ~ (n = v /\ m ∈ qreq s v)) /\
      (forall m n, q_em s' !! (m, n) = if decide (n = v /\ m ∈ qreq s v) then None else q_em s !! (m, n)) /\
      inv' ⊆ inv ∪ qreq s v /\ dom (q_seq s') ⊆ dom (q_seq s) ∪ qreq s v /\ dom (q_seq s) ⊆ dom (q_seq s').
  Proof using Henum.
    intros Hs.
    destruct (mfor_ind (lu_del_req v) (fun pre (st : srabe * gset N) =>
      q_req st.1 = q_req s /\ q_ra st.1 = q_ra s /\ q_sb st.1 = q_sb s /\
      (forall m n, n ∈ qseq st.1 m <-> n ∈ qseq s m /\ ~ (n = v /\ m ∈ pre)) /\
      (forall m n, q_em st.1 !! (m, n) = if decide (n = v /\ m ∈ pre) then None else q_em s !! (m, n)) /\
      st.2 ⊆ inv ∪ list_to_set pre /\ dom (q_seq st.1) ⊆ dom (q_seq s) ∪ qreq s v
        /\ dom (q_seq s) ⊆ dom (q_seq st.1))
      (enum (qreq s v)) (s, inv)) as ([s' inv'] & Hm & H1 & H2 & H3 & H4 & H5 & H6 & H7 & H8).
    - cbn [fst snd]. split_and!; try done.
      + intros m n. split; [|tauto]. intros; split; [done|]. intros [_ Hn]. by apply elem_of_nil in Hn.
      + intros m n. rewrite decide_False; [done|]. intros [_ Hn]. by apply elem_of_nil in Hn.
      + set_solver.
      + apply union_subseteq_l.
    - intros pre t post [s1 inv1] He (H1 & H2 & H3 & H4 & H5 & H6 & H7 & H8). cbn [fst snd] in *.
      destruct (enum_split enum Henum _ _ _ _ He) as (Ht & Htp & _).
      destruct (Hs t Ht) as [Hsome Hreq]. unfold lu_del_req. cbn [fst snd].
      unfold d_del. rewrite H5, decide_False by tauto.
      destruct Hsome as [e Hse]. rewrite Hse. cbn [mbind res_bind].
      rewrite ds_remove_ok by (apply (H4 t v); tauto). cbn [mbind res_bind].
      eexists; split; [done|]. cbn [fst snd q_seq q_ra q_sb q_req q_em]. split_and!; try done.
      + intros m n. unfold qseq. cbn [q_seq]. rewrite elem_remove. fold (qseq s1 m). rewrite H4.
        rewrite elem_of_app, elem_of_list_singleton. tauto.
      + intros m n. destruct (decide (m = t /\ n = v)) as [[-> ->]|Hne].
        * rewrite lookup_delete, decide_True; [done|]. set_solver.
        * rewrite lookup_delete_ne by (intros [= -> ->]; tauto). rewrite H5.
          destruct (decide (n = v /\ m ∈ pre)); destruct (decide (n = v /\ m ∈ pre ++ [t])) as [Hd|Hd]; try done.
          -- exfalso. set_solver.
          -- exfalso. rewrite elem_of_app, elem_of_list_singleton in Hd. tauto.
      + pose proof (inv_add_sub inv1 t) as Hia. rewrite list_to_set_app. clear -Hia H6. set_solver.
      + rewrite dom_insert. clear -H7 Ht. set_solver.
      + rewrite dom_insert. clear -H8. set_solver.
    - exists s', inv'. cbn [fst snd] in *. split_and!; try done.
      + intros m n. rewrite H4, (elem_of_enum enum Henum). done.
      + intros m n. rewrite H5. destruct (decide _) as [[? Hin]|Hn]; destruct (decide _) as [|Hn']; try done;
          rewrite (elem_of_enum enum Henum) in *; tauto.
      + etrans; [exact H6|]. intros x. rewrite !elem_of_union, elem_of_list_to_set, (elem_of_enum enum Henum). done.
  Qed.
  Lemma del_em_loop (pair : N -> N * N) (s : srabe) (X : gset N) :
    (forall a b, pair a = pair b -> a = b) ->
    (forall n, n ∈ X -> is_Some (q_em s !! pair n)) ->
    exists em', mfor (lu_del_em pair) (enum X) s = Ok (with_em s em') /\
      (forall n, n ∈ X -> em' !! pair n = None) /\
      (forall p, (forall n, n ∈ X -> pair n <> p) -> em' !! p = q_em s !! p).
  Proof using Henum.
    intros Hinj Hs.
    destruct (mfor_ind (lu_del_em pair) (fun pre st => exists em', st = with_em s em' /\
        (forall n, n ∈ pre -> em' !! pair n = None) /\
        (forall p, (forall n, n ∈ pre -> pair n <> p) -> em' !! p = q_em s !! p)) (enum X) s)
      as (s' & Hm & em' & -> & H1 & H2).
    - exists (q_em s). split_and!; [by destruct s| |done]. intros n Hn. by apply elem_of_nil in Hn.
    - intros pre t post s1 He (em1 & -> & H1 & H2).
      destruct (enum_split enum Henum _ _ _ _ He) as (Ht & Htp & _).
      destruct (Hs t Ht) as [e Hse]. unfold lu_del_em, d_del. cbn [with_em q_em].
      rewrite H2, Hse.
      2: { intros n Hn Hp%Hinj. by subst. }
      cbn [mbind res_bind]. eexists; split; [done|]. exists (delete (pair t) em1). split_and!; [done| |].
      + intros n Hn. apply elem_of_app in Hn as [Hn|Hn%elem_of_list_singleton].
        * destruct (decide (pair t = pair n)) as [->|]; [apply lookup_delete|].
          rewrite lookup_delete_ne by done. auto.
        * subst. apply lookup_delete.
      + intros p Hp. rewrite lookup_delete_ne by (apply Hp; set_solver). apply H2.
        intros n Hn. apply Hp. set_solver.
    - exists em'. split_and!; [done| |].
      + intros n Hn. apply H1. by apply (elem_of_enum enum Henum).
      + intros p Hp. apply H2. intros n Hn. apply Hp. by apply (elem_of_enum enum Henum).
  Qed.
End lu1.

Section lu2.
  Context {K : fld} {N : Type} `{Countable N}.
  Add Field FF2 : (f_theory K).
  Notation srabe := (srabe K N).
  Context (enum : gset N -> list N) (Henum : forall X, enum X ≡ₚ elements X).

  Lemma reduce_lu_ok V A B (s : srabe) (inv : gset N) v :
    dinv V A B s -> v ∈ V -> is_Some (q_em s !! (v, v)) -> qe s v v <> 0 ->
    exists s' inv', reduce_lu enum v (s, inv) = Ok (s', inv') /\
      dinv (V ∖ {[v]}) A B s' /\
      (forall m n, m ∈ V ∪ A -> n ∈ V ∪ B -> m <> v -> n <> v ->
         qe s' m n = qe s m n - qe s v n * qe s m v / qe s v v) /\
      inv' ⊆ inv ∪ V.
  Proof using Henum.
    intros [HVA HVB HAB Hwf Hds Hdr] Hv Hself Hnz.
    unfold reduce_lu. cbn [fst snd]. unfold d_get at 1. rewrite (qe_some _ _ _ Hself). cbn [mbind res_bind].
    rewrite decide_False by done.
    assert (v ∈ ds_get (q_seq s) v) as Hvs by (by apply (dw_seq _ _ _ _ Hwf)).
    assert (v ∈ ds_get (q_req s) v) as Hvr by (by apply (dw_req _ _ _ _ Hwf)).
    rewrite !ds_remove_ok by done. cbn [mbind res_bind].
    unfold d_del at 1. rewrite (qe_some _ _ _ Hself). cbn [mbind res_bind].
    set (s0 := SR _ _ _ _ _).
    pose proof (v_not_A V A HVA v Hv) as HvA. pose proof (v_not_B V B HVB v Hv) as HvB.
    assert (forall m n, ~ (m = v /\ n = v) -> q_em s0 !! (m, n) = q_em s !! (m, n)) as He0.
    { intros m n Hmn. simpl. rewrite lookup_delete_ne; [done|]. intros [= <- <-]. tauto. }
    assert (q_em s0 !! (v, v) = None) as He0v by (simpl; apply lookup_delete).
    assert (dwf V A B s0) as Hwf0.
    { destruct Hwf as [a b c d]. split.
      - intros m n. unfold qseq at 1. change (q_seq s0) with (<[v := ds_get (q_seq s) v ∖ {[v]}]> (q_seq s)). rewrite elem_remove. fold (qseq s m). rewrite a.
        destruct (decide (m = v /\ n = v)) as [[-> ->]|Hmn].
        + rewrite He0v. split; [tauto|]. intros [_ [? ?]]. done.
        + rewrite He0 by done. tauto.
      - intros m n. unfold qreq at 1. change (q_req s0) with (<[v := ds_get (q_req s) v ∖ {[v]}]> (q_req s)). rewrite elem_remove. fold (qreq s n). rewrite b.
        destruct (decide (m = v /\ n = v)) as [[-> ->]|Hmn].
        + rewrite He0v. split; [tauto|]. intros [_ [? ?]]. done.
        + rewrite He0 by done. tauto.
      - intros m n. change (qra s0 n) with (qra s n). rewrite c.
        destruct (decide (m = v /\ n = v)) as [[-> ->]|Hmn]; [|by rewrite He0].
        rewrite He0v. split; [tauto|]. intros [_ [? ?]]. done.
      - intros m n. change (qsb s0 m) with (qsb s m). rewrite d.
        destruct (decide (m = v /\ n = v)) as [[-> ->]|Hmn]; [|by rewrite He0].
        rewrite He0v. split; [tauto|]. intros [_ [? ?]]. done. }
    assert (dom (q_seq s0) = V) as Hds0.
    { simpl. rewrite dom_insert_L, Hds. clear -Hv. set_solver. }
    assert (dom (q_req s0) = V) as Hdr0.
    { simpl. rewrite dom_insert_L, Hdr. clear -Hv. set_solver. }
    assert (keyed V s0) as Hk0 by (unfold keyed; rewrite Hds0, Hdr0; done).
    assert (~ is_Some (q_em s0 !! (v, v))) as Hns0 by (rewrite He0v; by intros [? ?]).
    set (clg := - (1) / qe s v v).
    destruct (outer_loop enum Henum V A B v (lu_seq enum v) V clg s0 (ds_get (q_seq s0) v)) as (s1 & -> & Hi1);
      [by apply lu_seq_good|done|done|done| |].
    { intros t. rewrite (dw_seq _ _ _ _ Hwf0 v t : _ ∈ ds_get _ _ <-> _). tauto. }
    cbn [mbind res_bind].
    destruct (inc_rows _ _ _ _ _ _ _ Hwf0 Hi1) as (R1 & R2 & R3 & R4).
    destruct (outer_loop enum Henum V A B v (lu_beta enum v) B clg s1 (ds_get (q_sb s1) v)) as (s2 & -> & Hi2);
      [by apply lu_beta_good|apply Hi1|by eapply keyed_inc| | |].
    { by rewrite (in_row _ _ _ _ _ _ _ Hi1) by auto. }
    { intros t. rewrite (dw_sb _ _ _ _ (in_wf _ _ _ _ _ _ _ Hi1) v t : _ ∈ ds_get _ _ <-> _). tauto. }
    cbn [mbind res_bind].
    assert (inc V A B v s0 s2 (fun m n => if decide (m <> v /\ n <> v) then qe s v n * clg * qe s m v else 0)) as Hi.
    { eapply inc_trans; [exact Hi1|exact Hi2|]. intros m n Hm Hn. cbv beta.
      assert (forall m n, m = v \/ n = v -> qe s1 m n = qe s0 m n) as Hq.
      { intros m' n' Hmn. unfold qe. by rewrite (in_row _ _ _ _ _ _ _ Hi1). }
      rewrite !Hq by auto. apply elem_of_union in Hn.
      assert (forall m n, ~ (m = v /\ n = v) -> qe s0 m n = qe s m n) as Hq0.
      { intros m' n' Hmn. unfold qe. by rewrite He0. }
      destruct (decide (m <> v /\ n <> v)) as [[Hmv Hnv]|Hmn].
      - rewrite !Hq0 by tauto. destruct Hn as [HnV|HnB].
        + rewrite decide_True by done. rewrite decide_False; [ring|].
          intros (? & _). clear -HVB HnV H0. set_solver.
        + rewrite decide_False, decide_True; [ring|done|].
          intros (? & _). clear -HVB HnB H0. set_solver.
      - rewrite !decide_False; [ring|tauto..]. }
    clear Hi1 Hi2 R1 R2 R3 R4 s1. destruct Hi as [Hwf2 Hq2 Hrow2 Hd2 Hdr2].
    rewrite Hds0 in Hd2. rewrite Hdr0 in Hdr2.
    assert (forall n, n <> v -> q_em s2 !! (v, n) = q_em s !! (v, n)) as Hrv.
    { intros n Hn. rewrite Hrow2, He0 by tauto. done. }
    assert (forall n, n <> v -> q_em s2 !! (n, v) = q_em s !! (n, v)) as Hcv.
    { intros n Hn. rewrite Hrow2, He0 by tauto. done. }
    assert (q_em s2 !! (v, v) = None) as Hvv by (rewrite Hrow2 by auto; done).
    pose proof Hwf2 as [wseq wreq wra wsb].
    change (ds_get (q_seq s2) v) with (qseq s2 v).
    destruct (del_seq_loop enum Henum v s2 inv) as (s3 & inv3 & -> & T1 & T2 & T3 & T4 & T5 & T6 & T7 & T7').
    { intros n Hn. apply wseq in Hn as [[? ?] ?]. split; [done|]. by apply wreq. }
    cbn [mbind res_bind]. set (s4 := SR _ _ _ _ _).
    assert (forall p, q_em s4 !! p = q_em s3 !! p) as He4 by done.
    change (ds_get (q_sb s4) v) with (qsb s3 v).
    assert (qsb s3 v = qsb s2 v) as -> by (unfold qsb; by rewrite T3).
    destruct (del_em_loop enum Henum (fun b => (v, b)) s4 (qsb s2 v)) as (em5 & -> & P1 & P2).
    { by intros a b [= ->]. }
    { intros b Hb. rewrite He4, T5, decide_False.
      - by apply wsb in Hb as [_ ?].
      - intros [_ Hb']. apply wsb in Hb as [[_ HbB] _]. apply wseq in Hb' as [[_ ?] _].
        clear -HVB HbB H0. set_solver. }
    cbn [mbind res_bind]. set (s6 := SR _ _ _ _ _).
    (* the edge map so far *)
    assert (forall m n, q_em s6 !! (m, n) =
        if decide (m = v /\ (n ∈ qseq s2 v \/ n ∈ qsb s2 v)) then None else q_em s2 !! (m, n)) as E6.
    { intros m n. cbn [s6 with_em q_em]. destruct (decide (m = v /\ n ∈ qsb s2 v)) as [[-> Hn]|Hn].
      - rewrite decide_True by tauto. rewrite (P1 n Hn). done.
      - rewrite P2 by (intros k Hk [= -> ->]; tauto). rewrite He4, T5.
        destruct (decide (m = v /\ n ∈ qseq s2 v)); destruct (decide (m = v /\ (n ∈ qseq s2 v \/ n ∈ qsb s2 v)));
          try done; tauto. }
    assert (forall m n, n ∈ qseq s6 m <-> n ∈ qseq s2 m /\ m <> v) as S6.
    { intros m n. unfold qseq, s6, s4. cbn [with_em q_seq]. rewrite ds_get_delete, T1.
      destruct (decide (m = v)); [|tauto]. split; [intros Hx; by apply elem_of_empty in Hx|tauto]. }
    assert (forall m n, m ∈ qreq s6 n <-> m ∈ qreq s2 n /\ ~ (m = v /\ n ∈ qseq s2 v)) as R6 by exact T4.
    assert (qreq s6 v = qreq s2 v) as Hr6.
    { apply set_eq. intros x. rewrite R6. split; [tauto|]. intros Hx. split; [done|]. intros [-> Hx'].
      apply wseq in Hx' as [_ Hx']. rewrite Hvv in Hx'. by destruct Hx'. }
    change (ds_get (q_req s6) v) with (qreq s6 v).
    assert (forall x, x ∈ qreq s2 v -> x <> v) as Hxv.
    { intros x Hx ->. apply wreq in Hx as [_ Hx]. rewrite Hvv in Hx. by destruct Hx. }
    destruct (del_req_loop enum Henum v s6 inv3) as (s7 & inv7 & -> & U1 & U2 & U3 & U4 & U5 & U6 & U7 & U7').
    { intros n Hn. rewrite Hr6 in Hn. pose proof (Hxv n Hn) as Hnv. apply wreq in Hn as [[? ?] ?].
      rewrite E6, decide_False by tauto. split; [done|]. apply S6. split; [by apply wseq|done]. }
    cbn [mbind res_bind]. set (s8 := SR _ _ _ _ _).
    change (ds_get (q_ra s8) v) with (qra s7 v).
    assert (forall n, qra s7 n = qra s2 n) as Hra7.
    { intros n. unfold qra. rewrite U2. unfold s6. cbn [q_ra]. unfold s4. cbn [with_em q_ra]. by rewrite T2. }
    rewrite (Hra7 v).
    assert (forall m n, q_em s8 !! (m, n) =
        if decide (m = v /\ (n ∈ qseq s2 v \/ n ∈ qsb s2 v) \/ (n = v /\ m ∈ qreq s2 v)) then None
        else q_em s2 !! (m, n)) as E8.
    { intros m n. cbn [s8 q_em]. rewrite U5, Hr6, E6.
      destruct (decide (n = v /\ m ∈ qreq s2 v)); destruct (decide (m = v /\ (n ∈ qseq s2 v \/ n ∈ qsb s2 v)));
        destruct (decide _); try done; tauto. }
    destruct (del_em_loop enum Henum (fun a => (a, v)) s8 (qra s2 v)) as (em9 & -> & Q1 & Q2).
    { by intros a b [= ->]. }
    { intros a Ha. rewrite E8, decide_False.
      - by apply wra in Ha as [_ ?].
      - apply wra in Ha as [[HaA _] _]. intros [[-> _]|[_ Har]]; [done|].
        apply wreq in Har as [[? _] _]. clear -HVA HaA H0. set_solver. }
    cbn [mbind res_bind]. eexists _, _. split; [done|].
    set (s9 := SR _ _ _ _ _).
    (* what survives *)
    assert (forall m n, m <> v -> n <> v -> q_em s9 !! (m, n) = q_em s2 !! (m, n)) as E9.
    { intros m n Hm Hn. cbn [s9 q_em with_em]. rewrite Q2 by (intros k _ [= -> ->]; done).
      rewrite E8, decide_False by tauto. done. }
    assert (forall m n, n ∈ qseq s9 m <-> n ∈ qseq s2 m /\ m <> v /\ n <> v) as S9.
    { intros m n. unfold qseq, s9, s8. cbn [with_em q_seq]. fold (qseq s7 m). rewrite U4, S6, Hr6.
      split.
      - intros [[Hn Hmv] Hnv]. split_and!; [done|done|]. intros ->. apply Hnv. split; [done|].
        apply wreq. by apply wseq in Hn.
      - intros (Hn & Hmv & Hnv). tauto. }
    assert (forall m n, m ∈ qreq s9 n <-> m ∈ qreq s2 n /\ m <> v /\ n <> v) as R9.
    { intros m n. unfold qreq, s9, s8. cbn [with_em q_req]. rewrite ds_get_delete.
      destruct (decide (n = v)) as [->|Hnv].
      - split; [intros Hx; by apply elem_of_empty in Hx|tauto].
      - rewrite U1. fold (qreq s6 n). rewrite R6. split.
        + intros [Hm Hmv]. split_and!; [done| |done]. intros ->. apply Hmv. split; [done|].
          apply wseq. by apply wreq in Hm.
        + tauto. }
    assert (forall m n, m ∈ qra s9 n <-> m ∈ qra s2 n /\ n <> v) as A9.
    { intros m n. unfold qra, s9, s8. cbn [with_em q_ra]. rewrite ds_get_delete.
      destruct (decide (n = v)) as [->|Hnv].
      - split; [intros Hx; by apply elem_of_empty in Hx|tauto].
      - fold (qra s7 n). rewrite Hra7. tauto. }
    assert (forall m n, n ∈ qsb s9 m <-> n ∈ qsb s2 m /\ m <> v) as B9.
    { intros m n. unfold qsb, s9, s8. cbn [with_em q_sb]. rewrite U3. unfold s6, s4. cbn [with_em q_sb].
      rewrite ds_get_delete. destruct (decide (m = v)) as [->|Hnv].
      - split; [intros Hx; by apply elem_of_empty in Hx|tauto].
      - rewrite T3. tauto. }
    assert (forall x, x ∈ V ∖ {[v]} <-> x ∈ V /\ x <> v) as HVx.
    { intros x. by rewrite elem_of_difference, elem_of_singleton. }
    assert (forall a, a ∈ A -> a <> v) as HAv by (intros a Ha ->; done).
    assert (forall b, b ∈ B -> b <> v) as HBv by (intros a Ha ->; done).
    split_and!.
    - split.
      + clear -HVA. set_solver.
      + clear -HVB. set_solver.
      + done.
      + split.
        * intros m n. rewrite S9, wseq, !HVx. split.
          -- intros [[[? ?] ?] [? ?]]. rewrite E9 by done. tauto.
          -- intros [[[? ?] [? ?]] Hs]. rewrite E9 in Hs by done. tauto.
        * intros m n. rewrite R9, wreq, !HVx. split.
          -- intros [[[? ?] ?] [? ?]]. rewrite E9 by done. tauto.
          -- intros [[[? ?] [? ?]] Hs]. rewrite E9 in Hs by done. tauto.
        * intros m n. rewrite A9, wra, !HVx. split.
          -- intros [[[? ?] ?] ?]. rewrite E9 by auto. tauto.
          -- intros [[? Hn] Hs]. assert (n <> v) by (destruct Hn as [[_ ?]|?]; auto).
             rewrite E9 in Hs by auto. tauto.
        * intros m n. rewrite B9, wsb, !HVx. split.
          -- intros [[[? ?] ?] ?]. rewrite E9 by auto. tauto.
          -- intros [[Hm ?] Hs]. assert (m <> v) by (destruct Hm as [[_ ?]|?]; auto).
             rewrite E9 in Hs by auto. tauto.
      + (* keys of seq *)
        unfold s9, s8. cbn [with_em q_seq].
        assert (dom (q_seq s6) = V ∖ {[v]}) as D6.
        { unfold s6, s4. cbn [with_em q_seq]. rewrite dom_delete_L, T1, Hd2. done. }
        rewrite D6, Hr6 in *. apply set_eq. intros x. split.
        * intros Hx. apply U7 in Hx. apply elem_of_union in Hx as [Hx|Hx]; [done|].
          apply HVx. split; [by apply wreq in Hx as [[? _] _]|auto].
        * apply U7'.
      + unfold s9, s8. cbn [with_em q_req]. rewrite dom_delete_L, U1. unfold s6, s4. cbn [with_em q_req].
        rewrite Hdr2 in T7, T7'. apply set_eq. intros x. rewrite elem_of_difference, HVx, elem_of_singleton. split.
        * intros [Hx ?]. split; [|done]. apply T7, elem_of_union in Hx as [?|Hx]; [done|].
          by apply wseq in Hx as [[_ ?] _].
        * intros [? ?]. split; [|done]. by apply T7'.
    - intros m n Hm Hn Hmv Hnv. unfold qe at 1. rewrite E9 by done. fold (qe s2 m n).
      rewrite Hq2 by done. cbv beta. rewrite decide_True by done.
      assert (qe s0 m n = qe s m n) as ->. { unfold qe. rewrite He0 by tauto. done. }
      unfold clg. field. done.
    - etrans; [exact U6|]. rewrite Hr6. intros x Hx. apply elem_of_union in Hx as [Hx|Hx].
      + apply T6, elem_of_union in Hx as [?|Hx]; apply elem_of_union; [by left|]. apply wseq in Hx as [[_ ?] _]. by right.
      + apply wreq in Hx as [[? _] _]. apply elem_of_union. by right.
  Qed.

  (** success of reduceLU implies a usable pivot *)
  Lemma reduce_lu_pivot V A B (s : srabe) (inv : gset N) v st :
    dinv V A B s -> reduce_lu enum v (s, inv) = Ok st ->
    v ∈ V /\ is_Some (q_em s !! (v, v)) /\ qe s v v <> 0.
  Proof using Type.
    intros Hd. unfold reduce_lu. cbn [fst snd]. unfold d_get at 1, qe.
    destruct (q_em s !! (v, v)) as [e|] eqn:He; [|done]. cbn [mbind res_bind default].
    destruct (decide (e = 0)); [done|].
    assert (v ∈ ds_get (q_seq s) v \/ exists x, ds_remove (q_seq s) v v = Err x) as [Hv|[x ->]].
    { unfold ds_remove. destruct (decide _); eauto. }
    - intros _. apply (dw_seq _ _ _ _ (di_wf _ _ _ _ Hd)) in Hv as [[? _] _]. eauto.
    - intros Hx. cbn [mbind res_bind] in Hx. discriminate.
  Qed.
End lu2.
