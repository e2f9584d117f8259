(** Lemmas about DagModel: the Householder reflections. *)
From Verif Require Import Fld Py LinSpec LinAlg LinReduce LinIo Herm GraphModel GraphProofs DagModel DagSpec DagElim DagPivot.
Local Open Scope fld_scope.

(** ** the reflection vector *)
Section vector.
  Context {K : fld} {N : Type} `{Countable N} (h : herm K).
  Add Field FV : (f_theory K).
  Notation srabe := (srabe K N).
  Notation conj := (h_conj h).
  Notation abssq := (abssq (h_conj h)).

  Lemma abssq_nn x : h_nn h (abssq x).
  Proof. apply (h_nn_sq K h). Qed.

  Definition hh_u (e : N -> K) (into : N) (from : list N) : N -> K :=
    let nrs := fsum (fun k => abssq (e k)) from in
    let no := h_sqrt h (nrs + abssq (e into)) in
    let um := e into + no * e into / h_abs h (e into) in
    let norm := h_sqrt h (nrs + abssq um) in
    fun k => if decide (k = into) then um / norm else if decide (k ∈ from) then e k / norm else 0.

  Lemma hh_u_spec (e : N -> K) into from :
    into ∉ from -> NoDup from -> e into <> 0 ->
    let nrs := fsum (fun k => abssq (e k)) from in
    let no := h_sqrt h (nrs + abssq (e into)) in
    let um := e into + no * e into / h_abs h (e into) in
    let norm := h_sqrt h (nrs + abssq um) in
    let u := hh_u e into from in
    let l := from ++ [into] in
    let g := fsum (fun k => conj (u k) * e k) l in
    h_abs h (e into) <> 0 /\ norm <> 0 /\
    fsum (fun k => u k * conj (u k)) l = 1 /\
    g = conj (um / norm) * e into + nrs / norm /\
    (forall k, k ∈ from -> e k - (1 + 1) * u k * g = 0) /\
    e into - (1 + 1) * u into * g <> 0.
  Proof.
    intros Hn Hnd Hne nrs no um norm u l g.
    set (a := h_abs h (e into)) in *.
    assert (a <> 0) as Ha. { intros Ha. by apply Hne, (abs_0 h). }
    assert (h_nn h nrs) as Hnrs. { apply nn_fsum. intros. apply abssq_nn. }
    assert (h_nn h (nrs + abssq (e into))) as Hno1 by (apply (h_nn_add K h); [done|apply abssq_nn]).
    assert (h_nn h no) as Hno by (by apply (h_sqrt_nn K h)).
    assert (no * no = nrs + abssq (e into)) as Hno2 by (by apply (h_sqrt_sq K h)).
    assert (h_nn h (nrs + abssq um)) as Hnm1 by (apply (h_nn_add K h); [done|apply abssq_nn]).
    assert (h_nn h norm) as Hnm by (by apply (h_sqrt_nn K h)).
    assert (norm * norm = nrs + abssq um) as Hnm2 by (by apply (h_sqrt_sq K h)).
    assert (h_nn h a) as Hann by apply (h_abs_nn K h).
    assert (a * a = e into * conj (e into)) as Ha2 by apply (h_abs_sq K h).
    assert (no <> 0) as Hno0.
    { intros Hz. apply Hne, (h_sq0 K h). eapply nn_sum0_r; [exact Hnrs|apply abssq_nn|].
      change (nrs + abssq (e into) = 0). rewrite <- Hno2, Hz. ring. }
    assert (conj um = conj (e into) + no * conj (e into) / a) as Hcum.
    { unfold um. fold a. rewrite (h_conj_add K h), (conj_div h), (h_conj_mul K h) by done.
      rewrite (h_nn_conj K h no Hno), (h_nn_conj K h a Hann). done. }
    assert (abssq um = a * a + (1 + 1) * (no * a) + no * no) as Hum2.
    { unfold DagModel.abssq. rewrite Hcum. unfold um. fold a.
      transitivity ((e into * conj (e into)) * (1 + no / a) * (1 + no / a)); [field; done|].
      rewrite <- Ha2. field. done. }
    assert (norm <> 0) as Hnorm.
    { intros Hz.
      assert (nrs + (a * a + (1 + 1) * (no * a) + no * no) = 0) as Hs.
      { rewrite <- Hum2, <- Hnm2, Hz. ring. }
      pose proof (nn_1 h) as H1.
      assert (h_nn h (a * a + (1 + 1) * (no * a))) as Hx.
      { apply (h_nn_add K h); [by apply (h_nn_mul K h)|].
        apply (h_nn_mul K h); [by apply (h_nn_add K h)|by apply (h_nn_mul K h)]. }
      assert (h_nn h (no * no)) as Hy by (by apply (h_nn_mul K h)).
      apply (nn_sum0_r h) in Hs; [|done|by apply (h_nn_add K h)].
      apply (nn_sum0_r h) in Hs; [|done..].
      apply fmul_integral in Hs as [|]; done. }
    pose proof (h_nn_conj K h norm Hnm) as Hcn.
    assert (forall k, k ∈ from -> u k = e k / norm) as Huk.
    { intros k Hk. unfold u, hh_u. rewrite decide_False by (by intros ->). rewrite decide_True by done. done. }
    assert (u into = um / norm) as Hui.
    { unfold u, hh_u. by rewrite decide_True. }
    assert (g = conj (um / norm) * e into + nrs / norm) as Hg.
    { unfold g, l. rewrite fsum_app. cbn [fsum]. rewrite Hui.
      rewrite (fsum_ext _ (fun k => abssq (e k) * (1 / norm))).
      - rewrite fsum_mul_r. fold nrs. field. done.
      - intros k Hk. rewrite Huk by done. rewrite (conj_div h), Hcn by done. unfold DagModel.abssq. field. done. }
    assert ((1 + 1) * (conj um * e into + nrs) = norm * norm) as Hkey.
    { rewrite Hnm2, Hum2, Hcum.
      transitivity ((1 + 1) * ((e into * conj (e into)) * (1 + no / a) + nrs)); [field; done|].
      rewrite <- Ha2. transitivity ((1 + 1) * (a * a) + (1 + 1) * (no * a) + (1 + 1) * nrs); [field; done|].
      rewrite Hno2. unfold DagModel.abssq. rewrite <- Ha2. ring. }
    assert ((1 + 1) * g = norm) as Hg2.
    { rewrite Hg, (conj_div h), Hcn by done.
      transitivity ((1 + 1) * (conj um * e into + nrs) / norm); [field; done|]. rewrite Hkey. field. done. }
    split_and!; [done|done| |done| |].
    - unfold l. rewrite fsum_app. cbn [fsum]. rewrite Hui.
      rewrite (fsum_ext _ (fun k => abssq (e k) * (1 / (norm * norm)))).
      + rewrite fsum_mul_r. fold nrs. rewrite (conj_div h), Hcn by done.
        transitivity ((nrs + abssq um) / (norm * norm)); [unfold DagModel.abssq; field; done|].
        rewrite <- Hnm2. field. done.
      + intros k Hk. rewrite Huk by done. rewrite (conj_div h), Hcn by done. unfold DagModel.abssq. field. done.
    - intros k Hk. rewrite Huk by done.
      transitivity (e k - e k / norm * ((1 + 1) * g)); [ring|]. rewrite Hg2. field. done.
    - rewrite Hui. intros Hz.
      assert (e into - um / norm * ((1 + 1) * g) = 0) as Hz'.
      { rewrite <- Hz. ring. }
      rewrite Hg2 in Hz'.
      assert (e into - um = 0) as Hz2. { rewrite <- Hz'. field. done. }
      unfold um in Hz2. fold a in Hz2.
      assert (no * e into = 0) as Hz3.
      { transitivity (- (e into - (e into + no * e into / a)) * a); [field; done|]. rewrite Hz2. ring. }
      apply fmul_integral in Hz3 as [|]; done.
  Qed.

  Lemma hh_collect_ok (s : srabe) into l :
    (forall k, k ∈ l -> is_Some (q_em s !! (k, into))) ->
    hh_collect s into l = Ok ((fun k => (k, qe s k into)) <$> l).
  Proof.
    intros Hl. unfold hh_collect.
    destruct (mfor_ind (fun acc k => e ← d_get (q_em s) (k, into); Ok (acc ++ [(k, e)]))
      (fun pre (acc : list (N * K)) => acc = (fun k => (k, qe s k into)) <$> pre) l []) as (r & Hr & ->).
    - done.
    - intros pre a post acc Hsp ->. unfold d_get. assert (a ∈ l) as Ha by (rewrite Hsp; set_solver). rewrite (qe_some _ _ _ (Hl a Ha)).
      cbn [mbind res_bind]. eexists. split; [done|]. by rewrite fmap_app.
    - exact Hr.
  Qed.

  Lemma hh_vector_ok (s : srabe) into from :
    into ∉ from -> NoDup from ->
    (forall k, k ∈ from -> is_Some (q_em s !! (k, into))) -> is_Some (q_em s !! (into, into)) ->
    qe s into into <> 0 ->
    let e := fun k => qe s k into in
    let u := hh_u e into from in
    let l := from ++ [into] in
    let g := fsum (fun k => conj (u k) * e k) l in
    exists inject,
      hh_vector (h_conj h) (h_sqrt h) (h_abs h) s into from = Ok ((fun k => (k, u k)) <$> l, inject) /\
      inject = e into - (1 + 1) * u into * g.
  Proof.
    intros Hn Hnd Hfrom Hself Hne e u l g.
    destruct (hh_u_spec e into from Hn Hnd Hne) as (Ha & Hnorm & _ & Hg & _ & _).
    fold u in Hg. fold l in Hg. fold g in Hg.
    unfold hh_vector. rewrite hh_collect_ok by done. cbn [mbind res_bind].
    unfold d_get at 1. rewrite (qe_some _ _ _ Hself). cbn [mbind res_bind].
    fold (e into). rewrite decide_False by exact Ha.
    assert (fsum (fun p : N * K => abssq p.2) ((fun k => (k, qe s k into)) <$> from)
            = fsum (fun k => abssq (e k)) from) as Hs by (rewrite fsum_map; done).
    rewrite Hs. rewrite decide_False by exact Hnorm.
    eexists. split.
    - f_equal. f_equal. unfold l. rewrite fmap_app. f_equal.
      + rewrite <- list_fmap_compose. apply list_fmap_ext. intros i k Hk. simpl. f_equal.
        apply elem_of_list_lookup_2 in Hk. unfold u, hh_u.
        rewrite decide_False by (by intros ->). rewrite decide_True by done. done.
      + simpl. f_equal. f_equal. unfold u, hh_u. by rewrite decide_True.
    - rewrite Hg. unfold u at 1, hh_u. rewrite decide_True by done. reflexivity.
  Qed.
End vector.

Section house.
  Context {K : fld} {N : Type} `{Countable N} (h : herm K).
  Add Field FHH : (f_theory K).
  Notation srabe := (srabe K N).
  Notation conj := (h_conj h).
  Context (enum : gset N -> list N) (Henum : forall X, enum X ≡ₚ elements X).
  Context (V A B : gset N).
  Implicit Types (s : srabe) (u : N -> K) (l : list N).

  (** coefficients moved by [F]; edges are only added *)
  Record hinc s s' (F : N -> N -> K) : Prop := {
    hi_inv : dinv V A B s';
    hi_e : forall m n, m ∈ V ∪ A -> n ∈ V ∪ B -> qe s' m n = qe s m n + F m n;
    hi_em : forall m n, is_Some (q_em s !! (m, n)) -> is_Some (q_em s' !! (m, n));
  }.
  Lemma hinc_refl s : dinv V A B s -> hinc s s (fun _ _ => 0).
  Proof using Henum. intros. split; [done| |done]. intros. ring. Qed.
  Lemma hinc_trans s1 s2 s3 F G T :
    hinc s1 s2 F -> hinc s2 s3 G ->
    (forall m n, m ∈ V ∪ A -> n ∈ V ∪ B -> T m n = F m n + G m n) -> hinc s1 s3 T.
  Proof using Henum.
    intros [a b c] [a' b' c'] HT. split; [done| |auto]. intros m n Hm Hn. rewrite b', b, HT by done. ring.
  Qed.

  Lemma not_AV x : dinv V A B (SR ∅ ∅ ∅ ∅ ∅ : srabe) \/ V ## A -> x ∈ V -> x ∈ A -> False.
  Proof using Henum.
    intros [Hd|Hd]; [apply di_VA in Hd|]; intros; eauto using (proj1 (elem_of_disjoint V A) Hd).
  Qed.

  Lemma hh_upd_ok s f fe k uk :
    dinv V A B s -> k ∈ V -> f ∈ V ->
    exists s', hh_upd f fe s (k, uk) = Ok s' /\
      hinc s s' (delta k f (- ((1 + 1) * uk * fe))).
  Proof using Henum.
    intros Hd Hk Hf. pose proof Hd as [HVA HVB HAB [wseq wreq wra wsb] Ds Dr].
    unfold hh_upd. fold (qseq s k).
    destruct (decide (f ∈ qseq s k)) as [Hin|Hin].
    - pose proof Hin as Hin'. apply wseq in Hin' as [_ Hs]. unfold d_get. rewrite (qe_some _ _ _ Hs).
      cbn [mbind res_bind]. eexists; split; [done|].
      assert (forall m n, is_Some (<[(k, f) := qe s k f - (1 + 1) * uk * fe]> (q_em s) !! (m, n)) <-> is_Some (q_em s !! (m, n))) as Hsome.
      { intros m n. destruct (decide ((k, f) = (m, n))) as [[= -> ->]|Hne].
        - rewrite lookup_insert. split; eauto.
        - by rewrite lookup_insert_ne. }
      split.
      + split; try done. split; intros m n; cbn [with_em q_em]; rewrite Hsome; [apply wseq|apply wreq|apply wra|apply wsb].
      + intros m n _ _. unfold qe at 1, delta. cbn [with_em q_em].
        destruct (decide (m = k /\ n = f)) as [[-> ->]|Hne].
        * rewrite lookup_insert. simpl. ring.
        * rewrite lookup_insert_ne by (intros [= -> ->]; tauto). fold (qe s m n). ring.
      + intros m n. cbn [with_em q_em]. by rewrite Hsome.
    - eexists; split; [done|].
      assert (q_em s !! (k, f) = None) as Hnone.
      { apply eq_None_not_Some. intros Hs. apply Hin. by apply wseq. }
      assert (forall m n, is_Some (<[(k, f) := - (1 + 1) * uk * fe]> (q_em s) !! (m, n)) <->
                is_Some (q_em s !! (m, n)) \/ (m = k /\ n = f)) as Hsome.
      { intros m n. destruct (decide ((k, f) = (m, n))) as [[= -> ->]|Hne].
        - rewrite lookup_insert. split; eauto.
        - rewrite lookup_insert_ne by done. split; [auto|]. intros [|[-> ->]]; done. }
      split.
      + split; try done.
        * split; intros m n; cbn [q_em]; rewrite Hsome.
          -- unfold qseq. cbn [q_seq]. rewrite elem_add. fold (qseq s m). rewrite wseq.
             split; [intros [?|[-> ->]]; tauto|]. intros [[? ?] [?|[-> ->]]]; tauto.
          -- unfold qreq. cbn [q_req]. rewrite elem_add. fold (qreq s n). rewrite wreq.
             split; [intros [?|[-> ->]]; tauto|]. intros [[? ?] [?|[-> ->]]]; tauto.
          -- change (qra (SR _ _ _ _ _) n) with (qra s n). rewrite wra. split; [tauto|].
             intros [[? ?] [?|[-> ->]]]; [tauto|]. exfalso. eauto using (proj1 (elem_of_disjoint V A) HVA).
          -- change (qsb (SR _ _ _ _ _) m) with (qsb s m). rewrite wsb. split; [tauto|].
             intros [[? ?] [?|[-> ->]]]; [tauto|]. exfalso. eauto using (proj1 (elem_of_disjoint V B) HVB).
        * cbn [q_seq]. rewrite dom_add; [done|by rewrite Ds].
        * cbn [q_req]. rewrite dom_add; [done|by rewrite Dr].
      + intros m n _ _. unfold qe at 1, delta. cbn [q_em].
        destruct (decide (m = k /\ n = f)) as [[-> ->]|Hne].
        * rewrite lookup_insert. unfold qe. rewrite Hnone. simpl. ring.
        * rewrite lookup_insert_ne by (intros [= -> ->]; tauto). fold (qe s m n). ring.
      + intros m n Hs. cbn [q_em]. apply Hsome. auto.
  Qed.

  Lemma hh_apply_ok s u l f fe :
    dinv V A B s -> NoDup l -> (forall k, k ∈ l -> k ∈ V) -> f ∈ V ->
    exists s', hh_apply ((fun k => (k, u k)) <$> l) s (f, fe) = Ok s' /\
      hinc s s' (fun m n => if decide (m ∈ l /\ n = f) then - ((1 + 1) * u m * fe) else 0).
  Proof using Henum.
    intros Hd Hnd Hl Hf. unfold hh_apply. cbn [fst snd].
    assert (forall l2 l1, l = l1 ++ l2 -> forall s1,
      hinc s s1 (fun m n => if decide (m ∈ l1 /\ n = f) then - ((1 + 1) * u m * fe) else 0) ->
      exists s', mfor (hh_upd f fe) ((fun k => (k, u k)) <$> l2) s1 = Ok s' /\
        hinc s s' (fun m n => if decide (m ∈ l /\ n = f) then - ((1 + 1) * u m * fe) else 0)) as G.
    { induction l2 as [|k l2 IH]; intros l1 Hsp s1 Hi.
      - exists s1. rewrite app_nil_r in Hsp. subst. done.
      - rewrite fmap_cons. cbn [mfor].
        destruct (hh_upd_ok s1 f fe k (u k)) as (s2 & -> & Hi2); [apply Hi|apply Hl; subst; set_solver|done|].
        apply (IH (l1 ++ [k])); [by rewrite <- app_assoc|].
        eapply hinc_trans; [exact Hi|exact Hi2|]. intros m n _ _. cbv beta. unfold delta.
        rewrite Hsp in Hnd. apply NoDup_app in Hnd as (_ & Hnd & _).
        destruct (decide (m = k /\ n = f)) as [[-> ->]|Hne].
        + rewrite decide_True by (split; [app_solver|done]). rewrite decide_False; [ring|].
          intros [Hk _]. apply (Hnd k Hk). set_solver.
        + destruct (decide (m ∈ l1 /\ n = f)) as [[Hm ->]|Hm].
          * rewrite decide_True by (split; [app_solver|done]). ring.
          * rewrite decide_False; [ring|]. rewrite elem_of_app, elem_of_list_singleton. tauto. }
    apply (G l []); [done|]. eapply hinc_trans; [by apply hinc_refl|by apply hinc_refl|].
    intros m n _ _. cbv beta. rewrite decide_False; [ring|]. intros [Hn _]. by apply elem_of_nil in Hn.
  Qed.

  Lemma hh_gen_ok s u l f :
    dinv V A B s -> (forall k, k ∈ l -> k ∈ V) -> f ∈ V ->
    hh_gen (h_conj h) s ((fun k => (k, u k)) <$> l) f = Ok (fsum (fun k => conj (u k) * qe s k f) l).
  Proof using Henum.
    intros Hd Hl Hf. unfold hh_gen.
    assert (forall l acc, (forall k, k ∈ l -> k ∈ V) ->
      mfor (fun acc (ku : N * K) => if decide (ku.1 ∈ ds_get (q_req s) f) then
                          e ← d_get (q_em s) (ku.1, f); Ok (acc + conj ku.2 * e)
                        else Ok acc) ((fun k => (k, u k)) <$> l) acc
      = Ok (acc + fsum (fun k => conj (u k) * qe s k f) l)) as G.
    { clear l Hl. induction l as [|k l IH]; intros acc Hl.
      - cbn [fmap list_fmap mfor fsum]. f_equal. ring.
      - rewrite fmap_cons. cbn [mfor fst snd fsum].
        destruct (decide (k ∈ ds_get (q_req s) f)) as [Hk|Hk].
        + apply (dw_req _ _ _ _ (di_wf _ _ _ _ Hd)) in Hk as [_ Hs]. unfold d_get at 1. rewrite (qe_some _ _ _ Hs).
          cbn [mbind res_bind]. rewrite IH by (intros; apply Hl; set_solver). f_equal. ring.
        + rewrite IH by (intros; apply Hl; set_solver). rewrite (qe_none s k f); [f_equal; ring|].
          intros Hs. apply Hk, (dw_req _ _ _ _ (di_wf _ _ _ _ Hd)). split; [|done].
          split; [apply Hl; set_solver|done]. }
    rewrite G by done. f_equal. ring.
  Qed.

  Definition gens s u l (f : N) : K := fsum (fun k => conj (u k) * qe s k f) l.
  Lemma hh_gens_ok s u l :
    dinv V A B s -> (forall k, k ∈ l -> k ∈ V) ->
    hh_gens enum (h_conj h) s ((fun k => (k, u k)) <$> l) =
      Ok ((fun f => (f, gens s u l f)) <$> filter (fun f => gens s u l f <> 0) (enum V)).
  Proof using Henum.
    intros Hd Hl. unfold hh_gens. rewrite (di_req _ _ _ _ Hd).
    destruct (mfor_ind (fun acc fnode => gen ← hh_gen (h_conj h) s ((fun k => (k, u k)) <$> l) fnode;
                           Ok (if decide (gen = 0) then acc else acc ++ [(fnode, gen)]))
      (fun pre (acc : list (N * K)) => acc = (fun f => (f, gens s u l f)) <$> filter (fun f => gens s u l f <> 0) pre)
      (enum V) []) as (r & Hr & ->).
    - done.
    - intros pre f post acc Hsp ->. destruct (enum_split enum Henum _ _ _ _ Hsp) as (Hf & _ & _).
      rewrite hh_gen_ok by done. cbn [mbind res_bind]. eexists; split; [done|].
      fold (gens s u l f). rewrite filter_app, fmap_app, filter_cons, filter_nil.
      destruct (decide (gens s u l f = 0)) as [Hz|Hz].
      + rewrite decide_False by (intros Hx; by apply Hx). simpl. by rewrite app_nil_r.
      + rewrite decide_True by done. done.
    - exact Hr.
  Qed.

  Lemma hh_reflect_ok s u l :
    dinv V A B s -> NoDup l -> (forall k, k ∈ l -> k ∈ V) ->
    exists s', mfor (hh_apply ((fun k => (k, u k)) <$> l))
                 ((fun f => (f, gens s u l f)) <$> filter (fun f => gens s u l f <> 0) (enum V)) s = Ok s' /\
      hinc s s' (fun m n => if decide (m ∈ l /\ n ∈ V) then - ((1 + 1) * u m * gens s u l n) else 0).
  Proof using Henum.
    intros Hd Hnd Hl.
    set (fs := filter (fun f => gens s u l f <> 0) (enum V)).
    assert (NoDup fs) as Hfs. { apply NoDup_filter. by apply NoDup_enum. }
    assert (forall f, f ∈ fs <-> f ∈ V /\ gens s u l f <> 0) as Hin.
    { intros f. unfold fs. rewrite elem_of_list_filter, (elem_of_enum enum Henum). tauto. }
    assert (forall l2 l1, fs = l1 ++ l2 -> forall s1,
      hinc s s1 (fun m n => if decide (m ∈ l /\ n ∈ l1) then - ((1 + 1) * u m * gens s u l n) else 0) ->
      exists s', mfor (hh_apply ((fun k => (k, u k)) <$> l)) ((fun f => (f, gens s u l f)) <$> l2) s1 = Ok s' /\
        hinc s s' (fun m n => if decide (m ∈ l /\ n ∈ fs) then - ((1 + 1) * u m * gens s u l n) else 0)) as G.
    { induction l2 as [|f l2 IH]; intros l1 Hsp s1 Hi.
      - exists s1. rewrite app_nil_r in Hsp. rewrite Hsp. done.
      - rewrite fmap_cons. cbn [mfor].
        assert (f ∈ fs) as Hf by (rewrite Hsp; set_solver).
        destruct (hh_apply_ok s1 u l f (gens s u l f)) as (s2 & -> & Hi2); [apply Hi|done|done|by apply Hin|].
        apply (IH (l1 ++ [f])); [by rewrite <- app_assoc|].
        eapply hinc_trans; [exact Hi|exact Hi2|]. intros m n _ _. cbv beta.
        rewrite Hsp in Hfs. apply NoDup_app in Hfs as (_ & Hfs & _).
        destruct (decide (m ∈ l /\ n = f)) as [[Hm ->]|Hne].
        + rewrite decide_True by (split; [done|app_solver]). rewrite decide_False; [ring|].
          intros [_ Hk]. apply (Hfs f Hk). set_solver.
        + destruct (decide (m ∈ l /\ n ∈ l1)) as [[Hm Hn]|Hm].
          * rewrite decide_True by (split; [done|app_solver]). ring.
          * rewrite decide_False; [ring|]. rewrite elem_of_app, elem_of_list_singleton. tauto. }
    destruct (G fs [] eq_refl s) as (s' & Hm & Hi).
    { eapply hinc_trans; [by apply hinc_refl|by apply hinc_refl|].
      intros m n _ _. cbv beta. rewrite decide_False; [ring|]. intros [_ Hn]. by apply elem_of_nil in Hn. }
    exists s'. split; [done|]. eapply hinc_trans; [by apply hinc_refl|exact Hi|].
    intros m n _ _. cbv beta.
    destruct (decide (m ∈ l /\ n ∈ fs)) as [[Hm' Hn]|Hn].
    - rewrite decide_True; [ring|]. split; [done|]. by apply Hin.
    - destruct (decide (m ∈ l /\ n ∈ V)) as [[Hm' Hn']|]; [|ring].
      assert (gens s u l n = 0) as ->; [|ring].
      destruct (decide (gens s u l n = 0)); [done|]. exfalso. apply Hn. split; [done|]. by apply Hin.
  Qed.

  (** zeroing the reflected entries *)
  Lemma hh_zero_ok s into from :
    dinv V A B s -> NoDup from -> into ∈ V -> (forall k, k ∈ from -> k ∈ V) ->
    (forall k, k ∈ from -> is_Some (q_em s !! (k, into)) /\ qe s k into = 0) ->
    exists s', mfor (hh_zero into) from s = Ok s' /\ dinv V A B s' /\
      (forall m n, qe s' m n = qe s m n) /\
      (forall m n, is_Some (q_em s' !! (m, n)) <-> is_Some (q_em s !! (m, n)) /\ ~ (m ∈ from /\ n = into)).
  Proof using Henum.
    intros Hd Hnd Hi HfV Hfr.
    destruct (mfor_ind (hh_zero into) (fun pre s' => dinv V A B s' /\
      (forall m n, qe s' m n = qe s m n) /\
      (forall m n, is_Some (q_em s' !! (m, n)) <-> is_Some (q_em s !! (m, n)) /\ ~ (m ∈ pre /\ n = into)))
      from s) as (s' & Hm & H1 & H2 & H3).
    - split_and!; [done|done|]. intros m n. rewrite elem_of_nil. tauto.
    - intros pre k post s1 Hsp (H1 & H2 & H3).
      assert (k ∈ from) as Hk by (rewrite Hsp; set_solver).
      rewrite Hsp in Hnd. apply NoDup_app in Hnd as (_ & Hnd & _).
      assert (k ∉ pre) as Hkp. { intros Hkp. apply (Hnd k Hkp). set_solver. }
      destruct (Hfr k Hk) as [Hs Hz]. specialize (HfV k Hk).
      assert (is_Some (q_em s1 !! (k, into))) as Hs1 by (apply H3; tauto).
      pose proof H1 as [HVA HVB HAB [wseq wreq wra wsb] Ds Dr].
      unfold hh_zero. rewrite (ds_remove_ok (q_seq s1) k into) by (by apply wseq). cbn [mbind res_bind].
      rewrite ds_remove_ok by (by apply wreq). cbn [mbind res_bind].
      unfold d_del. rewrite (qe_some _ _ _ Hs1). cbn [mbind res_bind].
      eexists; split; [done|].
      assert (forall m n, is_Some (delete (k, into) (q_em s1) !! (m, n)) <-> is_Some (q_em s1 !! (m, n)) /\ ~ (m = k /\ n = into)) as Hsome.
      { intros m n. destruct (decide (m = k /\ n = into)) as [[-> ->]|Hne].
        - rewrite lookup_delete. split; [by intros [? ?]|tauto].
        - rewrite lookup_delete_ne by (intros [= -> ->]; tauto). tauto. }
      split_and!.
      + split; try done.
        * split; intros m n; cbn [q_em]; rewrite Hsome.
          -- unfold qseq. cbn [q_seq]. rewrite elem_remove. fold (qseq s1 m). rewrite wseq. tauto.
          -- unfold qreq. cbn [q_req]. rewrite elem_remove. fold (qreq s1 n). rewrite wreq. tauto.
          -- change (qra (SR _ _ _ _ _) n) with (qra s1 n). rewrite wra. split; [|tauto].
             intros [[? ?] ?]. split_and!; try done. intros [-> ->]. eauto using (proj1 (elem_of_disjoint V A) HVA).
          -- change (qsb (SR _ _ _ _ _) m) with (qsb s1 m). rewrite wsb. split; [|tauto].
             intros [[? ?] ?]. split_and!; try done. intros [-> ->]. eauto using (proj1 (elem_of_disjoint V B) HVB).
        * cbn [q_seq]. rewrite dom_insert_L, Ds. clear -HfV. set_solver.
        * cbn [q_req]. rewrite dom_insert_L, Dr. clear -Hi. set_solver.
      + intros m n. unfold qe at 1. cbn [q_em]. destruct (decide (m = k /\ n = into)) as [[-> ->]|Hne].
        * rewrite lookup_delete. simpl. by rewrite Hz.
        * rewrite lookup_delete_ne by (intros [= -> ->]; tauto). apply H2.
      + intros m n. cbn [q_em]. rewrite Hsome, H3, elem_of_app, elem_of_list_singleton. tauto.
    - exists s'. done.
  Qed.

  (** the beta edges *)
  Definition de (em : gmap (N * N) K) (m n : N) : K := default 0 (em !! (m, n)).
  Lemma hh_beta_fold u l em (b : N) c :
    NoDup l ->
    let em' := fold_left (fun em2 (kt : N * K) => lu_acc em2 kt.1 b (kt.2 * c)) ((fun k => (k, u k)) <$> l) em in
    (forall m n, de em' m n = de em m n + if decide (m ∈ l /\ n = b) then u m * c else 0) /\
    (forall m n, is_Some (em' !! (m, n)) <-> is_Some (em !! (m, n)) \/ (m ∈ l /\ n = b)).
  Proof using Henum.
    revert em. induction l as [|k l IH]; intros em Hnd em'; subst em'.
    - cbn [fmap list_fmap fold_left]. split.
      + intros m n. rewrite decide_False; [ring|]. intros [Hx _]. by apply elem_of_nil in Hx.
      + intros m n. rewrite elem_of_nil. tauto.
    - apply NoDup_cons in Hnd as [Hk Hnd]. rewrite fmap_cons. cbn [fold_left fst snd].
      destruct (IH (lu_acc em k b (u k * c)) Hnd) as [I1 I2]. split.
      + intros m n. rewrite I1. unfold de. rewrite lookup_lu_acc.
        destruct (decide (m = k /\ n = b)) as [[-> ->]|Hne].
        * rewrite decide_False by (intros [? _]; done). rewrite decide_True by (split; [set_solver|done]).
          simpl. ring.
        * destruct (decide (m ∈ l /\ n = b)) as [[Hm ->]|Hm].
          -- rewrite decide_True by (split; [set_solver|done]). done.
          -- rewrite decide_False; [done|]. rewrite elem_of_cons. tauto.
      + intros m n. rewrite I2, lookup_lu_acc, elem_of_cons.
        destruct (decide (m = k /\ n = b)) as [[-> ->]|Hne].
        * split; [auto|]. intros _. left. eauto.
        * tauto.
  Qed.
  Definition bgens s u l (b : N) : K := fsum (fun k => conj (u k) * qe s k b) l.
  Lemma hh_beta_ok s u l :
    dinv V A B s -> NoDup l -> (forall k, k ∈ l -> k ∈ V) ->
    exists em2, hh_beta enum (h_conj h) s ((fun k => (k, u k)) <$> l) = Ok em2 /\
      (forall m n, n ∈ B -> de em2 m n = if decide (m ∈ l) then - ((1 + 1) * u m * gens s u l n) else 0) /\
      (forall m n, is_Some (em2 !! (m, n)) -> m ∈ l /\ n ∈ B).
  Proof using Henum.
    intros Hd Hnd Hl. unfold hh_beta. set (ul := (fun k => (k, u k)) <$> l).
    pose proof Hd as [HVA HVB HAB [wseq wreq wra wsb] Ds Dr].
    (* one k *)
    assert (forall k em2, k ∈ V -> exists em2',
      mfor (hh_beta_one (h_conj h) s ul (k, u k)) (enum (ds_get (q_sb s) k)) em2 = Ok em2' /\
      (forall m n, n ∈ B -> de em2' m n = de em2 m n + if decide (m ∈ l) then u m * (- (1 + 1) * conj (u k) * qe s k n) else 0) /\
      (forall m n, is_Some (em2' !! (m, n)) -> is_Some (em2 !! (m, n)) \/ (m ∈ l /\ n ∈ B))) as Hone.
    { intros k em2 Hk.
      destruct (mfor_ind (hh_beta_one (h_conj h) s ul (k, u k)) (fun pre em2' =>
        (forall m n, de em2' m n = de em2 m n + if decide (m ∈ l /\ n ∈ pre) then u m * (- (1 + 1) * conj (u k) * qe s k n) else 0) /\
        (forall m n, is_Some (em2' !! (m, n)) -> is_Some (em2 !! (m, n)) \/ (m ∈ l /\ n ∈ B)))
        (enum (ds_get (q_sb s) k)) em2) as (em2' & Hm & I1 & I2).
      - split; [|auto]. intros m n. rewrite decide_False; [ring|]. intros [_ Hx]. by apply elem_of_nil in Hx.
      - intros pre b post em3 Hsp [I1 I2]. destruct (enum_split enum Henum _ _ _ _ Hsp) as (Hb & Hbp & _).
        apply wsb in Hb as [[_ HbB] Hs]. unfold hh_beta_one, d_get. cbn [fst snd]. rewrite (qe_some _ _ _ Hs).
        cbn [mbind res_bind]. eexists; split; [reflexivity|].
        destruct (hh_beta_fold u l em3 b (- (1 + 1) * conj (u k) * qe s k b) Hnd) as [J1 J2].
        fold ul in J1, J2. split.
        + intros m n. rewrite J1, I1.
          destruct (decide (m ∈ l /\ n = b)) as [[Hm ->]|Hne].
          * rewrite decide_False by (intros [_ ?]; done). rewrite decide_True by (split; [done|app_solver]). ring.
          * destruct (decide (m ∈ l /\ n ∈ pre)) as [[Hm Hn]|Hm].
            -- rewrite decide_True by (split; [done|app_solver]). ring.
            -- rewrite decide_False; [ring|]. rewrite elem_of_app, elem_of_list_singleton. tauto.
        + intros m n Hx. apply J2 in Hx as [Hx|[Hm ->]]; auto.
      - exists em2'. split_and!; [done| |done]. intros m n Hn. rewrite I1. f_equal.
        destruct (decide (m ∈ l)) as [Hm'|Hm'].
        + destruct (decide (m ∈ l /\ n ∈ enum (ds_get (q_sb s) k))) as [|Hx]; [done|].
          rewrite (qe_none s k n); [ring|]. intros Hs. apply Hx. split; [done|].
          apply (elem_of_enum enum Henum). apply wsb. auto.
        + rewrite decide_False; [done|tauto]. }
    assert (forall l2 em2, (forall k, k ∈ l2 -> k ∈ V) -> exists em2',
      mfor (fun em2 (ku : N * K) => mfor (hh_beta_one (h_conj h) s ul ku) (enum (ds_get (q_sb s) ku.1)) em2)
        ((fun k => (k, u k)) <$> l2) em2 = Ok em2' /\
      (forall m n, n ∈ B -> de em2' m n = de em2 m n + if decide (m ∈ l) then - ((1 + 1) * u m * gens s u l2 n) else 0) /\
      (forall m n, is_Some (em2' !! (m, n)) -> is_Some (em2 !! (m, n)) \/ (m ∈ l /\ n ∈ B))) as G.
    { induction l2 as [|k l2 IH]; intros em2 Hl2.
      - exists em2. split_and!; [done| |auto]. intros m n _. unfold gens. cbn [fsum]. destruct (decide _); ring.
      - rewrite fmap_cons. cbn [mfor fst].
        destruct (Hone k em2) as (em3 & -> & J1 & J2); [apply Hl2; set_solver|].
        destruct (IH em3) as (em4 & -> & J3 & J4); [intros; apply Hl2; set_solver|].
        exists em4. split_and!; [done| |].
        + intros m n Hn. rewrite J3, J1 by done. unfold gens. cbn [fsum]. destruct (decide _); ring.
        + intros m n Hx. apply J4 in Hx as [Hx|]; [|auto]. by apply J2. }
    destruct (G l ∅ Hl) as (em2' & Hm & J1 & J2). exists em2'. split_and!; [exact Hm| |].
    - intros m n Hn. rewrite J1 by done. unfold de. rewrite lookup_empty. simpl. ring.
    - intros m n Hx. apply J2 in Hx as [Hx|]; [|done]. rewrite lookup_empty in Hx. by destruct Hx.
  Qed.

  Lemma hh_beta_upd_ok s k b x :
    dinv V A B s -> k ∈ V -> b ∈ B ->
    exists s', hh_beta_upd s ((k, b), x) = Ok s' /\ hinc s s' (delta k b x) /\
      (forall m n, n ∉ B -> q_em s' !! (m, n) = q_em s !! (m, n)).
  Proof using Henum.
    intros Hd Hk Hb. pose proof Hd as [HVA HVB HAB [wseq wreq wra wsb] Ds Dr].
    unfold hh_beta_upd. fold (qsb s k).
    destruct (decide (b ∈ qsb s k)) as [Hin|Hin].
    - pose proof Hin as Hin'. apply wsb in Hin' as [_ Hs]. unfold d_get. rewrite (qe_some _ _ _ Hs).
      cbn [mbind res_bind]. eexists; split; [done|].
      assert (forall m n, is_Some (<[(k, b) := qe s k b + x]> (q_em s) !! (m, n)) <-> is_Some (q_em s !! (m, n))) as Hsome.
      { intros m n. destruct (decide ((k, b) = (m, n))) as [[= -> ->]|Hne].
        - rewrite lookup_insert. split; eauto.
        - by rewrite lookup_insert_ne. }
      split.
      + split.
        * split; try done. split; intros m n; cbn [with_em q_em]; rewrite Hsome; [apply wseq|apply wreq|apply wra|apply wsb].
        * intros m n _ _. unfold qe at 1, delta. cbn [with_em q_em].
          destruct (decide (m = k /\ n = b)) as [[-> ->]|Hne].
          -- rewrite lookup_insert. simpl. ring.
          -- rewrite lookup_insert_ne by (intros [= -> ->]; tauto). fold (qe s m n). ring.
        * intros m n. cbn [with_em q_em]. by rewrite Hsome.
      + intros m n Hn. cbn [with_em q_em]. rewrite lookup_insert_ne; [done|]. by intros [= -> ->].
    - eexists; split; [done|].
      assert (q_em s !! (k, b) = None) as Hnone.
      { apply eq_None_not_Some. intros Hs. apply Hin. apply wsb. auto. }
      assert (forall m n, is_Some (<[(k, b) := x]> (q_em s) !! (m, n)) <->
                is_Some (q_em s !! (m, n)) \/ (m = k /\ n = b)) as Hsome.
      { intros m n. destruct (decide ((k, b) = (m, n))) as [[= -> ->]|Hne].
        - rewrite lookup_insert. split; eauto.
        - rewrite lookup_insert_ne by done. split; [auto|]. intros [|[-> ->]]; done. }
      split.
      + split.
        * split; try done.
          split; intros m n; cbn [q_em]; rewrite Hsome.
          -- change (qseq (SR _ _ _ _ _) m) with (qseq s m). rewrite wseq. split; [tauto|].
             intros [[? ?] [?|[-> ->]]]; [tauto|]. exfalso. eauto using (proj1 (elem_of_disjoint V B) HVB).
          -- change (qreq (SR _ _ _ _ _) n) with (qreq s n). rewrite wreq. split; [tauto|].
             intros [[? ?] [?|[-> ->]]]; [tauto|]. exfalso. eauto using (proj1 (elem_of_disjoint V B) HVB).
          -- change (qra (SR _ _ _ _ _) n) with (qra s n). rewrite wra. split; [tauto|].
             intros [[? ?] [?|[-> ->]]]; [tauto|]. exfalso. eauto using (proj1 (elem_of_disjoint V A) HVA).
          -- unfold qsb. cbn [q_sb]. rewrite elem_add. fold (qsb s m). rewrite wsb.
             split; [intros [?|[-> ->]]; tauto|]. intros [[? ?] [?|[-> ->]]]; tauto.
        * intros m n _ _. unfold qe at 1, delta. cbn [q_em].
          destruct (decide (m = k /\ n = b)) as [[-> ->]|Hne].
          -- rewrite lookup_insert. unfold qe. rewrite Hnone. simpl. ring.
          -- rewrite lookup_insert_ne by (intros [= -> ->]; tauto). fold (qe s m n). ring.
        * intros m n Hs. cbn [q_em]. apply Hsome. auto.
      + intros m n Hn. cbn [q_em]. rewrite lookup_insert_ne; [done|]. by intros [= -> ->].
  Qed.
  Lemma hh_beta_upds_ok s (em2 : gmap (N * N) K) :
    dinv V A B s -> (forall m n, is_Some (em2 !! (m, n)) -> m ∈ V /\ n ∈ B) ->
    exists s', mfor hh_beta_upd (map_to_list em2) s = Ok s' /\ hinc s s' (de em2) /\
      (forall m n, n ∉ B -> q_em s' !! (m, n) = q_em s !! (m, n)).
  Proof using Henum.
    intros Hd Hem.
    destruct (mfor_ind hh_beta_upd (fun pre s' => hinc s s' (de (list_to_map pre)) /\
      (forall m n, n ∉ B -> q_em s' !! (m, n) = q_em s !! (m, n))) (map_to_list em2) s) as (s' & Hm & Hi & Hn).
    - split; [|done]. eapply hinc_trans; [by apply hinc_refl|by apply hinc_refl|].
      intros m n _ _. unfold de. simpl. rewrite lookup_empty. simpl. ring.
    - intros pre [[k b] x] post s1 Hsp [Hi Hn].
      assert (((k, b), x) ∈ map_to_list em2) as Hin by (rewrite Hsp; set_solver).
      pose proof (NoDup_fst_map_to_list em2) as Hnd. rewrite Hsp, fmap_app in Hnd.
      apply NoDup_app in Hnd as (_ & Hnd & _).
      apply elem_of_map_to_list in Hin. destruct (Hem k b) as [Hk Hb]; [by exists x|].
      destruct (hh_beta_upd_ok s1 k b x) as (s2 & He & Hi2 & Hn2); [apply Hi|done|done|].
      exists s2. split_and!; [done| |].
      + eapply hinc_trans; [exact Hi|exact Hi2|]. intros m n _ _. unfold de, delta.
        rewrite list_to_map_app, lookup_union. change (list_to_map [((k, b), x)]) with (<[(k, b) := x]> (∅ : gmap (N * N) K)).
        assert ((list_to_map pre : gmap (N * N) K) !! (k, b) = None) as Hnone.
        { apply not_elem_of_list_to_map_1. intros Hx. apply (Hnd (k, b) Hx). set_solver. }
        destruct (decide (m = k /\ n = b)) as [[-> ->]|Hne].
        * rewrite Hnone, lookup_insert. simpl. ring.
        * rewrite lookup_insert_ne by (intros [= -> ->]; tauto). rewrite lookup_empty.
          destruct (list_to_map pre !! (m, n)); simpl; ring.
      + intros m n Hnb. by rewrite Hn2, Hn.
    - exists s'. rewrite list_to_map_to_list in Hi. done.
  Qed.

  Lemma householder_row_ok s into from :
    dinv V A B s -> into ∈ V -> into ∉ from -> NoDup from ->
    (forall k, k ∈ from -> k ∈ V /\ is_Some (q_em s !! (k, into))) ->
    is_Some (q_em s !! (into, into)) -> qe s into into <> 0 ->
    exists s' (u : N -> K), householder_row enum (h_conj h) (h_sqrt h) (h_abs h) into from s = Ok s' /\
      dinv V A B s' /\
      gsum (fun k => u k * conj (u k)) V = 1 /\
      (forall m n, m ∈ V -> n ∈ V ∪ B ->
         qe s' m n = qe s m n - (1 + 1) * u m * gsum (fun j => conj (u j) * qe s j n) V) /\
      (forall m n, m ∈ A -> n ∈ V ∪ B -> qe s' m n = qe s m n) /\
      (forall k, k ∈ from -> q_em s' !! (k, into) = None) /\
      is_Some (q_em s' !! (into, into)) /\ qe s' into into <> 0.
  Proof using Henum.
    intros Hd Hi Hni Hnd Hfrom Hself Hne.
    pose proof Hd as [HVA HVB HAB Hwf Ds Dr].
    unfold householder_row. rewrite (check_node_ok enum Henum V A B) by done. cbn [mbind res_bind].
    set (e := fun k => qe s k into). set (u := hh_u h e into from). set (l := from ++ [into]).
    destruct (hh_vector_ok h s into from) as (inj & Hvec & Hinj); try done.
    { intros k Hk. by apply Hfrom. }
    fold e in Hvec, Hinj. fold u in Hvec, Hinj. fold l in Hvec, Hinj.
    rewrite Hvec. cbn [mbind res_bind].
    destruct (hh_u_spec h e into from Hni Hnd Hne) as (_ & _ & Hu1 & _ & Hz & Hnz).
    fold u in Hu1, Hz, Hnz. fold l in Hu1, Hz, Hnz.
    assert (NoDup l) as Hndl.
    { unfold l. apply NoDup_app. split_and!; [done| |apply NoDup_singleton].
      intros x Hx Hx'. apply elem_of_list_singleton in Hx'. by subst. }
    assert (forall k, k ∈ l -> k ∈ V) as HlV.
    { intros k Hk. unfold l in Hk. apply elem_of_app in Hk as [Hk|Hk%elem_of_list_singleton]; [by apply Hfrom|by subst]. }
    assert (forall m, m ∉ l -> u m = 0) as Hu0.
    { intros m Hm. unfold u, hh_u. unfold l in Hm. rewrite elem_of_app, elem_of_list_singleton in Hm.
      rewrite !decide_False by tauto. done. }
    rewrite hh_gens_ok by done. cbn [mbind res_bind].
    destruct (hh_reflect_ok s u l) as (s1 & -> & Hi1); [done..|]. cbn [mbind res_bind].
    assert (gens s u l into = fsum (fun k => conj (u k) * e k) l) as Hginto by reflexivity.
    assert (forall m n, m ∈ V -> n ∈ V -> qe s1 m n = qe s m n - (1 + 1) * u m * gens s u l n) as He1.
    { intros m n Hm Hn. rewrite (hi_e _ _ _ Hi1) by (apply elem_of_union; auto). cbv beta.
      destruct (decide (m ∈ l /\ n ∈ V)) as [|Hx]; [ring|].
      rewrite (Hu0 m); [ring|]. intros Hml. by apply Hx. }
    assert (qe s1 into into = inj) as Hinj1.
    { rewrite He1 by done. rewrite Hginto, Hinj. reflexivity. }
    set (s2 := with_em s1 (<[(into, into) := inj]> (q_em s1))).
    assert (q_em s2 = q_em s1) as Heq2.
    { unfold s2. cbn [with_em q_em]. apply insert_id. rewrite <- Hinj1. apply qe_some.
      apply (hi_em _ _ _ Hi1). done. }
    assert (s2 = s1) as ->.
    { unfold s2 in *. cbn [with_em q_em] in Heq2. rewrite Heq2. by destruct s1. }
    destruct (hh_zero_ok s1 into from) as (s3 & -> & Hd3 & Hq3 & Hs3); [apply Hi1|done|done| | |].
    { intros k Hk. by apply Hfrom. }
    { intros k Hk. destruct (Hfrom k Hk) as [HkV Hks]. split; [by apply (hi_em _ _ _ Hi1)|].
      rewrite He1 by done. rewrite Hginto. by apply Hz. }
    cbn [mbind res_bind].
    destruct (hh_beta_ok s3 u l) as (em2 & -> & Hb & HbV); [done..|]. cbn [mbind res_bind].
    destruct (hh_beta_upds_ok s3 em2) as (s4 & -> & Hi4 & Hn4); [done| |].
    { intros m n Hx. destruct (HbV m n Hx). auto. }
    cbn [mbind res_bind].
    rewrite (check_node_ok enum Henum V A B) by apply Hi4. cbn [mbind res_bind].
    assert (forall n, n ∈ V -> n ∉ B) as HnB.
    { intros n Hn Hb'. eauto using (proj1 (elem_of_disjoint V B) HVB). }
    assert (forall m n, n ∈ B -> m ∈ V ∪ A -> qe s1 m n = qe s m n) as HeB.
    { intros m n Hn Hm. rewrite (hi_e _ _ _ Hi1) by (auto || (apply elem_of_union; auto)). cbv beta.
      rewrite decide_False; [ring|]. intros [_ Hx]. by apply (HnB n). }
    assert (forall n, fsum (fun k => conj (u k) * qe s k n) l = gsum (fun j => conj (u j) * qe s j n) V) as Hgs.
    { intros n. rewrite <- gsum_list by done. apply gsum_subset.
      - intros x Hx. apply elem_of_list_to_set in Hx. auto.
      - intros x _ Hx. rewrite elem_of_list_to_set in Hx. rewrite (Hu0 x) by done. rewrite (conj_0 h). ring. }
    assert (forall m n, m ∈ V -> n ∈ V -> qe s4 m n = qe s1 m n) as HeV.
    { intros m n Hm Hn. rewrite <- Hq3. unfold qe. rewrite Hn4 by auto. done. }
    assert (forall n, n ∈ B -> gens s3 u l n = gens s u l n) as Hg3.
    { intros n Hn. unfold gens. apply fsum_ext. intros k Hk. rewrite Hq3, HeB; [done|done|].
      apply elem_of_union; auto. }
    exists s4, u. split; [done|]. split_and!.
    - apply Hi4.
    - rewrite <- Hu1. rewrite <- gsum_list by done. symmetry. apply gsum_subset.
      + intros x Hx. apply elem_of_list_to_set in Hx. auto.
      + intros x _ Hx. rewrite elem_of_list_to_set in Hx. rewrite (Hu0 x) by done. ring.
    - intros m n Hm Hn. rewrite <- Hgs. apply elem_of_union in Hn as [Hn|Hn].
      + rewrite HeV, He1 by done. reflexivity.
      + rewrite (hi_e _ _ _ Hi4), Hq3, HeB by (done || (apply elem_of_union; auto)).
        rewrite Hb, Hg3 by done. fold (gens s u l n).
        destruct (decide (m ∈ l)); [ring|]. rewrite (Hu0 m) by done. ring.
    - intros m n Hm Hn.
      assert (m ∉ l) as Hml. { intros Hx. apply HlV in Hx. eauto using (proj1 (elem_of_disjoint V A) HVA). }
      rewrite (hi_e _ _ _ Hi4), Hq3 by (done || (apply elem_of_union; auto)).
      rewrite (hi_e _ _ _ Hi1) by (done || (apply elem_of_union; auto)). cbv beta.
      rewrite decide_False by tauto.
      assert (de em2 m n = 0) as ->; [|ring].
      unfold de. destruct (em2 !! (m, n)) eqn:Hx; [|done]. destruct (HbV m n) as [? _]; [by exists f|done].
    - intros k Hk. rewrite Hn4 by auto. apply eq_None_not_Some. intros Hx. apply Hs3 in Hx as [_ Hx]. tauto.
    - rewrite Hn4 by auto. apply Hs3. split; [by apply (hi_em _ _ _ Hi1)|]. tauto.
    - rewrite HeV by done. rewrite Hinj1, Hinj. exact Hnz.
  Qed.
End house.
