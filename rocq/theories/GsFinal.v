(** Proofs of the theorems of GsProps.v. *)
From stdpp Require Import base tactics list numbers gmap fin_sets option.
From Verif Require Import Fld Py Herm ElecProofs GraphModel GsModel GsSpec GsProofs GsProofs2.
Local Open Scope fld_scope.

Section proofs.
  Context {K : fld} (h : herm K) {N : Type} `{Countable N}.
  Add Field FFg : (f_theory K).
  Notation sre := (graph K N).
  Notation conj := (h_conj h).
  Context (enum sort : gset N -> list N) (large : K -> bool).
  Context (Henum : forall s, enum s ≡ₚ elements s) (Hsort : forall s, sort s ≡ₚ elements s) (Hlarge : large 0 = false).

  Lemma res_ext (D : gset N) (u v : N -> N -> K) l a b t : (forall k t, k ∈ l -> u k t = v k t) -> (forall t, a t = b t) -> residual h D u l a t = residual h D v l b t.
  Proof.
    intros Eu Ea. unfold residual. rewrite Ea. f_equal. apply fsum_ext. intros k Hk. rewrite (Eu k t Hk). f_equal. apply inner_ext; intros; auto.
  Qed.
  Lemma build_step (em : gmap (N * N) K) (D : gset N) (ks : list N) (g : sre) k : D = rows (em : gmap (N * N) K) -> valid D ks g -> orthonormal h D ks (entry (g_em g)) -> k ∉ ks ->
    let w := residual h D (entry (g_em g)) ks (entry em k) in let n := h_sqrt h (inner h D w w) in
    exists (b : bool) (g' : sre), (forall post, build h enum large em (k :: post) g = if b then build h enum large em post g' else Ok None) /\ valid D (ks ++ [k]) g' /\ (b = true <-> exists t, large (w t) = true) /\
      (forall t, entry (g_em g') k t = if large (w t) then w t / n else 0) /\ (forall k' t, k' <> k -> entry (g_em g') k' t = entry (g_em g) k' t).
  Proof.
    intros -> HV Ho Hk w n. destruct (column_ok enum sort large Henum Hsort Hlarge em k) as (v & Ev & Hv & Hd).
    destruct (gs_step h enum sort large Henum Hsort Hlarge (rows em) g ks v k HV Ho Hk Hd) as (b & g' & E & HV' & Hb & He & Ho').
    assert (Ew : forall t, residual h (rows em) (entry (g_em g)) ks (vget v) t = w t) by (intros; by apply res_ext).
    exists b, g'. split; [intros post; cbn [build]; rewrite Ev; cbn [mbind res_bind]; by rewrite E|]. split; [done|]. split; [rewrite Hb; by setoid_rewrite Ew|]. split; [|done].
    intros t. rewrite He, Ew. unfold n. by rewrite (inner_ext h (rows em) _ _ w w) by (intros; apply Ew).
  Qed.
  Lemma valid_nil D : valid D [] (Graph ∅ ∅ ∅ : sre).
  Proof.
    split; [|split; [|split]].
    - intros k t. cbn [g_seq g_req g_em]. rewrite !lookup_empty. cbn. split; (split; [set_solver|by intros [? ?]]).
    - intros k t. cbn [g_em]. rewrite lookup_empty. by intros [? ?].
    - constructor.
    - cbn. by rewrite dom_empty_L.
  Qed.
  Lemma sorted_cols (em : gmap (N * N) K) : NoDup (sort (dom (targets em))) /\ forall k, k ∈ sort (dom (targets em : gmap N (gset N))) <-> k ∈ cols (em : gmap (N * N) K).
  Proof. rewrite (targets_dom enum sort large Henum Hsort Hlarge). split; [rewrite Hsort; apply NoDup_elements|]. intros k. rewrite (Hsort (cols em)). apply elem_of_elements. Qed.

  (** a known decomposition is found *)
  Definition agrees (g : sre) (ks : list N) (u : N -> N -> K) : Prop := forall k t, k ∈ ks -> entry (g_em g) k t = u k t.
  Lemma build_known (em : gmap (N * N) K) u r post : forall pre g, valid (rows em) pre g -> agrees g pre u -> NoDup (pre ++ post) -> orthonormal h (rows em) (pre ++ post) u -> triangular h (pre ++ post) (entry em) u r ->
    (forall k t, k ∈ pre ++ post -> t ∉ rows em -> u k t = 0) -> (forall k t, k ∈ pre ++ post -> u k t = 0 \/ large (r k * u k t) = true) ->
    exists g', (forall rest, build h enum large em (post ++ rest) g = build h enum large em rest g') /\ valid (rows em) (pre ++ post) g' /\ agrees g' (pre ++ post) u.
  Proof.
    induction post as [|k post IH]; intros pre g HV Ha Hn Ho Ht Hz Hl.
    - exists g. rewrite app_nil_r. done.
    - assert (Hin : forall k', k' ∈ pre -> k' ∈ pre ++ k :: post) by (intros; apply elem_of_app; by left). assert (Hk : k ∈ pre ++ k :: post) by (apply elem_of_app; right; by left).
      assert (Hk' : k ∉ pre) by (apply NoDup_app in Hn as (_ & Hd & _); intros Hi; apply (Hd k Hi); by left).
      assert (Hnp : NoDup pre) by (by apply NoDup_app in Hn as (? & _)).
      assert (Hop : orthonormal h (rows em) pre (entry (g_em g))).
      { apply (ortho_ext h (rows em) pre u); [intros; symmetry; by apply Ha|]. intros x y Hx Hy. apply Ho; auto. }
      destruct (Ht pre k post eq_refl) as [[Hp1 Hp0] [c Hc]].
      assert (Hin0 : forall k', k' ∈ pre -> inner h (rows em) (u k') (entry em k) = c k').
      { intros k' Hk1. rewrite (inner_ext h (rows em) (u k') (entry em k) (u k') (fun t => fsum (fun x => c x * u x t) pre + r k * u k t)) by (done || intros; apply Hc).
        rewrite inner_add, inner_mul, (inner_sum h (rows em) (u k') c u pre).
        rewrite (Ho k' k) by auto. rewrite decide_False by (intros ->; done).
        rewrite (fsum_ext _ (fun x => if decide (x = k') then c x else 0)).
        - rewrite fsum_delta, decide_True by done. ring.
        - intros x Hx. rewrite (Ho k' x) by auto. destruct (decide (k' = x)) as [->|?]; [rewrite decide_True by done; ring|rewrite decide_False by done; ring]. }
      destruct (build_step em (rows em) pre g k eq_refl HV Hop Hk') as (b & g' & Eb & HV' & Hb & He & Hoth).
      set (w := residual h (rows em) (entry (g_em g)) pre (entry em k)) in *.
      assert (Ew : forall t, w t = r k * u k t).
      { intros t. unfold w. rewrite (res_ext (rows em) _ u pre _ (entry em k)) by (done || intros; by apply Ha). unfold residual. rewrite Hc.
        rewrite (fsum_ext (fun k' => inner h (rows em) (u k') (entry em k) * u k' t) (fun k' => c k' * u k' t)) by (intros; by rewrite Hin0). ring. }
      assert (En : h_sqrt h (inner h (rows em) w w) = r k).
      { assert (Ei : inner h (rows em) w w = r k * r k).
        { rewrite (inner_ext h (rows em) w w (fun t => r k * u k t) (fun t => r k * u k t)) by (intros; apply Ew). rewrite inner_mul, inner_mul_l, (Ho k k), decide_True by done. rewrite (h_nn_conj K h) by done. ring. }
        apply (sqrt_unique h); [done|apply (h_sqrt_nn K h), inner_nn|]. rewrite (h_sqrt_sq K h) by apply inner_nn. done. }
      assert (Hbt : b = true).
      { apply Hb. destruct (decide (Exists (fun t => u k t <> 0) (elements (rows em)))) as [(t & _ & Hu)%Exists_exists|Hno].
        - exists t. rewrite Ew. destruct (Hl k t Hk) as [?|?]; done.
        - exfalso. assert (Hk1 := Ho k k Hk Hk). rewrite decide_True in Hk1 by done. apply (@f1_neq_0 K). rewrite <- Hk1. unfold inner. apply fsum_0. intros t Ht'.
          destruct (decide (u k t = 0)) as [E0|Hne]; [rewrite E0; ring|]. exfalso. apply Hno, Exists_exists. by exists t. }
      subst b.
      assert (Ha' : agrees g' (pre ++ [k]) u).
      { intros k1 t [Hk1| ->%elem_of_list_singleton]%elem_of_app.
        - rewrite Hoth by (intros ->; done). by apply Ha.
        - rewrite He, En, Ew. destruct (Hl k t Hk) as [E0|Hlg].
          + rewrite E0. assert (E1 : r k * 0 = 0) by ring. rewrite E1, Hlarge. done.
          + rewrite Hlg. field. done. }
      destruct (IH (pre ++ [k]) g' HV' Ha') as (g2 & E2 & HV2 & Ha2); rewrite <- ?app_assoc; cbn [app]; try done.
      exists g2. split; [intros rest; cbn [app]; rewrite Eb; apply E2|]. rewrite <- app_assoc in HV2, Ha2. done.
  Qed.
  Lemma C92_complete_lem (em : gmap (N * N) K) u r : orthonormal h (rows em) (sort (cols em)) u -> triangular h (sort (cols em)) (entry em) u r ->
    (forall k t, k ∉ cols em \/ t ∉ rows em -> u k t = 0) -> (forall k t, k ∈ cols em -> u k t = 0 \/ large (r k * u k t) = true) ->
    exists g, edge_matrix_to_unitary h enum sort large em = Ok (Some g) /\ consistent g /\ forall k t, entry (g_em g) k t = u k t.
  Proof.
    intros Ho Ht Hz Hl. destruct (sorted_cols em) as [Hn Hi]. unfold edge_matrix_to_unitary. rewrite (targets_dom enum sort large Henum Hsort Hlarge) in *.
    destruct (build_known em u r (sort (cols em)) [] (Graph ∅ ∅ ∅) (valid_nil _)) as (g & E & HV & Ha); try done.
    - by intros k t ?%elem_of_nil.
    - intros k t _ Ht'. apply Hz. by right.
    - intros k t Hk. apply Hl. by apply Hi.
    - exists g. rewrite <- (app_nil_r (sort (cols em))) at 1. rewrite E. split; [done|]. split; [apply HV|]. intros k t. cbn [app] in Ha, HV. destruct (decide (k ∈ sort (cols em))) as [Hk|Hk]; [by apply Ha|].
      rewrite Hz by (left; intros ?; by apply Hk, Hi). unfold entry. by rewrite (valid_entry enum sort large Henum Hsort Hlarge (rows em) _ g k t HV).
  Qed.
  Lemma tri_prefix (pre post : list N) a u r : triangular h (pre ++ post) a u r -> triangular h pre a u r.
  Proof. intros Ht p k q ->. apply (Ht p k (q ++ post)). by rewrite <- app_assoc. Qed.
  Lemma C92_dependent_lem (em : gmap (N * N) K) u r pre k post (c : N -> K) : sort (cols em) = pre ++ k :: post -> orthonormal h (rows em) pre u -> triangular h pre (entry em) u r ->
    (forall k t, k ∈ pre -> t ∉ rows em -> u k t = 0) -> (forall k t, k ∈ pre -> u k t = 0 \/ large (r k * u k t) = true) ->
    (forall t, entry em k t = fsum (fun k' => c k' * u k' t) pre) -> edge_matrix_to_unitary h enum sort large em = Ok None.
  Proof.
    intros Es Ho Ht Hz Hl Hc. destruct (sorted_cols em) as [Hn Hi]. unfold edge_matrix_to_unitary. rewrite (targets_dom enum sort large Henum Hsort Hlarge) in *. rewrite Es in *.
    assert (Hnp : NoDup pre) by (by apply NoDup_app in Hn as (? & _)).
    destruct (build_known em u r pre [] (Graph ∅ ∅ ∅) (valid_nil _)) as (g & E & HV & Ha); try done.
    { by intros k' t ?%elem_of_nil. }
    rewrite E. cbn [app] in HV, Ha. assert (Hk : k ∉ pre) by (apply NoDup_app in Hn as (_ & Hd & _); intros Hk; apply (Hd k Hk); by left).
    assert (Hop : orthonormal h (rows em) pre (entry (g_em g))) by (apply (ortho_ext h (rows em) pre u); [intros; symmetry; by apply Ha|done]).
    destruct (build_step em (rows em) pre g k eq_refl HV Hop Hk) as (b & g' & Eb & HV' & Hb & He & Hoth). rewrite Eb. destruct b; [|done]. exfalso.
    destruct (proj1 Hb eq_refl) as [t Hlg]. set (w := residual h (rows em) (entry (g_em g)) pre (entry em k)) in *.
    assert (Ew : w t = 0).
    { unfold w. rewrite (res_ext (rows em) _ u pre _ (entry em k)) by (done || intros; by apply Ha). unfold residual. rewrite Hc.
      rewrite (fsum_ext (fun k' => inner h (rows em) (u k') (entry em k) * u k' t) (fun k' => c k' * u k' t)); [ring|]. intros k' Hk1. f_equal.
      rewrite (inner_ext h (rows em) (u k') (entry em k) (u k') (fun t => fsum (fun x => c x * u x t) pre)) by (done || intros; apply Hc).
      rewrite (inner_sum h (rows em) (u k') c u pre). rewrite (fsum_ext _ (fun x => if decide (x = k') then c x else 0)).
      - by rewrite fsum_delta, decide_True by done.
      - intros x Hx. rewrite (Ho k' x) by done. destruct (decide (k' = x)) as [->|?]; [rewrite decide_True by done; ring|rewrite decide_False by done; ring]. }
    rewrite Ew in Hlg. congruence.
  Qed.

  (** what is found *)
  Definition spanned (ks : list N) (a u : N -> N -> K) : Prop := forall k, k ∈ ks -> exists d : N -> K, forall t, u k t = fsum (fun k' => d k' * a k' t) ks.
  Definition lead (em : gmap (N * N) K) (g : sre) (k : N) : K := inner h (rows em) (entry (g_em g) k) (entry em k).
  Lemma fsum_single (d : N -> K) (k : N) (f : N -> K) : fsum (fun k' => d k' * f k') [k] = d k * f k.
  Proof. cbn [fsum]. ring. Qed.
  Lemma build_sound (em : gmap (N * N) K) (Hl0 : forall x, large x = true <-> x <> 0) post : forall pre g, valid (rows em) pre g -> NoDup (pre ++ post) -> orthonormal h (rows em) pre (entry (g_em g)) ->
    triangular h pre (entry em) (entry (g_em g)) (lead em g) -> spanned pre (entry em) (entry (g_em g)) ->
    (exists g', build h enum large em post g = Ok (Some g') /\ valid (rows em) (pre ++ post) g' /\ orthonormal h (rows em) (pre ++ post) (entry (g_em g')) /\ triangular h (pre ++ post) (entry em) (entry (g_em g')) (lead em g')) \/
    (build h enum large em post g = Ok None /\ exists k, dependent (pre ++ post) (entry em) k).
  Proof.
    induction post as [|k post IH]; intros pre g HV Hn Ho Ht Hs; [left; exists g; rewrite app_nil_r; done|].
    assert (Hk' : k ∉ pre) by (apply NoDup_app in Hn as (_ & Hd & _); intros Hi; apply (Hd k Hi); by left).
    assert (Hnp : NoDup pre) by (by apply NoDup_app in Hn as (? & _)).
    destruct (build_step em (rows em) pre g k eq_refl HV Ho Hk') as (b & g' & Eb & HV' & Hb & He & Hoth).
    set (u := entry (g_em g)) in *. set (w := residual h (rows em) u pre (entry em k)) in *. set (n := h_sqrt h (inner h (rows em) w w)) in *.
    (** the column is what it has along the earlier ones, and the rest *)
    assert (Edec : forall t, entry em k t = fsum (fun k' => inner h (rows em) (u k') (entry em k) * u k' t) pre + w t) by (intros; unfold w, residual; ring).
    (** coefficients in terms of the columns of the input *)
    assert (Hcomb : forall (c : N -> K), exists d : N -> K, forall t, fsum (fun k' => c k' * u k' t) pre = fsum (fun k' => d k' * entry em k' t) pre).
    { intros c. revert Hs. unfold spanned. clear -h. generalize pre at 1 3. intros l Hs. induction l as [|k1 l IHl].
      - exists (fun _ => 0). intros t. cbn [fsum]. symmetry. apply fsum_0. intros. ring.
      - destruct IHl as [d Hd]; [intros; apply Hs; by right|]. destruct (Hs k1) as [d1 Hd1]; [by left|]. exists (fun k' => c k1 * d1 k' + d k'). intros t. cbn [fsum]. rewrite Hd, Hd1.
        rewrite <- fsum_mul_l, <- fsum_add. apply fsum_ext. intros. ring. }
    destruct b.
    - rewrite Eb. assert (Hw : exists t, w t <> 0) by (destruct (proj1 Hb eq_refl) as [t Hlg]; exists t; by apply Hl0).
      assert (Hwout : forall t, t ∉ rows em -> w t = 0).
      { intros t Ht'. unfold w, residual. rewrite (fsum_0 (fun k' => inner h (rows em) (u k') (entry em k) * u k' t)).
        - assert (E0 : entry em k t = 0); [|rewrite E0; ring]. unfold entry. destruct (em !! (k, t)) eqn:E; [|done]. exfalso. apply Ht'. apply elem_of_map. exists (k, t). split; [done|]. apply elem_of_dom. by rewrite E.
        - intros k1 _. unfold u. rewrite (valid_out (rows em) pre g) by done. ring. }
      assert (Hi0 : inner h (rows em) w w <> 0).
      { intros E. destruct Hw as [t Hw]. apply Hw. destruct (decide (t ∈ rows em)) as [Hi|Hi]; [by apply (inner_0 h (rows em) w E)|by apply Hwout]. }
      assert (Hn2 : n * n = inner h (rows em) w w) by (apply (h_sqrt_sq K h), inner_nn).
      assert (Hnn : h_nn h n) by (apply (h_sqrt_nn K h), inner_nn).
      assert (Hn0 : n <> 0) by (intros E; apply Hi0; rewrite <- Hn2, E; ring).
      assert (He' : forall t, entry (g_em g') k t = (1 / n) * w t).
      { intros t. rewrite He. destruct (large (w t)) eqn:El; [field; done|]. destruct (decide (w t = 0)) as [E0|Hne]; [rewrite E0; ring|]. apply Hl0 in Hne. congruence. }
      assert (Hold : forall k' t, k' ∈ pre -> u k' t = entry (g_em g') k' t) by (intros k1 t Hk1; unfold u; rewrite Hoth; [done|]; intros ->; done).
      assert (Hiw : forall k', k' ∈ pre -> inner h (rows em) (u k') w = 0) by (intros; by apply (res_orth h (rows em) pre u)).
      assert (Hcn : conj (1 / n) = 1 / n) by (rewrite (conj_div h) by done; rewrite conj_1, (h_nn_conj K h) by done; done).
      assert (Ho' : orthonormal h (rows em) (pre ++ [k]) (entry (g_em g'))).
      { apply ortho_snoc; [by apply (ortho_ext h (rows em) pre u)| | |done].
        - intros k1 Hk1. rewrite (inner_ext h (rows em) _ _ (u k1) (fun t => 1 / n * w t)) by (intros; (symmetry; by apply Hold) || apply He'). rewrite inner_mul, Hiw by done. ring.
        - rewrite (inner_ext h (rows em) _ _ (fun t => 1 / n * w t) (fun t => 1 / n * w t)) by (intros; apply He'). rewrite inner_mul, inner_mul_l, Hcn, <- Hn2. field. done. }
      assert (Hlead : lead em g' k = n).
      { unfold lead. rewrite (inner_ext h (rows em) _ _ (fun t => 1 / n * w t) (fun t => fsum (fun k' => inner h (rows em) (u k') (entry em k) * u k' t) pre + w t)) by (intros; apply He' || apply Edec).
        rewrite inner_mul_l, inner_add, (inner_sum h (rows em) w (fun k' => inner h (rows em) (u k') (entry em k)) u pre), Hcn, <- Hn2.
        rewrite fsum_0; [field; done|]. intros k1 Hk1. rewrite (inner_conj h (rows em) (u k1) w), Hiw by done. rewrite conj_0. ring. }
      assert (Ht' : triangular h (pre ++ [k]) (entry em) (entry (g_em g')) (lead em g')).
      { apply tri_snoc.
        - apply (tri_ext h pre (entry em) u (entry (g_em g')) (lead em g)); [done| |done]. intros k1 Hk1. unfold lead. apply inner_ext; [|done]. intros t _. by apply Hold.
        - rewrite Hlead. done.
        - exists (fun k' => inner h (rows em) (u k') (entry em k)). intros t. rewrite Hlead, He', Edec at 1. f_equal; [apply fsum_ext; intros k1 Hk1; by rewrite (Hold k1 t Hk1)|]. field. done. }
      assert (Hs' : spanned (pre ++ [k]) (entry em) (entry (g_em g'))).
      { intros k1 Hk1. apply elem_of_app in Hk1 as [Hk1| ->%elem_of_list_singleton].
        - destruct (Hs k1 Hk1) as [d Hd]. exists (fun k' => if decide (k' = k) then 0 else d k'). intros t. rewrite <- Hold by done. rewrite Hd. rewrite fsum_app. rewrite fsum_single. rewrite decide_True by done.
          rewrite (fsum_ext (fun k' => (if decide (k' = k) then 0 else d k') * entry em k' t) (fun k' => d k' * entry em k' t)); [ring|]. intros k2 Hk2. rewrite decide_False by (intros ->; done). done.
        - destruct (Hcomb (fun k' => inner h (rows em) (u k') (entry em k))) as [d Hd]. exists (fun k' => if decide (k' = k) then 1 / n else - (1 / n) * d k'). intros t. rewrite He'.
          rewrite fsum_app, fsum_single. rewrite decide_True by done.
          rewrite (fsum_ext _ (fun k' => - (1 / n) * (d k' * entry em k' t))); [|intros k2 Hk2; rewrite decide_False by (intros ->; done); ring].
          rewrite fsum_mul_l, <- Hd. rewrite (Edec t). ring. }
      destruct (IH (pre ++ [k]) g' HV') as [(g2 & E2 & R)|(E2 & R)]; [rewrite <- app_assoc; done|done|done|done| |]; rewrite <- app_assoc in R; [left; exists g2; done|by right].
    - right. rewrite Eb. split; [done|]. exists k. destruct (Hcomb (fun k' => inner h (rows em) (u k') (entry em k))) as [d Hd]. exists pre, post, d. split; [done|].
      intros t. rewrite <- Hd. rewrite Edec. assert (E0 : w t = 0); [|rewrite E0; ring]. destruct (decide (w t = 0)) as [|Hne]; [done|]. exfalso. assert (Hx : false = true); [|done]. apply Hb. exists t. by apply Hl0.
  Qed.
  Lemma C92_sound_lem (em : gmap (N * N) K) : (forall x, large x = true <-> x <> 0) ->
    (exists g, edge_matrix_to_unitary h enum sort large em = Ok (Some g) /\ consistent g /\ (forall k t, k ∉ cols em \/ t ∉ rows em -> entry (g_em g) k t = 0) /\
      orthonormal h (rows em) (sort (cols em)) (entry (g_em g)) /\ triangular h (sort (cols em)) (entry em) (entry (g_em g)) (fun k => inner h (rows em) (entry (g_em g) k) (entry em k))) \/
    (edge_matrix_to_unitary h enum sort large em = Ok None /\ exists k, dependent (sort (cols em)) (entry em) k).
  Proof.
    intros Hl0. destruct (sorted_cols em) as [Hn Hi]. unfold edge_matrix_to_unitary. rewrite (targets_dom enum sort large Henum Hsort Hlarge) in *.
    destruct (build_sound em Hl0 (sort (cols em)) [] (Graph ∅ ∅ ∅) (valid_nil _)) as [(g & E & HV & Ho & Ht)|R]; [done|by intros k k' ?%elem_of_nil| |by intros k ?%elem_of_nil| |by right].
    - intros pre k post E. by destruct pre.
    - left. exists g. split; [done|]. cbn [app] in *. split; [apply HV|]. split; [|split; [done|exact Ht]].
      intros k t [Hk|Ht']; [|by apply (valid_out (rows em) (sort (cols em)) g)]. unfold entry. rewrite (valid_entry enum sort large Henum Hsort Hlarge (rows em) (sort (cols em)) g k t HV); [done|]. intros ?. by apply Hk, Hi.
  Qed.
End proofs.
