(** Proofs about the orthonormal columns. *)
From stdpp Require Import base tactics list numbers gmap fin_sets option.
From Verif Require Import Fld Py Herm ElecProofs GraphModel GsModel GsSpec.
Local Open Scope fld_scope.

Section proofs.
  Context {K : fld} (h : herm K) {N : Type} `{Countable N}.
  Add Field FFg : (f_theory K).
  Notation sre := (graph K N).
  Notation conj := (h_conj h).
  Context (enum sort : gset N -> list N) (large : K -> bool).
  Context (Henum : forall s, enum s ≡ₚ elements s).

  Lemma enum_in s k : k ∈ enum s <-> k ∈ s.
  Proof. rewrite (Henum s). apply elem_of_elements. Qed.
  Lemma enum_nodup s : NoDup (enum s).
  Proof. rewrite (Henum s). apply NoDup_elements. Qed.
  Lemma fsum_enum (f : N -> K) s D : s ⊆ D -> (forall k, k ∈ D -> k ∉ s -> f k = 0) -> fsum f (enum s) = fsum f (elements D).
  Proof.
    intros Hs Hz. apply fsum_sub_list; [apply _|apply enum_nodup|apply NoDup_elements| |].
    - intros k Hk%enum_in. apply elem_of_elements. auto.
    - intros k Hk%elem_of_elements Hn. apply Hz; [done|]. intros Hi. by apply Hn, enum_in.
  Qed.

  (** inner products *)
  Lemma inner_sub (D : gset N) u v w : inner h D u (fun t => v t - w t) = inner h D u v - inner h D u w.
  Proof. unfold inner. rewrite <- fsum_sub. apply fsum_ext. intros. ring. Qed.
  Lemma inner_add (D : gset N) u v w : inner h D u (fun t => v t + w t) = inner h D u v + inner h D u w.
  Proof. unfold inner. rewrite <- fsum_add. apply fsum_ext. intros. ring. Qed.
  Lemma inner_mul (D : gset N) u c v : inner h D u (fun t => c * v t) = c * inner h D u v.
  Proof. unfold inner. rewrite <- fsum_mul_l. apply fsum_ext. intros. ring. Qed.
  Lemma inner_mul_l (D : gset N) u c v : inner h D (fun t => c * u t) v = conj c * inner h D u v.
  Proof. unfold inner. rewrite <- fsum_mul_l. apply fsum_ext. intros. rewrite (h_conj_mul K h). ring. Qed.
  Lemma inner_sum (D : gset N) u {A} (c : A -> K) (v : A -> N -> K) l : inner h D u (fun t => fsum (fun a => c a * v a t) l) = fsum (fun a => c a * inner h D u (v a)) l.
  Proof.
    unfold inner. rewrite (fsum_ext _ (fun t => fsum (fun a => c a * (conj (u t) * v a t)) l)).
    2: { intros t _. rewrite <- fsum_mul_l. apply fsum_ext. intros. ring. }
    rewrite fsum_swap. apply fsum_ext. intros a _. by rewrite <- fsum_mul_l.
  Qed.
  Lemma inner_conj (D : gset N) u v : inner h D v u = conj (inner h D u v).
  Proof. unfold inner. rewrite conj_fsum. apply fsum_ext. intros. rewrite (h_conj_mul K h), (h_conj_conj K h). ring. Qed.
  Lemma inner_ext (D : gset N) u v u' v' : (forall t, t ∈ D -> u t = u' t) -> (forall t, t ∈ D -> v t = v' t) -> inner h D u v = inner h D u' v'.
  Proof. intros Hu Hv. unfold inner. apply fsum_ext. intros t Ht%elem_of_elements. by rewrite Hu, Hv. Qed.
  Lemma inner_nn (D : gset N) u : h_nn h (inner h D u u).
  Proof. unfold inner. apply nn_fsum. intros t _. replace (conj (u t) * u t) with (u t * conj (u t)) by ring. apply (h_nn_sq K h). Qed.
  Lemma fsum_nn_0 (f : N -> K) l : (forall t, t ∈ l -> h_nn h (f t)) -> fsum f l = 0 -> forall t, t ∈ l -> f t = 0.
  Proof.
    induction l as [|a l IH]; intros Hf E t Ht; [by apply elem_of_nil in Ht|]. cbn [fsum] in E.
    assert (Ha : h_nn h (f a)) by (apply Hf; by left). assert (Hl : h_nn h (fsum f l)) by (apply nn_fsum; intros; apply Hf; by right).
    apply elem_of_cons in Ht as [->|Ht]; [by apply (h_nn_sum0 K h _ _ Ha Hl)|]. apply IH; [intros; apply Hf; by right| |done].
    exact (nn_sum0_r h _ _ Ha Hl E).
  Qed.
  Lemma inner_0 (D : gset N) u : inner h D u u = 0 -> forall t, t ∈ D -> u t = 0.
  Proof.
    intros E t Ht. apply (h_sq0 K h). transitivity (conj (u t) * u t); [ring|]. revert t Ht.
    assert (G := fsum_nn_0 (fun t => conj (u t) * u t) (elements D)). intros t Ht. apply G; [|done|by apply elem_of_elements].
    intros t' _. replace (conj (u t') * u t') with (u t' * conj (u t')) by ring. apply (h_nn_sq K h).
  Qed.
  Lemma sqrt_unique x y : positive h x -> h_nn h y -> y * y = x * x -> y = x.
  Proof.
    intros [Hx Hx0] Hy E. assert (E' : (y - x) * (y + x) = 0) by (transitivity (y * y - x * x); [ring|rewrite E; ring]).
    apply fmul_integral in E' as [E'|E']; [transitivity (y - x + x); [ring|rewrite E'; ring]|]. exfalso. apply Hx0. exact (nn_sum0_r h _ _ Hy Hx E').
  Qed.

  (** one column made orthogonal *)
  Lemma mfor_proj (em : gmap (N * N) K) (a : gmap N K) k l : (forall t, t ∈ l -> is_Some (em !! (k, t))) -> forall p n,
    mfor (fun pn k_to => e ← d_get em (k, k_to); Ok (pn.1 + conj e * vget a k_to, pn.2 + abssq h e)) l (p, n) =
    Ok (p + fsum (fun t => conj (entry em k t) * vget a t) l, n + fsum (fun t => abssq h (entry em k t)) l).
  Proof.
    induction l as [|t l IH]; intros Hl p n; [cbn [mfor fsum]; do 2 f_equal; ring|]. cbn [mfor fsum].
    destruct (Hl t) as [e He]; [by left|]. assert (Ee : entry em k t = e) by (unfold entry; by rewrite He). unfold d_get at 1. rewrite He. cbn [mbind res_bind fst snd].
    rewrite IH by (intros; apply Hl; by right). rewrite Ee. do 2 f_equal; ring.
  Qed.
  Lemma mfor_sub (em : gmap (N * N) K) k l c : NoDup l -> (forall t, t ∈ l -> is_Some (em !! (k, t))) -> forall a : gmap N K, exists a',
    mfor (fun a k_to => e ← d_get em (k, k_to); Ok (<[k_to := vget a k_to - c.1 * e / c.2]> a)) l a = Ok a' /\
    (forall t, vget a' t = if decide (t ∈ l) then vget a t - c.1 * entry em k t / c.2 else vget a t) /\ dom a' = dom a ∪ list_to_set l.
  Proof.
    induction 1 as [|t l Hn Hl IH]; intros Hs a.
    - exists a. split; [done|]. split; [intros; by rewrite decide_False by apply not_elem_of_nil|set_solver].
    - cbn [mfor]. destruct (Hs t) as [e He]; [by left|]. assert (Ee : entry em k t = e) by (unfold entry; by rewrite He). unfold d_get at 1. rewrite He. cbn [mbind res_bind].
      destruct (IH (fun t Ht => Hs t (elem_of_list_further _ _ _ Ht)) (<[t := vget a t - c.1 * e / c.2]> a)) as (a' & E & Ha & Hd). exists a'. split; [done|]. split.
      + intros t'. rewrite Ha. destruct (decide (t' = t)) as [->|Ht].
        * rewrite decide_False by done. rewrite decide_True by (by left). unfold vget at 1. by rewrite lookup_insert, Ee.
        * unfold vget. rewrite lookup_insert_ne by done. destruct (decide (t' ∈ l)); [rewrite decide_True by (by right); done|]. rewrite decide_False; [done|]. by intros [?|?]%elem_of_cons.
      + rewrite Hd, dom_insert_L. set_solver.
  Qed.
  Lemma foldl_touch l : forall a : gmap N K, (forall t, vget (foldl (fun a k_to => <[k_to := vget a k_to]> a) a l) t = vget a t) /\ dom (foldl (fun a k_to => <[k_to := vget a k_to]> a) a l) = dom a ∪ list_to_set l.
  Proof.
    induction l as [|t l IH]; intros a; [split; [done|set_solver]|]. cbn [foldl]. destruct (IH (<[t := vget a t]> a)) as [E Hd]. split.
    - intros t'. rewrite E. unfold vget. destruct (decide (t' = t)) as [->|Ht]; [by rewrite lookup_insert|by rewrite lookup_insert_ne].
    - rewrite Hd, dom_insert_L. set_solver.
  Qed.
  Lemma project_ok (D : gset N) (g : sre) a k : consistent g -> (forall t, is_Some (g_em g !! (k, t)) -> t ∈ D) -> dom a ⊆ D ->
    inner h D (entry (g_em g) k) (entry (g_em g) k) = 1 ->
    exists a', project h enum g a k = Ok a' /\ (forall t, vget a' t = vget a t - inner h D (entry (g_em g) k) (vget a) * entry (g_em g) k t) /\ dom a' ⊆ D.
  Proof.
    intros Hc HD Ha H1. set (s := ds_get (g_seq g) k).
    assert (Hs : forall t, t ∈ s <-> is_Some (g_em g !! (k, t))) by (intros; apply Hc).
    assert (Hz : forall t, t ∉ s -> entry (g_em g) k t = 0).
    { intros t Ht. unfold entry. destruct (g_em g !! (k, t)) eqn:E; [|done]. exfalso. by apply Ht, Hs. }
    assert (HsD : s ⊆ D) by (intros t Ht; apply HD; by apply Hs).
    unfold project. fold s. rewrite mfor_proj by (intros t Ht%enum_in; by apply Hs). cbn [mbind res_bind fst snd].
    rewrite (fsum_enum _ s D HsD) by (intros t _ Ht; rewrite Hz by done; rewrite conj_0; ring).
    rewrite (fsum_enum _ s D HsD) by (intros t _ Ht; rewrite Hz by done; unfold abssq; ring).
    assert (En : 0 + fsum (fun t => abssq h (entry (g_em g) k t)) (elements D) = 1).
    { rewrite <- H1. unfold inner, abssq. transitivity (fsum (fun t => entry (g_em g) k t * conj (entry (g_em g) k t)) (elements D)); [ring|]. apply fsum_ext. intros. ring. }
    rewrite En. change (fsum (fun t => conj (entry (g_em g) k t) * vget a t) (elements D)) with (inner h D (entry (g_em g) k) (vget a)).
    assert (Ep : 0 + inner h D (entry (g_em g) k) (vget a) = inner h D (entry (g_em g) k) (vget a)) by ring. rewrite Ep.
    set (p := inner h D (entry (g_em g) k) (vget a)).
    assert (Hd : list_to_set (enum s) = s) by (apply set_eq; intros; rewrite elem_of_list_to_set; apply enum_in).
    destruct (decide (p = 0)) as [E0|_].
    - destruct (foldl_touch (enum s) a) as [Ev Edom]. eexists. split; [done|]. split; [|rewrite Edom, Hd; set_solver].
      intros t. rewrite Ev, E0. ring.
    - destruct (mfor_sub (g_em g) k (enum s) (p, 1) (enum_nodup s) (fun t Ht => proj1 (Hs t) (proj1 (enum_in s t) Ht)) a) as (a' & E & Ev & Edom).
      exists a'. split; [exact E|]. split; [|rewrite Edom, Hd; set_solver]. intros t. rewrite Ev. cbn [fst snd]. assert (Hf1 := @f1_neq_0 K). destruct (decide (t ∈ enum s)) as [Ht|Ht].
      + field. done.
      + rewrite Hz by (intros Hi; apply Ht; by apply enum_in). ring.
  Qed.
  (** all of them *)
  Definition residual (D : gset N) (u : N -> N -> K) (l : list N) (a : N -> K) (t : N) : K := a t - fsum (fun k => inner h D (u k) a * u k t) l.
  Lemma project_all (D : gset N) (g : sre) (ks : list N) : consistent g -> (forall k t, is_Some (g_em g !! (k, t)) -> t ∈ D) -> orthonormal h D ks (entry (g_em g)) ->
    forall l, NoDup l -> (forall k, k ∈ l -> k ∈ ks) -> forall a, dom a ⊆ D ->
    exists a', mfor (project h enum g) l a = Ok a' /\ (forall t, vget a' t = residual D (entry (g_em g)) l (vget a) t) /\ dom a' ⊆ D.
  Proof.
    intros Hc HD Ho. induction 1 as [|k l Hk Hl IH]; intros Hks a Ha.
    - exists a. split; [done|]. split; [|done]. intros t. unfold residual. cbn [fsum]. ring.
    - cbn [mfor]. assert (Hkk : k ∈ ks) by (apply Hks; by left).
      destruct (project_ok D g a k Hc (HD k) Ha) as (a1 & E1 & Ev1 & Hd1); [rewrite (Ho k k) by done; by rewrite decide_True|]. rewrite E1.
      destruct (IH (fun k Hk => Hks k (elem_of_list_further _ _ _ Hk)) a1 Hd1) as (a' & E & Ev & Hd). exists a'. split; [done|]. split; [|done].
      intros t. rewrite Ev. unfold residual. cbn [fsum]. rewrite Ev1.
      rewrite (fsum_ext _ (fun k' => inner h D (entry (g_em g) k') (vget a) * entry (g_em g) k' t)); [ring|].
      intros k' Hk'. f_equal. rewrite (inner_ext D _ (vget a1) (entry (g_em g) k') (fun t => vget a t - inner h D (entry (g_em g) k) (vget a) * entry (g_em g) k t)) by (done || intros; apply Ev1).
      rewrite inner_sub, inner_mul. rewrite (Ho k' k) by (done || apply Hks; by right). rewrite decide_False by (intros ->; done). ring.
  Qed.
  (** the new column *)
  Lemma dflt_some (x : gset N) : default ∅ (Some x) = x. Proof. done. Qed.
  Lemma add_edges v norm a l : NoDup l -> forall b (g : sre), consistent g -> (forall t, t ∈ l -> g_em g !! (v, t) = None) -> exists b' g', foldl (add_edge large v norm a) (b, g) l = (b', g') /\
    consistent g' /\ (b' = true <-> b = true \/ exists t, t ∈ l /\ large (vget a t) = true) /\ dom (g_seq g') ⊆ dom (g_seq g) ∪ {[v]} /\ dom (g_seq g) ⊆ dom (g_seq g') /\
    forall k t, g_em g' !! (k, t) = if decide (k = v /\ t ∈ l /\ large (vget a t) = true) then Some (vget a t / norm) else g_em g !! (k, t).
  Proof.
    induction 1 as [|t l Ht Hl IH]; intros b g Hc Hf.
    - exists b, g. split; [done|]. split; [done|]. split; [split; [by left|]; intros [?|(t & []%elem_of_nil & _)]; done|]. split; [set_solver|]. split; [done|].
      intros k t. rewrite decide_False; [done|]. by intros (_ & ?%elem_of_nil & _).
    - cbn [foldl]. unfold add_edge at 2. cbn [snd]. destruct (large (vget a t)) eqn:El.
      + set (g1 := Graph (ds_add (g_seq g) v t) (ds_add (g_req g) t v) (<[(v, t) := vget a t / norm]> (g_em g))).
        destruct (IH true g1) as (b' & g' & E & Hc' & Hb & Hd1 & Hd2 & He).
        * intros k t'. destruct (Hc k t') as [C1 C2]. cbn [g1 g_seq g_req g_em]. unfold ds_add. split.
          -- destruct (decide (k = v)) as [->|Hk].
             ++ rewrite lookup_insert, dflt_some. rewrite elem_of_union, elem_of_singleton. unfold ds_get. rewrite C1.
                destruct (decide (t' = t)) as [->|Htt]; [rewrite lookup_insert; split; [by eexists|by left]|]. rewrite lookup_insert_ne by congruence. split; [by intros [?|?]|by right].
             ++ rewrite lookup_insert_ne by done. rewrite lookup_insert_ne by congruence. done.
          -- destruct (decide (t' = t)) as [->|Htt].
             ++ rewrite lookup_insert, dflt_some. rewrite elem_of_union, elem_of_singleton. unfold ds_get. rewrite C2.
                destruct (decide (k = v)) as [->|Hk]; [rewrite lookup_insert; split; [by eexists|by left]|]. rewrite lookup_insert_ne by congruence. split; [by intros [?|?]|by right].
             ++ rewrite lookup_insert_ne by done. rewrite lookup_insert_ne by congruence. done.
        * intros t' Ht'. cbn [g1 g_em]. rewrite lookup_insert_ne by (intros [= ->]; done). apply Hf. by right.
        * exists b', g'. split; [exact E|]. split; [done|]. split; [rewrite Hb; split; [intros _; right; exists t; split; [by left|done]|by left]|].
          cbn [g1 g_seq] in Hd1, Hd2. unfold ds_add in Hd1, Hd2. rewrite dom_insert_L in Hd1, Hd2. split; [set_solver|]. split; [set_solver|].
          intros k t'. rewrite He. cbn [g1 g_em]. destruct (decide (k = v /\ t' ∈ l /\ large (vget a t') = true)) as [(-> & Ht' & Hlg)|Hn].
          -- rewrite decide_True; [done|]. split; [done|]. split; [by right|done].
          -- destruct (decide (k = v /\ t' ∈ t :: l /\ large (vget a t') = true)) as [(-> & [->|Ht']%elem_of_cons & Hlg)|Hn2].
             ++ by rewrite lookup_insert.
             ++ exfalso. by apply Hn.
             ++ rewrite lookup_insert_ne; [done|]. intros [= <- <-]. apply Hn2. split; [done|]. split; [by left|done].
      + destruct (IH b g) as (b' & g' & E & Hc' & Hb & Hd1 & Hd2 & He); [done|intros; apply Hf; by right|]. exists b', g'. split; [done|]. split; [done|]. split; [|split; [done|split; [done|]]].
        * rewrite Hb. split; (intros [?|(t' & Ht' & Hlg)]; [by left|right; exists t'; split; [|done]]); [by right|]. apply elem_of_cons in Ht' as [->|?]; [congruence|done].
        * intros k t'. rewrite He. destruct (decide (k = v /\ t' ∈ l /\ large (vget a t') = true)) as [(-> & Ht' & Hlg)|Hn].
          -- rewrite decide_True; [done|]. split; [done|]. split; [by right|done].
          -- rewrite decide_False; [done|]. intros (-> & [->|Ht']%elem_of_cons & Hlg); [congruence|]. by apply Hn.
  Qed.
End proofs.
