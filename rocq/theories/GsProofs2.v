(** Proofs about the orthonormal columns: one column, then all. *)
From stdpp Require Import base tactics list numbers gmap fin_sets option.
From Verif Require Import Fld Py Herm ElecProofs GraphModel GsModel GsSpec GsProofs.
Local Open Scope fld_scope.

Section proofs.
  Context {K : fld} (h : herm K) {N : Type} `{Countable N}.
  Add Field FFg : (f_theory K).
  Notation sre := (graph K N).
  Notation conj := (h_conj h).
  Context (enum sort : gset N -> list N) (large : K -> bool).
  Context (Henum : forall s, enum s ≡ₚ elements s) (Hsort : forall s, sort s ≡ₚ elements s) (Hlarge : large 0 = false).

  Definition valid (D : gset N) (ks : list N) (g : sre) : Prop :=
    consistent g /\ (forall k t, is_Some (g_em g !! (k, t)) -> t ∈ D) /\ NoDup ks /\ dom (g_seq g) = list_to_set ks.
  Lemma valid_entry D ks g k t : valid D ks g -> k ∉ ks -> g_em g !! (k, t) = None.
  Proof.
    intros (Hc & _ & _ & Hd) Hk. destruct (g_em g !! (k, t)) eqn:E; [|done]. exfalso.
    assert (Hi : t ∈ default ∅ (g_seq g !! k)) by (apply Hc; by rewrite E). destruct (g_seq g !! k) eqn:Es; [|cbn in Hi; set_solver].
    assert (Hin : k ∈ dom (g_seq g)) by (apply elem_of_dom; by rewrite Es). rewrite Hd in Hin. apply elem_of_list_to_set in Hin. done.
  Qed.
  Lemma valid_out D ks g k t : valid D ks g -> t ∉ D -> entry (g_em g) k t = 0.
  Proof. intros (_ & HD & _) Ht. unfold entry. destruct (g_em g !! (k, t)) eqn:E; [|done]. exfalso. apply Ht, (HD k). by rewrite E. Qed.
  Lemma foldl_sum (f : N -> K) l : forall s, foldl (fun s k => s + f k) s l = s + fsum f l.
  Proof. induction l as [|k l IH]; intros s; cbn [foldl fsum]; [ring|]. rewrite IH. ring. Qed.

  Lemma gs_step D g ks a k : valid D ks g -> orthonormal h D ks (entry (g_em g)) -> k ∉ ks -> dom a ⊆ D ->
    let w := residual h D (entry (g_em g)) ks (vget a) in let n := h_sqrt h (inner h D w w) in
    exists b g', gram_schmidt h enum large g a k = Ok (b, g') /\ valid D (ks ++ [k]) g' /\ (b = true <-> exists t, large (w t) = true) /\
      (forall t, entry (g_em g') k t = if large (w t) then w t / n else 0) /\ (forall k' t, k' <> k -> entry (g_em g') k' t = entry (g_em g) k' t).
  Proof.
    intros HV Ho Hk Ha w n. destruct (HV) as (Hc & HD & Hnd & Hdom).
    assert (Hperm : enum (dom (g_seq g)) ≡ₚ ks).
    { apply NoDup_Permutation; [by apply enum_nodup|done|]. intros x. rewrite enum_in by done. rewrite Hdom. apply elem_of_list_to_set. }
    assert (Hsub : forall x, x ∈ enum (dom (g_seq g)) -> x ∈ ks) by (intros x Hx; by rewrite <- Hperm).
    destruct (project_all h enum sort large Henum D g ks Hc HD Ho (enum (dom (g_seq g))) (enum_nodup enum Henum _) Hsub a Ha) as (a' & E & Ev & Hd').
    assert (Ew : forall t, vget a' t = w t) by (intros t; rewrite Ev; unfold w, residual; by rewrite (fsum_perm _ _ _ Hperm)).
    unfold gram_schmidt. rewrite E. cbn [mbind res_bind].
    rewrite foldl_sum. assert (Ez : forall x : K, 0 + x = x) by (intros; ring). rewrite Ez.
    rewrite (fsum_enum enum Henum _ (dom a') D Hd').
    2: { intros t _ Ht. unfold vget. apply not_elem_of_dom in Ht. rewrite Ht. cbn. unfold abssq. ring. }
    assert (En : fsum (fun t => abssq h (vget a' t)) (elements D) = inner h D w w).
    { unfold inner. apply fsum_ext. intros t _. rewrite Ew. unfold abssq. ring. }
    rewrite En. fold n.
    assert (Hout : forall t, t ∉ dom a' -> w t = 0) by (intros t Ht; rewrite <- Ew; unfold vget; apply not_elem_of_dom in Ht; by rewrite Ht).
    destruct (add_edges enum large Henum k n a' (enum (dom a')) (enum_nodup enum Henum _) false (Graph (<[k := ∅]> (g_seq g)) (g_req g) (g_em g))) as (b & g' & E' & Hc' & Hb & Hd1 & Hd2 & He).
    - intros k' t. cbn [g_seq g_req g_em]. split; [|apply Hc]. destruct (decide (k' = k)) as [->|Hkk].
      + rewrite lookup_insert. cbn. rewrite (valid_entry D ks g) by done. split; [set_solver|by intros [? ?]].
      + rewrite lookup_insert_ne by done. apply Hc.
    - intros t _. cbn [g_em]. by apply (valid_entry D ks g).
    - exists b, g'. split; [by rewrite E'|]. cbn [g_seq g_em] in Hd1, Hd2, He. rewrite dom_insert_L in Hd1, Hd2. split; [split; [done|split; [|split]]|split; [|split]].
      + intros k' t. rewrite He. destruct (decide _) as [(-> & Ht & _)|_]; [|apply HD]. intros _. apply Hd'. by apply (enum_in enum Henum).
      + apply NoDup_app. split; [done|]. split; [|apply NoDup_singleton]. by intros x Hx ->%elem_of_list_singleton.
      + rewrite list_to_set_app_L. cbn [list_to_set]. apply set_eq. intros x. rewrite Hdom in Hd1, Hd2. set_solver.
      + rewrite Hb. split.
        * intros [?|(t & Ht & Hl)]; [done|]. exists t. by rewrite <- Ew.
        * intros (t & Hl). right. exists t. rewrite Ew. split; [|done]. apply (enum_in enum Henum). destruct (decide (t ∈ dom a')) as [|Hn]; [done|]. rewrite Hout in Hl by done. congruence.
      + intros t. unfold entry. rewrite He, Ew. destruct (decide (k = k ∧ t ∈ enum (dom a') ∧ large (w t) = true)) as [(_ & _ & Hl)|Hn]; [by rewrite Hl|].
        rewrite (valid_entry D ks g) by done. cbn. destruct (large (w t)) eqn:El; [|done]. exfalso. apply Hn. split; [done|]. split; [|done].
        apply (enum_in enum Henum). destruct (decide (t ∈ dom a')) as [|Hn']; [done|]. rewrite Hout in El by done. congruence.
      + intros k' t Hkk. unfold entry. rewrite He. rewrite decide_False; [done|]. by intros [? _].
  Qed.

  (** the columns of the input *)
  Lemma targets_in (em : gmap (N * N) K) k t : t ∈ ds_get (targets em) k <-> (k, t) ∈ dom em.
  Proof.
    unfold targets. rewrite <- (elem_of_elements (dom em) (k, t)). generalize (elements (dom em)). intros l.
    assert (G : forall l s, t ∈ ds_get (foldl (fun s (k : N * N) => ds_add s k.1 k.2) s l) k <-> t ∈ ds_get s k \/ (k, t) ∈ l).
    { clear. induction l as [|[x y] l IH]; intros s; cbn [foldl]; [split; [by left|]; by intros [?|?%elem_of_nil]|]. rewrite IH. unfold ds_add. cbn [fst snd].
      rewrite elem_of_cons. unfold ds_get at 1. destruct (decide (k = x)) as [->|Hk].
      - rewrite lookup_insert, dflt_some. rewrite elem_of_union, elem_of_singleton. split; [intros [[->|?]|?]; auto|intros [?|[[= ->]|?]]; auto].
      - rewrite lookup_insert_ne by done. split; [intros [?|?]; auto|]. intros [?|[[= -> ->]|?]]; auto. done. }
    rewrite G. unfold ds_get. rewrite lookup_empty. cbn. set_solver.
  Qed.
  Lemma targets_dom (em : gmap (N * N) K) : dom (targets em) = cols em.
  Proof.
    unfold targets, cols. apply set_eq. intros k. rewrite elem_of_map. assert (Ee : forall p, p ∈ dom em <-> p ∈ elements (dom em)) by (intros; by rewrite elem_of_elements). setoid_rewrite Ee. clear Ee. generalize (elements (dom em)). intros l.
    assert (G : forall l s, k ∈ dom (foldl (fun s (k : N * N) => ds_add s k.1 k.2) s l) <-> k ∈ dom s \/ exists p, k = p.1 /\ p ∈ l).
    { clear. induction l as [|[x y] l IH]; intros s; cbn [foldl]; [split; [by left|]; by intros [?|(? & _ & ?%elem_of_nil)]|]. rewrite IH. unfold ds_add. cbn [fst snd]. rewrite dom_insert_L, elem_of_union, elem_of_singleton. split.
      - intros [[->|?]|(p & -> & Hp)]; [right; exists (x, y); split; [done|by left]|by left|right; exists p; split; [done|by right]].
      - intros [?|(p & -> & [->|Hp]%elem_of_cons)]; [left; by right|left; by left|right; by exists p]. }
    rewrite G. rewrite dom_empty_L. set_solver.
  Qed.
  Lemma column_ok (em : gmap (N * N) K) k : exists v, column enum em k = Ok v /\ (forall t, vget v t = entry em k t) /\ dom v ⊆ rows em.
  Proof.
    unfold column. assert (G : forall l, (forall t, t ∈ l -> is_Some (em !! (k, t))) -> forall v : gmap N K, (forall t, t ∈ dom v -> vget v t = entry em k t /\ t ∈ rows em) ->
      exists v', mfor (fun v k_t => e ← d_get em (k, k_t); Ok (<[k_t := e]> v)) l v = Ok v' /\ (forall t, t ∈ dom v' -> vget v' t = entry em k t /\ t ∈ rows em) /\ forall t, t ∈ dom v \/ t ∈ l -> t ∈ dom v').
    { induction l as [|t l IH]; intros Hl v Hv; [exists v; split; [done|]; split; [done|]; by intros t [?|?%elem_of_nil]|]. cbn [mfor]. destruct (Hl t) as [e He]; [by left|]. unfold d_get at 1. rewrite He. cbn [mbind res_bind].
      destruct (IH (fun t Ht => Hl t (elem_of_list_further _ _ _ Ht)) (<[t := e]> v)) as (v' & E & Hv' & Hd).
      - intros t' Ht'. unfold vget. destruct (decide (t' = t)) as [->|Hn].
        + rewrite lookup_insert. unfold entry. rewrite He. split; [done|]. apply elem_of_map. exists (k, t). split; [done|]. apply elem_of_dom. by rewrite He.
        + rewrite lookup_insert_ne by done. rewrite dom_insert_L in Ht'. apply Hv. set_solver.
      - exists v'. split; [done|]. split; [done|]. intros t' Ht'. apply Hd. rewrite dom_insert_L. destruct Ht' as [?|[->|?]%elem_of_cons]; [left; set_solver|left; set_solver|by right]. }
    destruct (G (enum (ds_get (targets em) k))) with (v := ∅ : gmap N K) as (v & E & Hv & Hd).
    - intros t Ht%(enum_in enum Henum)%targets_in. by apply elem_of_dom.
    - intros t Ht. rewrite dom_empty_L in Ht. set_solver.
    - exists v. split; [done|]. split; [|intros t Ht; by apply Hv]. intros t. destruct (decide (t ∈ dom v)) as [Ht|Ht]; [by apply Hv|].
      unfold vget, entry. apply not_elem_of_dom in Ht as Hn. rewrite Hn. destruct (em !! (k, t)) eqn:Ee; [|done]. exfalso. apply Ht, Hd. right.
      apply (enum_in enum Henum), targets_in, elem_of_dom. by rewrite Ee.
  Qed.

  (** residuals *)
  Lemma res_orth (D : gset N) (ks : list N) u a k : orthonormal h D ks u -> NoDup ks -> k ∈ ks -> inner h D (u k) (residual h D u ks a) = 0.
  Proof.
    intros Ho Hn Hk. unfold residual. rewrite inner_sub, (inner_sum h D (u k) (fun k' => inner h D (u k') a) u ks).
    rewrite (fsum_ext _ (fun k' => if decide (k' = k) then inner h D (u k') a else 0)).
    - rewrite fsum_delta, decide_True by done. ring.
    - intros k' Hk'. rewrite (Ho k k') by done. destruct (decide (k = k')) as [->|Hne]; [rewrite decide_True by done; ring|rewrite decide_False by done; ring].
  Qed.
  Lemma ortho_snoc (D : gset N) ks u k : orthonormal h D ks u -> (forall k', k' ∈ ks -> inner h D (u k') (u k) = 0) -> inner h D (u k) (u k) = 1 -> k ∉ ks -> orthonormal h D (ks ++ [k]) u.
  Proof.
    intros Ho Hz H1 Hk x y [Hx|Hx]%elem_of_app [Hy|Hy]%elem_of_app; try apply elem_of_list_singleton in Hx as ->; try apply elem_of_list_singleton in Hy as ->.
    - by apply Ho.
    - rewrite Hz by done. rewrite decide_False; [done|]. by intros ->.
    - rewrite inner_conj, Hz by done. rewrite conj_0. rewrite decide_False; [done|]. by intros ->.
    - by rewrite decide_True.
  Qed.
  Lemma ortho_ext (D : gset N) ks u v : (forall k t, k ∈ ks -> u k t = v k t) -> orthonormal h D ks u -> orthonormal h D ks v.
  Proof. intros E Ho k k' Hk Hk'. rewrite <- (Ho k k') by done. apply inner_ext; intros; symmetry; by apply E. Qed.
  Lemma snoc_split (pre' post' ks : list N) k k' : pre' ++ k' :: post' = ks ++ [k] -> (pre' = ks /\ k' = k /\ post' = []) \/ exists post, post' = post ++ [k] /\ ks = pre' ++ k' :: post.
  Proof.
    intros E. destruct post' as [|x post'] using rev_ind; [left; apply app_inj_tail in E as [-> ->]; done|]. right. exists post'.
    rewrite app_comm_cons, app_assoc in E. apply app_inj_tail in E as [E ->]. done.
  Qed.
  Lemma tri_snoc (ks : list N) a u r k : triangular h ks a u r -> positive h (r k) -> (exists c : N -> K, forall t, a k t = fsum (fun k' => c k' * u k' t) ks + r k * u k t) -> triangular h (ks ++ [k]) a u r.
  Proof.
    intros Ht Hp He pre k' post E. symmetry in E. apply snoc_split in E as [(-> & -> & ->)|(post' & -> & ->)]; [done|]. by eapply Ht.
  Qed.
  Lemma tri_ext (ks : list N) a u v r r' : (forall k t, k ∈ ks -> u k t = v k t) -> (forall k, k ∈ ks -> r k = r' k) -> triangular h ks a u r -> triangular h ks a v r'.
  Proof.
    intros E Er Ht pre k post ->. destruct (Ht pre k post eq_refl) as [Hp [c Hc]]. rewrite <- Er by (apply elem_of_app; right; by left). split; [done|]. exists c. intros t. rewrite Hc. f_equal.
    - apply fsum_ext. intros k' Hk'. rewrite E; [done|]. apply elem_of_app. by left.
    - rewrite E; [done|]. apply elem_of_app. right. by left.
  Qed.
End proofs.
