(** The loops of the ODE coupling: they advance the vector and its derivative. *)
From stdpp Require Import base tactics list numbers gmap.
From stdpp Require Import list.
From Verif Require Import Py Fld Herm OdeModel OdeSpec OdeProofs.

Section loops.
  Context {K : fld}.
  Local Open Scope fld_scope.
  Add Field FQ : (f_theory K).
  Notation imono := (mono K nat).
  Implicit Types (x V W : nat -> K) (m : gmap nat K) (lt : list imono).

  (** * sparse rows *)
  Definition msum m V : K := fsum (fun e => e.2 * V e.1) (map_to_list m).
  Lemma msum_empty V : msum ∅ V = 0.
  Proof. unfold msum. by rewrite map_to_list_empty. Qed.
  Lemma msum_delete m i V : msum m V = dd_get m i * V i + msum (delete i m) V.
  Proof.
    unfold msum, dd_get. destruct (m !! i) as [v|] eqn:E; simpl.
    - rewrite (fsum_perm _ (map_to_list m) ((i, v) :: map_to_list (delete i m))); [done|].
      symmetry. by apply map_to_list_delete.
    - rewrite delete_notin by done. ring.
  Qed.
  Lemma msum_insert m i v V : msum (<[i := v]> m) V = v * V i + msum (delete i m) V.
  Proof. rewrite (msum_delete _ i). unfold dd_get. rewrite lookup_insert, delete_insert_delete. done. Qed.
  Lemma msum_dd_add m u V : msum (dd_add m u) V = msum m V + u.2 * V u.1.
  Proof. unfold dd_add. rewrite msum_insert, (msum_delete m u.1). ring. Qed.
  Lemma msum_foldl m l V : msum (foldl dd_add m l) V = msum m V + fsum (fun u => u.2 * V u.1) l.
  Proof. revert m. induction l as [|u l IH]; intros m; simpl; [ring|]. rewrite IH, msum_dd_add. ring. Qed.
  Lemma fsum_nonzero (l : list (nat * K)) V : fsum (fun u => u.2 * V u.1) (nonzero l) = fsum (fun u => u.2 * V u.1) l.
  Proof.
    unfold nonzero. induction l as [|u l IH]; [done|]. rewrite filter_cons. cbn [fsum].
    destruct (decide (u.2 <> 0)) as [|Hn]; cbn [fsum]; rewrite IH; [done|].
    assert (u.2 = 0) as -> by (destruct (decide (u.2 = 0)); [done|contradiction]). ring.
  Qed.
  Lemma msum_nonzero m V : fsum (fun u => u.2 * V u.1) (nonzero (map_to_list m)) = msum m V.
  Proof. apply fsum_nonzero. Qed.
  Lemma fsum_bind {A B} (f : B -> K) (g : A -> list B) (l : list A) : fsum f (l ≫= g) = fsum (fun a => fsum f (g a)) l.
  Proof. induction l as [|a l IH]; [done|]. rewrite bind_cons, fsum_app, IH. done. Qed.
  Lemma msum_ext m V W : (forall i, V i = W i) -> msum m V = msum m W.
  Proof. intros H. apply fsum_ext. intros. by rewrite H. Qed.

  (** * values and derivatives of sums of products *)
  Lemma mono_val_lem pkv (t : imono) : mono_val pkv t = prod_at (fun i => pv (pkv i)) t.
  Proof.
    unfold mono_val, prod_at. destruct t as [g ks]. cbn [fst snd]. revert g.
    induction ks as [|k ks IH]; intros g; cbn [foldl map fprod]; [ring|]. rewrite IH. ring.
  Qed.
  Lemma lt_val_lem pkv lt : lt_val pkv lt = poly_at (fun i => pv (pkv i)) lt.
  Proof.
    unfold lt_val, poly_at. enough (forall v, foldl (fun val t => val + mono_val pkv t) v lt = v + fsum (prod_at (fun i => pv (pkv i))) lt) as ->; [ring|].
    induction lt as [|t lt IH]; intros v; cbn [foldl fsum]; [ring|]. rewrite IH, mono_val_lem. ring.
  Qed.
  (** the derivative of a sum of products along w *)
  Definition dpoly x W lt : K := fsum (fun t => fsum (fun e => t.1 * fprod (map x e.2) * W e.1) (others [] t.2)) lt.
  Lemma matrix_d_lem pkv l W : msum (lt_val_matrix_d pkv l) W = fsum (fun e => prod_at (fun i => pv (pkv i)) e.2 * W e.1) l.
  Proof.
    unfold lt_val_matrix_d. enough (forall m, msum (foldl (fun vec_d e => dd_add vec_d (e.1, mono_val pkv e.2)) m l) W =
      msum m W + fsum (fun e => prod_at (fun i => pv (pkv i)) e.2 * W e.1) l) as ->; [rewrite msum_empty; ring|].
    induction l as [|e l IH]; intros m; cbn [foldl fsum]; [ring|]. rewrite IH, msum_dd_add. cbn [fst snd].
    rewrite mono_val_lem. ring.
  Qed.
  Lemma fprod_zero x (nz : gset nat) ks : (forall i, i ∉ nz -> x i = 0) -> ~ Forall (.∈ nz) ks -> fprod (map x ks) = 0.
  Proof.
    intros Hz. induction ks as [|k ks IH]; intros Hn; [exfalso; apply Hn; constructor|]. cbn [map fprod].
    destruct (decide (k ∈ nz)) as [Hk|Hk].
    - rewrite IH; [ring|]. intros H. apply Hn. by constructor.
    - rewrite Hz by done. ring.
  Qed.
  Lemma reduced_val x (nz : gset nat) lt : (forall i, i ∉ nz -> x i = 0) -> poly_at x (lt_reduced_generate nz lt) = poly_at x lt.
  Proof.
    intros Hz. unfold lt_reduced_generate, poly_at. induction lt as [|t lt IH]; [done|].
    rewrite filter_cons. destruct (decide _) as [|Hn]; cbn [fsum]; rewrite IH; [done|].
    unfold prod_at. rewrite (fprod_zero x nz) by done. ring.
  Qed.
  Lemma reduced_d x W (nz : gset nat) lt : (forall i, i ∉ nz -> x i = 0) ->
    fsum (fun e => prod_at x e.2 * W e.1) (lt_val_matrix_d_generate nz lt) = dpoly x W lt.
  Proof.
    intros Hz. unfold lt_val_matrix_d_generate, dpoly. rewrite fsum_bind. apply fsum_ext. intros t _.
    rewrite fsum_bind. apply fsum_ext. intros e _. destruct (decide _) as [|Hn]; cbn [fsum fst snd].
    - unfold prod_at. cbn [fst snd]. ring.
    - rewrite (fprod_zero x nz) by done. ring.
  Qed.
  Lemma dpoly_ext x y V W lt : (forall i, x i = y i) -> (forall i, V i = W i) -> dpoly x V lt = dpoly y W lt.
  Proof.
    intros H1 H2. apply fsum_ext. intros t _. apply fsum_ext. intros e _. rewrite H2. do 2 f_equal.
    f_equal. apply map_ext. done.
  Qed.
  Lemma poly_at_ext {X} (x y : X -> K) (lt : list (mono K X)) : (forall t k, t ∈ lt -> k ∈ t.2 -> x k = y k) -> poly_at x lt = poly_at y lt.
  Proof.
    intros H. apply fsum_ext. intros t Ht. unfold prod_at. f_equal. f_equal. apply map_ext_in. intros k Hk.
    apply (H t k Ht). by apply elem_of_list_In.
  Qed.

  (** * one visit *)
  Context (base : list (nat * list imono)).
  Record ode_ok (s : ode_st (K := K)) : Prop := {
    ok_nz : forall i v, o_pkv s i = Val v -> i ∈ o_nz s;
    ok_lts : o_lts s = (o_regen base (o_nz s)).1;
    ok_ltMs : o_ltMs s = (o_regen base (o_nz s)).2;
  }.
  Lemma ok_zero s i : ode_ok s -> i ∉ o_nz s -> pv (o_pkv s i) = 0.
  Proof. intros Hs Hi. destruct (o_pkv s i) eqn:E; [done|]. exfalso. by eapply Hi, ok_nz. Qed.
  Notation vec s := (fun i => pv (o_pkv s i)).
  Lemma visit_lem s n idx lt : ode_ok s -> base !! n = Some (idx, lt) ->
    let s' := ode_visit base s n in
    ode_ok s' /\
    (forall i, vec s' i = if decide (i = idx) then vec s idx + poly_at (vec s) lt else vec s i) /\
    (forall V i, msum (o_M s' i) V = if decide (i = idx) then msum (o_M s idx) V + dpoly (vec s) (fun o => msum (o_M s o) V + V o) lt else msum (o_M s i) V).
  Proof.
    intros Hs Hn. unfold ode_visit. rewrite Hn, (ok_lts s Hs), (ok_ltMs s Hs).
    unfold o_regen. cbn [fst snd]. rewrite !list_lookup_fmap, Hn. cbn [fmap option_fmap option_map snd].
    rewrite lt_val_lem, reduced_val by (intros i; by apply ok_zero).
    set (d := poly_at (vec s) lt). set (vd := lt_val_matrix_d _ _). cbv zeta.
    assert (forall W, msum vd W = dpoly (vec s) W lt) as Hvd.
    { intros W. unfold vd. rewrite matrix_d_lem. apply (reduced_d (vec s)). intros i. by apply ok_zero. }
    destruct (match o_pkv s idx with Int0 => _ | Val _ => _ end) as [[nz lts] ltMs] eqn:Enz.
    assert (lts = (o_regen base nz).1 /\ ltMs = (o_regen base nz).2 /\ o_nz s ⊆ nz /\ (d <> 0 -> idx ∈ nz)) as (E1 & E2 & E3 & E4).
    { destruct (o_pkv s idx) as [|v] eqn:Ei; [destruct (decide (d = 0)) as [E0|E0]|]; injection Enz as <- <- <-.
      - split_and!; [done|done|done|done].
      - split_and!; [done..|set_solver|set_solver].
      - split_and!; [done|done|done|]. intros _. by eapply ok_nz. }
    split; [|split].
    - constructor; cbn [o_pkv o_nz o_lts o_ltMs]; [|done..]. intros i v.
      destruct (decide (d = 0)) as [|Hd]; [intros Ev; apply E3; by eapply ok_nz|]. unfold upd.
      destruct (decide (i = idx)) as [->|]; [intros _; auto|]. intros Ev; apply E3; by eapply ok_nz.
    - intros i. cbn [o_pkv]. destruct (decide (d = 0)) as [E0|Hd].
      + destruct (decide (i = idx)) as [->|]; [|done]. rewrite E0. ring.
      + unfold upd. destruct (decide (i = idx)) as [->|]; done.
    - intros V i. cbn [o_M]. unfold upd. destruct (decide (i = idx)) as [->|]; [|done].
      rewrite !msum_foldl, !msum_nonzero, msum_foldl, msum_empty, fsum_bind.
      rewrite <- !Hvd.
      assert (fsum (fun ov => fsum (fun u => u.2 * V u.1) (ie ← nonzero (map_to_list (o_M s ov.1)); [(ie.1, ie.2 * ov.2)])) (map_to_list vd) =
              msum vd (fun o => msum (o_M s o) V)) as ->.
      { unfold msum at 1. apply fsum_ext. intros ov _. rewrite fsum_bind.
        rewrite <- msum_nonzero, <- fsum_mul_l. apply fsum_ext. intros ie _. cbn [fsum fst snd]. ring. }
      assert (msum vd (fun o => msum (o_M s o) V + V o) = msum vd (fun o => msum (o_M s o) V) + msum vd V) as ->.
      { etransitivity; [|apply (fsum_add (fun e => e.2 * msum (o_M s e.1) V) (fun e => e.2 * V e.1))]. apply fsum_ext. intros e _. cbv beta. ring. }
      ring.
  Qed.
  (** * all visits: the vector and its derivative along V advance together *)
  Definition tstep (xw : (nat -> K) * (nat -> K)) (T : nat * list imono) : (nat -> K) * (nat -> K) :=
    (set_at xw.1 T.1 (xw.1 T.1 + poly_at xw.1 T.2), set_at xw.2 T.1 (xw.2 T.1 + dpoly xw.1 xw.2 T.2)).
  Lemma visits_lem V (ns : list nat) s x W : ode_ok s -> Forall (fun n => n < length base)%nat ns ->
    (forall i, vec s i = x i) -> (forall i, msum (o_M s i) V + V i = W i) ->
    let s' := foldl (ode_visit base) s ns in
    let xw := foldl tstep (x, W) (omap (base !!.) ns) in
    ode_ok s' /\ (forall i, vec s' i = xw.1 i) /\ (forall i, msum (o_M s' i) V + V i = xw.2 i).
  Proof.
    revert s x W. induction ns as [|n ns IH]; intros s x W Hs Hf Hx HW; [done|].
    inversion Hf as [|? ? Hn Hf']; subst. destruct (base !! n) as [[idx lt]|] eqn:E; [|apply lookup_ge_None in E; lia].
    cbn [foldl omap list_omap]. rewrite E. cbn [foldl].
    destruct (visit_lem s n idx lt Hs E) as (Hs' & Hx' & HM').
    apply IH; [done|done| |].
    - intros i. cbn [tstep fst]. rewrite Hx'. unfold set_at. destruct (decide _) as [->|]; [|done].
      rewrite Hx. f_equal. apply poly_at_ext. intros; apply Hx.
    - intros i. cbn [tstep snd fst]. rewrite HM'. unfold set_at. destruct (decide _) as [->|]; [|done].
      rewrite <- HW. rewrite (dpoly_ext (vec s) x (fun o => msum (o_M s o) V + V o) W) by done. ring.
  Qed.
  Lemma omap_all (N : nat) : omap (base !!.) (concat (replicate N (seq 0 (length base)))) = concat (replicate N base).
  Proof.
    assert (omap (base !!.) (seq 0 (length base)) = base) as Hb.
    { clear. enough (forall l pre : list (nat * list imono), omap ((pre ++ l) !!.) (seq (length pre) (length l)) = l) as H by apply (H base []).
      induction l as [|a l IH]; intros pre; [done|]. cbn [length seq omap list_omap].
      rewrite list_lookup_middle by done. f_equal. specialize (IH (pre ++ [a])). rewrite <- app_assoc, app_length in IH. simpl in IH.
      by rewrite Nat.add_1_r in IH. }
    induction N as [|N IH]; [done|]. cbn [replicate concat]. rewrite omap_app, Hb, IH. done.
  Qed.
  Lemma run_lem (N n : nat) (pkv : nat -> pyv (K := K)) V : (forall i, pkv i = Int0 \/ exists v : K, pkv i = Val v /\ v <> 0 /\ (i < n)%nat) ->
    let s := ode_run base N (ode_init base n pkv) in
    let xw := foldl tstep (fun i => pv (pkv i), V) (concat (replicate N base)) in
    (forall i, vec s i = xw.1 i) /\ (forall i, msum (o_M s i) V + V i = xw.2 i).
  Proof.
    intros Hp s xw. unfold s, ode_run, xw. rewrite <- omap_all. apply visits_lem.
    - constructor; cbn [ode_init o_pkv o_nz o_lts o_ltMs]; [|done..].
      intros i v E. destruct (Hp i) as [E'|(v' & E' & Hv & Hi)]; [congruence|].
      rewrite elem_of_list_to_set, elem_of_list_filter, elem_of_seq. rewrite E'. simpl. split; [done|lia].
    - rewrite Forall_forall. intros k (l & Hl & Hk)%elem_of_list_In%in_concat.
      apply elem_of_list_In, elem_of_replicate in Hl as [-> _]. apply in_seq in Hk. lia.
    - done.
    - intros i. cbn [ode_init o_M]. rewrite msum_empty. ring.
  Qed.
  (** keys of rows stay below n *)
  Lemma dd_add_dom m u i v : dd_add m u !! i = Some v -> i = u.1 \/ is_Some (m !! i).
  Proof. unfold dd_add. intros [[]|[]]%lookup_insert_Some; eauto. Qed.
  Lemma foldl_dd_dom m l i v : foldl dd_add m l !! i = Some v -> (exists u, u ∈ l /\ i = u.1) \/ is_Some (m !! i).
  Proof.
    revert m v. induction l as [|u l IH]; intros m v Hi; [right; eauto|]. simpl in Hi.
    destruct (IH _ _ Hi) as [(u' & Hu & ->)|[w Hw]]; [left; set_solver|].
    apply dd_add_dom in Hw as [->|]; [left; exists u; set_solver|by right].
  Qed.
  Lemma others_keys pre ks e : e ∈ others pre ks -> e.1 ∈ ks.
  Proof.
    revert pre. induction ks as [|k ks IH]; intros pre; cbn [others]; [set_solver|].
    rewrite elem_of_cons. intros [->|He]; [set_solver|]. apply IH in He. set_solver.
  Qed.
  Lemma run_dom (n : nat) s ns : (forall T t k, T ∈ base -> t ∈ T.2 -> k ∈ t.2 -> k < n)%nat -> ode_ok s ->
    Forall (fun m : nat => m < length base)%nat ns -> (forall i j v, o_M s i !! j = Some v -> j < n)%nat ->
    forall i j v, o_M (foldl (ode_visit base) s ns) i !! j = Some v -> (j < n)%nat.
  Proof.
    intros Hb. revert s. induction ns as [|m ns IH]; intros s Hs Hf HM; [done|].
    inversion Hf as [|? ? Hm Hf']; subst. cbn [foldl].
    destruct (base !! m) as [[idx lt]|] eqn:E; [|apply lookup_ge_None in E; lia].
    apply IH; [by eapply visit_lem|done|].
    intros i j v. unfold ode_visit. rewrite E, (ok_lts s Hs), (ok_ltMs s Hs).
    unfold o_regen. cbn [fst snd]. rewrite !list_lookup_fmap, E. cbn [fmap option_fmap option_map snd]. cbv zeta.
    destruct (match o_pkv s idx with Int0 => _ | Val _ => _ end) as [[nz lts] ltMs].
    set (vd := lt_val_matrix_d _ _). cbn [o_M]. unfold upd. destruct (decide (i = idx)) as [->|]; [|apply HM].
    assert (forall k w, vd !! k = Some w -> (k < n)%nat) as Hvd.
    { unfold vd, lt_val_matrix_d. intros k w Hk.
      assert (forall (l : list (nat * imono)) m0, foldl (fun vec_d e => dd_add vec_d (e.1, mono_val (o_pkv s) e.2)) m0 l =
        foldl dd_add m0 ((fun e : nat * imono => (e.1, mono_val (o_pkv s) e.2)) <$> l)) as Hfm.
      { clear. induction l as [|e l IH]; intros m0; [done|]. cbn [foldl fmap list_fmap]. apply IH. }
      rewrite Hfm in Hk. apply foldl_dd_dom in Hk as [(u & (e & -> & He)%elem_of_list_fmap & ->)|[? Hw]]; [|by rewrite lookup_empty in Hw].
      cbn [fst]. unfold lt_val_matrix_d_generate in He. apply elem_of_list_bind in He as (t & He & Ht).
      apply elem_of_list_bind in He as (e' & He & Ho). apply others_keys in Ho.
      destruct (decide _); [|set_solver]. apply elem_of_list_singleton in He as ->. cbn [fst].
      apply (Hb (idx, lt) t); [by eapply elem_of_list_lookup_2|done|done]. }
    intros [(u & Hu & ->)|[w Hw]]%foldl_dd_dom.
    - apply elem_of_list_filter in Hu as [_ Hu]. destruct u as [k w]. apply elem_of_map_to_list in Hu. by eapply Hvd.
    - apply foldl_dd_dom in Hw as [(u & Hu & ->)|[w' Hw']]; [|by eapply HM].
      apply elem_of_list_filter in Hu as [_ Hu]. destruct u as [k w']. apply elem_of_map_to_list in Hu.
      apply foldl_dd_dom in Hu as [(u & Hu & ->)|[? Hw']]; [|by rewrite lookup_empty in Hw'].
      apply elem_of_list_bind in Hu as (ov & Hu & _). apply elem_of_list_bind in Hu as (ie & ->%elem_of_list_singleton & Hie).
      apply elem_of_list_filter in Hie as [_ Hie]. destruct ie as [k' w'']. apply elem_of_map_to_list in Hie. cbn [fst]. by eapply HM.
  Qed.
End loops.
