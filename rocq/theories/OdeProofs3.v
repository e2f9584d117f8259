(** The ODE coupling in terms of keys, and its derivative. *)
From Coq Require Import Reals Lra.
From stdpp Require Import base tactics list numbers gmap.
From stdpp Require Import list.
From Verif Require Import Py Fld Herm SigModel OdeModel OdeSpec OdeProofs OdeProofs2.

(** * derivatives *)
Section deriv.
  Local Open Scope fld_scope.
  Add Field FCC : (f_theory C_fld).
  Lemma cderiv_const (c : C_fld) : cderiv (fun _ => c) 0.
  Proof. split; apply derivable_pt_lim_const. Qed.
  Lemma cderiv_ext f g l : (forall t, f t = g t) -> cderiv f l -> cderiv g l.
  Proof.
    intros H [H1 H2]. split; (eapply derivable_pt_lim_ext; [|eassumption]); intros t; simpl; by rewrite H.
  Qed.
  Lemma cderiv_add f g (a b : C_fld) : cderiv f a -> cderiv g b -> cderiv (fun t => f t + g t) (a + b).
  Proof. intros [H1 H2] [H3 H4]. split; simpl; by apply (derivable_pt_lim_plus _ _ 0). Qed.
  Lemma cderiv_mul f g (a b : C_fld) : cderiv f a -> cderiv g b -> cderiv (fun t => f t * g t) (a * g 0%R + f 0%R * b).
  Proof.
    intros [H1 H2] [H3 H4].
    pose proof (derivable_pt_lim_mult _ _ _ _ _ H1 H3) as A11. pose proof (derivable_pt_lim_mult _ _ _ _ _ H2 H4) as A22.
    pose proof (derivable_pt_lim_mult _ _ _ _ _ H1 H4) as A12. pose proof (derivable_pt_lim_mult _ _ _ _ _ H2 H3) as A21.
    split.
    - pose proof (derivable_pt_lim_minus _ _ _ _ _ A11 A22) as A. cbv beta in A.
      replace ((a * g 0%R + f 0%R * b).1) with (a.1 * (g 0).1 + (f 0).1 * b.1 - (a.2 * (g 0).2 + (f 0).2 * b.2))%R by (simpl; ring).
      exact A.
    - pose proof (derivable_pt_lim_plus _ _ _ _ _ A12 A21) as A. cbv beta in A.
      replace ((a * g 0%R + f 0%R * b).2) with (a.1 * (g 0).2 + (f 0).1 * b.2 + (a.2 * (g 0).1 + (f 0).2 * b.1))%R by (simpl; ring).
      exact A.
  Qed.
  (** sums of products along a curve *)
  Context (xc : R -> nat -> C_fld) (W : nat -> C_fld) (HW : forall i, cderiv (fun t => xc t i) (W i)).
  Notation x := (xc 0%R).
  Fixpoint dks (ks : list nat) : C_fld :=
    match ks with [] => 0 | k :: ks => W k * fprod (map x ks) + x k * dks ks end.
  Lemma cderiv_fprod ks : cderiv (fun t => fprod (map (xc t) ks)) (dks ks).
  Proof using HW.
    induction ks as [|k ks IH]; cbn [map fprod dks]; [apply cderiv_const|].
    apply (cderiv_mul (fun t => xc t k) (fun t => fprod (map (xc t) ks))); [apply HW|apply IH].
  Qed.
  Lemma others_dks ks pre : fsum (fun e => fprod (map x e.2) * W e.1) (others pre ks) = fprod (map x pre) * dks ks.
  Proof.
    revert pre. induction ks as [|k ks IH]; intros pre; cbn [others fsum dks fst snd]; [ring|].
    rewrite IH, !map_app, !fprod_app. cbn [map fprod]. ring.
  Qed.
  Lemma cderiv_poly (lt : list (mono C_fld nat)) : cderiv (fun t => poly_at (xc t) lt) (dpoly x W lt).
  Proof using HW.
    unfold poly_at, dpoly. induction lt as [|[g ks] lt IH]; cbn [fsum]; [apply cderiv_const|].
    apply (cderiv_add (fun t => prod_at (xc t) (g, ks)) (fun t => fsum (prod_at (xc t)) lt)); [|apply IH].
    unfold prod_at. cbn [fst snd].
    assert (fsum (fun e => g * fprod (map x e.2) * W e.1) (others [] ks) = 0 * fprod (map x ks) + g * dks ks) as ->.
    { rewrite (fsum_ext _ (fun e => g * (fprod (map x e.2) * W e.1))) by (intros; ring).
      rewrite fsum_mul_l, others_dks. cbn [map fprod]. ring. }
    apply (cderiv_mul (fun _ => g) (fun t => fprod (map (xc t) ks))); [apply cderiv_const|apply cderiv_fprod].
  Qed.
End deriv.

Section runs.
  Context {K : fld}.
  Local Open Scope fld_scope.
  Definition xstep (x : nat -> K) (T : nat * list (mono K nat)) : nat -> K := set_at x T.1 (x T.1 + poly_at x T.2).
  Lemma tstep_fst (xw : (nat -> K) * (nat -> K)) l : (foldl tstep xw l).1 = foldl xstep xw.1 l.
  Proof. revert xw. induction l as [|T l IH]; intros xw; [done|]. cbn [foldl]. by rewrite IH. Qed.
End runs.
Lemma cderiv_run (xc : R -> nat -> C_fld) (W : nat -> C_fld) l : (forall i, cderiv (fun t => xc t i) (W i)) ->
  forall i, cderiv (fun t => foldl xstep (xc t) l i) ((foldl tstep (xc 0%R, W) l).2 i).
Proof.
  revert xc W. induction l as [|[k lt] l IH]; intros xc W HW; [done|]. cbn [foldl].
  apply (IH (fun t => xstep (xc t) (k, lt)) (set_at W k (W k + dpoly (xc 0%R) W lt)%F)).
  intros i. unfold xstep, set_at. cbn [fst snd]. destruct (decide (i = k)) as [->|]; [|apply HW].
  apply (cderiv_add (fun t => xc t k) (fun t => poly_at (xc t) lt)); [apply HW|by apply cderiv_poly].
Qed.

(** * keys *)
Section keys.
  Context {K : fld} {P PK : Type} `{Countable P} `{Countable PK}.
  Local Open Scope fld_scope.
  Add Field FK : (f_theory K).
  Context (c : ode_spec (K := K) (P := P) (PK := PK)).
  Context (Hnd : NoDup (od_pks c)) (Hcov : forall pk, pk ∈ pks_grab (od_dLt c) -> pk ∈ od_pks c).
  Notation f := (fun pk => default [] (od_dLt c !! pk)).
  Notation h := (1 / ofnat' (od_N c)).
  Definition rel (X : P -> K) (x : nat -> K) : Prop := forall i pk, od_pks c !! i = Some pk -> x i = X pk.

  Lemma pks_inv_lookup pk : pk ∈ od_pks c -> od_pks c !! pks_inv c pk = Some pk.
  Proof.
    intros Hp. unfold pks_inv. destruct (list_find (.= pk) (od_pks c)) as [[i y]|] eqn:E.
    - apply list_find_Some in E as (E & -> & _). done.
    - apply list_find_None in E. rewrite Forall_forall in E. exfalso. by apply (E pk).
  Qed.
  Lemma dLt_keys pk lt t k : od_dLt c !! pk = Some lt -> t ∈ lt -> k ∈ t.2 -> k ∈ od_pks c.
  Proof using Hcov.
    intros E Ht Hk. apply Hcov. unfold pks_grab. rewrite elem_of_list_to_set, elem_of_list_bind.
    exists (pk, lt). split; [|by apply elem_of_map_to_list]. apply elem_of_list_further, elem_of_list_bind. eauto.
  Qed.
  Lemma base_poly X x pk lt : rel X x -> od_dLt c !! pk = Some lt ->
    poly_at x (lt_sort_collect (lt_remap c lt)) = h * poly_at X lt.
  Proof using Hcov.
    intros Hr E. rewrite sort_collect_val. unfold lt_remap, poly_at. rewrite fsum_map, <- fsum_mul_l.
    apply fsum_ext. intros t Ht. unfold prod_at. cbn [fst snd]. rewrite map_map.
    rewrite (map_ext_in _ X). { ring. }
    intros k Hk%elem_of_list_In. apply Hr, pks_inv_lookup. by eapply dLt_keys.
  Qed.
  Lemma rel_set X x pk v : rel X x -> pk ∈ od_pks c -> rel (set_at X pk v) (set_at x (pks_inv c pk) v).
  Proof using Hnd.
    intros Hr Hp i pk' Hi. unfold set_at. pose proof (pks_inv_lookup pk Hp) as Hi'.
    destruct (decide (pk' = pk)) as [->|Hn].
    - rewrite decide_True; [done|]. by eapply NoDup_lookup.
    - rewrite decide_False; [by apply Hr|]. intros ->. congruence.
  Qed.
  Lemma sweep_rel l X x : Forall (.∈ od_pks c) l -> rel X x ->
    rel (sweep h f l X) (foldl xstep x (omap (fun pk => lt ← od_dLt c !! pk; Some (pks_inv c pk, lt_sort_collect (lt_remap c lt))) l)).
  Proof using Hcov Hnd.
    unfold sweep. revert X x. induction l as [|pk l IH]; intros X x Hf Hr; [done|].
    inversion Hf as [|? ? Hp Hf']; subst. cbn [foldl omap list_omap]. unfold advance at 2.
    pose proof (pks_inv_lookup pk Hp) as Hi.
    destruct (od_dLt c !! pk) as [lt|] eqn:E; cbn [mbind option_bind default]; cbn [foldl].
    - apply IH; [done|]. unfold xstep. cbn [fst snd]. rewrite (base_poly X x pk lt Hr E), (Hr _ _ Hi). by apply rel_set.
    - apply IH; [done|]. intros i pk' Hi'. rewrite (Hr _ _ Hi'). unfold set_at, poly_at. cbn [default].
      destruct (decide (pk' = pk)) as [->|]; [cbn [fsum]; ring|done].
  Qed.
  Lemma integrate_rel X x : rel X x -> rel (integrate (od_N c) f (od_pks c) X) (foldl xstep x (concat (replicate (od_N c) (dLt_base c)))).
  Proof using Hcov Hnd.
    unfold integrate. generalize (od_N c) at 1 3. intros N. revert X x.
    induction N as [|N IH]; intros X x Hr; [done|]. rewrite Nat.iter_succ_r. cbn [replicate concat]. rewrite foldl_app.
    apply IH. apply sweep_rel; [|done]. by rewrite Forall_forall.
  Qed.
  Lemma base_keys T t k : T ∈ dLt_base c -> t ∈ T.2 -> k ∈ t.2 -> (k < length (od_pks c))%nat.
  Proof using Hcov.
    unfold dLt_base. rewrite elem_of_list_omap. intros (pk & Hp & E) Ht Hk.
    destruct (od_dLt c !! pk) as [lt|] eqn:El; [|done]. injection E as <-. cbn [snd] in Ht.
    destruct (sort_collect_keys (lt_remap c lt)) as (_ & _ & Hs).
    destruct (Hs t.2) as (u & Hu & Hperm); [apply elem_of_list_fmap; eauto|].
    rewrite Hperm in Hk. unfold lt_remap in Hu. apply elem_of_list_fmap in Hu as (v & -> & Hv).
    cbn [snd] in Hk. apply elem_of_list_fmap in Hk as (p & -> & Hp').
    eapply lookup_lt_Some, pks_inv_lookup. by eapply dLt_keys.
  Qed.

  (** * generate_solution *)
  Lemma msum_seq (m : gmap nat K) n V : (forall j v, m !! j = Some v -> (j < n)%nat) ->
    msum m V = fsum (fun j => dd_get m j * V j) (seq 0 n).
  Proof.
    intros Hd. transitivity (fsum (fun j => dd_get m j * V j) (map_to_list m).*1).
    - rewrite fsum_map. apply fsum_ext. intros [j v] Hj. apply elem_of_map_to_list in Hj. unfold dd_get. cbn [fst snd]. by rewrite Hj.
    - apply fsum_sub_list; [apply _|apply NoDup_fst_map_to_list|apply NoDup_seq| |].
      + intros j (e & -> & He)%elem_of_list_fmap. destruct e as [j v]. apply elem_of_map_to_list in He. apply Hd in He.
        apply elem_of_seq. cbn [fst]. lia.
      + intros j _ Hn. unfold dd_get. destruct (m !! j) as [v|] eqn:E; [|cbn [default]; ring].
        exfalso. apply Hn, elem_of_list_fmap. exists (j, v). split; [done|]. by apply elem_of_map_to_list.
  Qed.
  Lemma dict_of_elem {A B} `{Countable A} (l : list (A * B)) k v :
    (k, v) ∈ l -> (forall v', (k, v') ∈ l -> v = v') -> dict_of l !! k = Some v.
  Proof.
    intros Hin Hu. apply elem_of_list_to_map_1'; [|by rewrite elem_of_reverse].
    intros v' Hv'. rewrite elem_of_reverse in Hv'. by apply Hu.
  Qed.
  Lemma dict_of_inv {A B} `{Countable A} (l : list (A * B)) k v : dict_of l !! k = Some v -> (k, v) ∈ l.
  Proof. intros E%elem_of_list_to_map_2. by rewrite elem_of_reverse in E. Qed.

  Context (moved : K -> K -> bool) (ink : P -> PK).
  Context (Hin : forall pk, pk ∈ od_pks c -> od_in c !! pk = Some (ink pk)).
  Context (Hinj : forall p q, p ∈ od_pks c -> q ∈ od_pks c -> ink p = ink q -> p = q).
  Context (Hout : forall pk, pk ∈ od_pks c -> is_Some (od_out c !! pk)).
  Context (Houtj : forall p q o, p ∈ od_pks c -> q ∈ od_pks c -> od_out c !! p = Some (Some o) -> od_out c !! q = Some (Some o) -> p = q).
  Lemma mapM_ins : mapM (fun pk => od_in c !! pk) (od_pks c) = Some (ink <$> od_pks c).
  Proof using Hin. apply mapM_Some. rewrite Forall2_fmap_r. apply Forall2_same_length_lookup. split; [done|].
    intros i p q E1 E2. rewrite E1 in E2. injection E2 as <-. apply Hin. by eapply elem_of_list_lookup_2. Qed.
  Lemma mapM_outs : exists outs : list (option PK), mapM (M := option) (fun pk => od_out c !! pk) (od_pks c) = Some outs /\ (forall i pk, od_pks c !! i = Some pk -> outs !! i = od_out c !! pk) /\ length outs = length (od_pks c).
  Proof using Hout.
    destruct (mapM (M := option) (fun pk => od_out c !! pk) (od_pks c)) as [outs|] eqn:E.
    - exists outs. split; [done|]. apply mapM_Some in E. split; [|symmetry; by eapply Forall2_length].
      intros i pk Hi. destruct (Forall2_lookup_l _ _ _ _ _ E Hi) as (o & Ho & ->). done.
    - apply mapM_None in E. apply Exists_exists in E as (pk & Hp & E). destruct (Hout pk Hp). congruence.
  Qed.

  Definition tangent_at (ob : ode_obj (K := K) (PK := PK)) (X : P -> K) : Prop :=
    forall pk o, pk ∈ od_pks c -> od_out c !! pk = Some (Some o) ->
    exists (x : nat -> K) (i : nat), rel X x /\ od_pks c !! i = Some pk /\ (forall V v, rel V v -> (forall j, (length (od_pks c) <= j)%nat -> v j = 0) ->
      fsum (fun k => edge_of ob (ink k) o * V k) (od_pks c) = (foldl tstep (x, v) (concat (replicate (od_N c) (dLt_base c)))).2 i) /\ inj_of ob o = integrate (od_N c) f (od_pks c) X pk - fsum (fun k => edge_of ob (ink k) o * X k) (od_pks c).

  Lemma fsum_pks (g : P -> K) : fsum g (od_pks c) = fsum (fun j => match od_pks c !! j with Some pk => g pk | None => 0 end) (seq 0 (length (od_pks c))).
  Proof.
    enough (forall l pre : list P, fsum g l = fsum (fun j => match (pre ++ l) !! j with Some pk => g pk | None => 0 end) (seq (length pre) (length l))) as G by apply (G (od_pks c) []).
    induction l as [|a l IH]; intros pre; [done|]. cbn [length seq fsum]. rewrite list_lookup_middle by done. f_equal.
    rewrite (IH (pre ++ [a])), <- app_assoc, app_length. simpl. by rewrite Nat.add_1_r.
  Qed.

  Lemma generate_lem ob sv :
    let X pk := sol_get sv (ink pk) in
    (exists pk, pk ∈ od_pks c /\ moved (X pk) (sol_get (b_prev ob) (ink pk)) = true) ->
    exists ob', generate_solution c moved ob sv = Ok ob' /\ tangent_at ob' X /\ (forall pk, pk ∈ od_pks c -> sol_get (b_prev ob') (ink pk) = X pk).
  Proof using All.
    intros X (pkm & Hpkm & Hm). unfold generate_solution. rewrite mapM_ins.
    assert (forallb (fun pk_in => negb (moved (sol_get sv pk_in) (sol_get (b_prev ob) pk_in))) (ink <$> od_pks c) = false) as ->.
    { apply not_true_iff_false. intros Ha. rewrite forallb_forall in Ha.
      specialize (Ha (ink pkm)). unfold X in Hm. rewrite Hm in Ha. discriminate Ha. apply elem_of_list_In, elem_of_list_fmap. eauto. }
    cbv zeta. destruct mapM_outs as (outs & -> & Houts & Hlen).
    set (pkv := fun i => match (ink <$> od_pks c) !! i with Some pk_in => to_pyv (sol_get sv pk_in) | None => Int0 end).
    set (s := ode_run _ _ _). set (n := length (od_pks c)) in *.
    assert (forall i, pv (pkv i) = match od_pks c !! i with Some pk => X pk | None => 0 end) as Hpv.
    { intros i. unfold pkv. rewrite list_lookup_fmap. destruct (od_pks c !! i) as [pk|]; [|done]. cbn [fmap option_fmap option_map].
      unfold to_pyv. destruct (decide _) as [E|]; [|done]. cbn [pv]. unfold X. done. }
    assert (forall i, pkv i = Int0 \/ exists v : K, pkv i = Val v /\ v <> 0 /\ (i < n)%nat) as Hpkv.
    { intros i. unfold pkv. rewrite list_lookup_fmap. destruct (od_pks c !! i) as [pk|] eqn:Ei; [|by left]. cbn [fmap option_fmap option_map].
      unfold to_pyv. destruct (decide _) as [E|]; [by left|]. right. eexists. split; [done|]. split; [done|]. by eapply lookup_lt_Some. }
    eexists. split; [reflexivity|]. split.
    2: { assert (forall y : K, pv (to_pyv y) = y) as Htp by (intros y; unfold to_pyv; destruct (decide _); done).
      intros pk Hp. unfold sol_get at 1. cbn [b_prev].
      assert (forall v, (ink pk, v) ∈ (i ← seq 0 n; match (ink <$> od_pks c) !! i with
        | Some pk_in => if decide (pv (pkv i) = 0) then [] else [(pk_in, pv (pkv i))] | None => [] end) -> v = X pk /\ X pk <> 0) as Hel.
      { intros v (i & E & _)%elem_of_list_bind. unfold pkv in E. destruct ((ink <$> od_pks c) !! i) as [k|] eqn:Ei; [|set_solver].
        rewrite Htp in E. destruct (decide _) as [|Hne]; [set_solver|]. apply elem_of_list_singleton in E. injection E as E1 E2. subst k v. done. }
      destruct (decide (X pk = 0)) as [E0|E0].
      - destruct (dict_of _ !! ink pk) as [v|] eqn:E; [|by rewrite E0].
        apply dict_of_inv, Hel in E as [-> _]. done.
      - rewrite (dict_of_elem _ _ (X pk)); [done| |].
        + apply elem_of_list_bind. exists (pks_inv c pk). split.
          * pose proof (pks_inv_lookup pk Hp) as Hl. rewrite list_lookup_fmap, Hl. cbn [fmap option_fmap option_map].
            unfold pkv. rewrite ?list_lookup_fmap, ?Hl. cbn [fmap option_fmap option_map]. rewrite !Htp. rewrite decide_False by done. set_solver.
          * apply elem_of_seq. pose proof (lookup_lt_Some _ _ _ (pks_inv_lookup pk Hp)). unfold n. lia.
        + intros v' Hv'%Hel. by destruct Hv'. }
    (* rows stay inside *)
    assert (forall i j v, o_M s i !! j = Some v -> (j < n)%nat) as Hdom.
    { unfold s, ode_run. apply (run_dom (dLt_base c)).
      - intros T t k. apply base_keys.
      - constructor; cbn [ode_init o_pkv o_nz o_lts o_ltMs]; [|done..].
        intros i v E. destruct (Hpkv i) as [E'|(v' & E' & Hv & Hi)]; [congruence|].
        rewrite elem_of_list_to_set, elem_of_list_filter, elem_of_seq. rewrite E'. cbn [pv]. split; [done|lia].
      - rewrite Forall_forall. intros k (l & Hl & Hk)%elem_of_list_In%in_concat.
        apply elem_of_list_In, elem_of_replicate in Hl as [-> _]. apply in_seq in Hk. lia.
      - intros i j v. cbn [ode_init o_M]. by rewrite lookup_empty. }
    intros pk o Hp Ho. exists (fun i => pv (pkv i)), (pks_inv c pk).
    pose proof (pks_inv_lookup pk Hp) as Hi. set (i := pks_inv c pk) in *.
    assert (i < n)%nat as Hin' by by eapply lookup_lt_Some.
    assert (rel X (fun i => pv (pkv i))) as Hrel. { intros j q Hj. rewrite Hpv. by rewrite Hj. }
    (* edges *)
    set (sol := dict_of (io ← seq 0 n; _)).
    assert (forall j q, od_pks c !! j = Some q -> sol !! (ink q, o) = add_one (o_M s) i !! j) as Hsol.
    { intros j q Hj. destruct (add_one (o_M s) i !! j) as [v|] eqn:E.
      - apply dict_of_elem.
        + apply elem_of_list_bind. exists i. split; [|apply elem_of_seq; lia]. apply elem_of_list_bind. exists (j, v).
          split; [|by apply elem_of_map_to_list]. cbn [fst snd]. rewrite list_lookup_fmap, Hj. cbn [fmap option_fmap option_map].
          rewrite (Houts i pk Hi), Ho. set_solver.
        + intros v' (i' & E' & _)%elem_of_list_bind. apply elem_of_list_bind in E' as ([j' w] & E' & Hw). apply elem_of_map_to_list in Hw.
          cbn [fst snd] in E'. rewrite list_lookup_fmap in E'. destruct (od_pks c !! j') as [q'|] eqn:Ej'; [|set_solver]. cbn [fmap option_fmap option_map] in E'.
          destruct (od_pks c !! i') as [p'|] eqn:Ei'; [|rewrite (lookup_ge_None_2 outs) in E'; [set_solver|rewrite Hlen; by apply lookup_ge_None]].
          rewrite (Houts _ _ Ei') in E'. destruct (od_out c !! p') as [[o'|]|] eqn:Eo'; [|set_solver..].
          apply elem_of_list_singleton in E'. injection E' as E1 E2 E3. subst o' v'.
          assert (q = q') as <- by (apply Hinj; [by eapply elem_of_list_lookup_2..|done]).
          assert (j' = j) as -> by by eapply NoDup_lookup.
          assert (p' = pk) as -> by (eapply Houtj; [by eapply elem_of_list_lookup_2|done|done|done]).
          assert (i' = i) as -> by by eapply NoDup_lookup. congruence.
      - destruct (sol !! (ink q, o)) as [v|] eqn:Ev; [|done]. exfalso. unfold sol in Ev.
        apply dict_of_inv, elem_of_list_bind in Ev as (i' & E' & _). apply elem_of_list_bind in E' as ([j' w] & E' & Hw). apply elem_of_map_to_list in Hw.
        cbn [fst snd] in E'. rewrite list_lookup_fmap in E'. destruct (od_pks c !! j') as [q'|] eqn:Ej'; [|set_solver]. cbn [fmap option_fmap option_map] in E'.
        destruct (od_pks c !! i') as [p'|] eqn:Ei'; [|rewrite (lookup_ge_None_2 outs) in E'; [set_solver|rewrite Hlen; by apply lookup_ge_None]].
        rewrite (Houts _ _ Ei') in E'. destruct (od_out c !! p') as [[o'|]|] eqn:Eo'; [|set_solver..].
        apply elem_of_list_singleton in E'. injection E' as E1 E2 E3. subst o' v.
        assert (q = q') as <- by (apply Hinj; [by eapply elem_of_list_lookup_2..|done]).
        assert (j' = j) as -> by by eapply NoDup_lookup.
        assert (p' = pk) as -> by (eapply Houtj; [by eapply elem_of_list_lookup_2|done|done|done]).
        assert (i' = i) as -> by by eapply NoDup_lookup. congruence. }
    assert (forall j v, add_one (o_M s) i !! j = Some v -> (j < n)%nat) as Hdom1.
    { intros j v. unfold add_one. intros [[<- _]|[_ E]]%lookup_insert_Some; [done|by eapply Hdom]. }
    assert (forall V v, rel V v -> fsum (fun k => default 0 (sol !! (ink k, o)) * V k) (od_pks c) = msum (o_M s i) v + v i) as Hrow.
    { intros V v Hv. rewrite fsum_pks.
      transitivity (msum (add_one (o_M s) i) v).
      - rewrite (msum_seq _ n) by done. apply fsum_ext. intros j Hj%elem_of_seq.
        destruct (lookup_lt_is_Some_2 (od_pks c) j) as [q Hq]; [unfold n in Hj; lia|]. rewrite Hq, (Hsol j q Hq), (Hv j q Hq). done.
      - unfold add_one. rewrite msum_insert, (msum_delete (o_M s i) i). ring. }
    split; [done|]. split; [done|]. split.
    - intros V v Hv Hv0. unfold edge_of. cbn [b_solution]. rewrite (Hrow V v Hv).
      destruct (run_lem (dLt_base c) (od_N c) n pkv v Hpkv) as [_ Hr]. apply Hr.
    - unfold inj_of, edge_of. cbn [b_solution b_inj]. rewrite (Hrow X _ Hrel).
      unfold sol_get. erewrite dict_of_elem; [cbn [default]; reflexivity| |].
      + apply elem_of_list_bind. exists i. split; [|apply elem_of_seq; lia]. rewrite (Houts i pk Hi), Ho. apply elem_of_list_singleton. f_equal. f_equal.
        * destruct (run_lem (dLt_base c) (od_N c) n pkv (fun _ => 0) Hpkv) as [Hr _]. rewrite tstep_fst in Hr. cbn [fst] in Hr.
          transitivity (pv (o_pkv s i)); [|reflexivity]. symmetry. etransitivity; [apply Hr|]. by apply integrate_rel.
        * change (fsum _ (map_to_list (add_one (o_M s) i))) with (msum (add_one (o_M s) i) (fun i => pv (pkv i))).
          unfold add_one. rewrite msum_insert, (msum_delete (o_M s i) i). ring.
      + intros v' (i' & E' & _)%elem_of_list_bind.
        destruct (od_pks c !! i') as [p'|] eqn:Ei'; [|rewrite (lookup_ge_None_2 outs) in E'; [set_solver|rewrite Hlen; by apply lookup_ge_None]].
        rewrite (Houts _ _ Ei') in E'. destruct (od_out c !! p') as [[o'|]|] eqn:Eo'; [|set_solver..].
        apply elem_of_list_singleton in E'. injection E' as E1 E2. subst o' v'.
        assert (p' = pk) as -> by (eapply Houtj; [by eapply elem_of_list_lookup_2|done|done|done]).
        assert (i' = i) as -> by by eapply NoDup_lookup.
        f_equal.
        * destruct (run_lem (dLt_base c) (od_N c) n pkv (fun _ => 0) Hpkv) as [Hr _]. rewrite tstep_fst in Hr. cbn [fst] in Hr.
          symmetry. etransitivity; [apply Hr|]. by apply integrate_rel.
        * change (fsum _ (map_to_list (add_one (o_M s) i))) with (msum (add_one (o_M s) i) (fun i => pv (pkv i))).
          unfold add_one. rewrite msum_insert, (msum_delete (o_M s i) i). ring.
  Qed.
End keys.
