From Coq Require Import Sorting.
From stdpp Require Import base tactics list numbers gmap fin_sets option.
From Verif Require Import Fld Py Herm GraphModel GraphFinal SreModel SreSpec.
Local Open Scope fld_scope.

Section mult.
  Context {K : fld} {N : Type} `{Countable N}.
  Notation sre := (graph K N).
  Context (enum : gset N -> list N).
  Context (enum_ok : forall s, enum s ≡ₚ elements s).
  Add Field FFs : (f_theory K).

  Lemma enum_elem s x : x ∈ enum s <-> x ∈ s.
  Proof. rewrite (enum_ok s). apply elem_of_elements. Qed.
  Lemma enum_nodup s : NoDup (enum s).
  Proof. rewrite (enum_ok s). apply NoDup_elements. Qed.

  (** contributions processed so far: source, target, value *)
  Notation trip := (N * N * K)%type.
  Definition tval (a b : N) (t : trip) : K :=
    if decide (t.1 = (a, b)) then t.2 else 0.
  Definition minv (T : list trip) (g : sre) : Prop :=
    (forall a b, b ∈ ds_get (g_seq g) a <-> (a, b) ∈ T.*1) /\
    (forall a b, a ∈ ds_get (g_req g) b <-> (a, b) ∈ T.*1) /\
    (forall a b, (a, b) ∈ T.*1 -> g_em g !! (a, b) = Some (fsum (tval a b) T)) /\
    (forall a b, is_Some (g_em g !! (a, b)) -> (a, b) ∈ T.*1).

  Lemma tval_none a b T : (a, b) ∉ T.*1 -> fsum (tval a b) T = 0.
  Proof.
    intros Hn. apply fsum_0. intros t Ht. unfold tval.
    destruct (decide (t.1 = (a, b))) as [E|]; [|done].
    destruct Hn. rewrite <- E. by apply elem_of_list_fmap_1.
  Qed.

  Lemma minv_nil : minv [] (Graph ∅ ∅ ∅).
  Proof.
    unfold minv, ds_get. cbn [g_seq g_req g_em fmap list_fmap]. split_and!.
    - intros a b. rewrite lookup_empty. cbn. split; intros Hx; [set_solver|by apply elem_of_nil in Hx].
    - intros a b. rewrite lookup_empty. cbn. split; intros Hx; [set_solver|by apply elem_of_nil in Hx].
    - intros a b Hx. by apply elem_of_nil in Hx.
    - intros a b. rewrite lookup_empty. intros [? ?]. done.
  Qed.
  Lemma tval_snoc a b T x y v :
    fsum (tval x y) (T ++ [(a, b, v)]) = fsum (tval x y) T + (if decide ((a, b) = (x, y)) then v else 0).
  Proof. rewrite fsum_app. f_equal. cbn [fsum]. unfold tval. cbn [fst snd]. destruct (decide ((a, b) = (x, y))); ring. Qed.

  Lemma mult_to_ok (s2 : sre) mid a e1 e2 g b T :
    b ∈ ds_get (g_seq s2) mid -> g_em s2 !! (mid, b) = Some e2 -> minv T g ->
    exists g', mult_to s2 mid a e1 g b = Ok g' /\ minv (T ++ [(a, b, e2 * e1)]) g'.
  Proof.
    intros Hb He (I1 & I2 & I3 & I4). unfold mult_to.
    rewrite decide_True by done. unfold d_get. rewrite He. cbn [mbind res_bind].
    destruct (decide (b ∈ ds_get (g_seq g) a)) as [Hin|Hin].
    - pose proof (proj1 (I1 a b) Hin) as HT. rewrite (I3 a b HT). cbn [mbind res_bind].
      eexists; split; [done|]. split_and!; simpl.
      + intros x y. rewrite I1, fmap_app, elem_of_app. simpl. rewrite elem_of_list_singleton. naive_solver.
      + intros x y. rewrite I2, fmap_app, elem_of_app. simpl. rewrite elem_of_list_singleton. naive_solver.
      + intros x y. rewrite fmap_app, elem_of_app. simpl. rewrite elem_of_list_singleton. intros Hxy.
        rewrite tval_snoc.
        destruct (decide ((a, b) = (x, y))) as [E|E].
        * injection E as <- <-. by rewrite lookup_insert.
        * rewrite lookup_insert_ne by done. rewrite I3 by naive_solver. f_equal. ring.
      + intros x y. rewrite fmap_app, elem_of_app. simpl. rewrite elem_of_list_singleton.
        destruct (decide ((a, b) = (x, y))) as [E|E]; [naive_solver|].
        rewrite lookup_insert_ne by done. naive_solver.
    - assert ((a, b) ∉ T.*1) as HT by (by rewrite <- I1).
      eexists; split; [done|]. split_and!; simpl.
      + intros x y. rewrite ds_get_add, fmap_app, elem_of_app. simpl. rewrite elem_of_list_singleton.
        destruct (decide (x = a)) as [->|]; [rewrite elem_of_union, elem_of_singleton|]; rewrite I1; naive_solver.
      + intros x y. rewrite ds_get_add, fmap_app, elem_of_app. simpl. rewrite elem_of_list_singleton.
        destruct (decide (y = b)) as [->|]; [rewrite elem_of_union, elem_of_singleton|]; rewrite I2; naive_solver.
      + intros x y. rewrite fmap_app, elem_of_app. simpl. rewrite elem_of_list_singleton. intros Hxy.
        rewrite tval_snoc.
        destruct (decide ((a, b) = (x, y))) as [E|E].
        * injection E as <- <-. rewrite lookup_insert, tval_none by done. f_equal. ring.
        * rewrite lookup_insert_ne by done. rewrite I3 by naive_solver. f_equal. ring.
      + intros x y. rewrite fmap_app, elem_of_app. simpl. rewrite elem_of_list_singleton.
        destruct (decide ((a, b) = (x, y))) as [E|E]; [naive_solver|].
        rewrite lookup_insert_ne by done. naive_solver.
  Qed.

  Definition ev (s : sre) (a b : N) : K := default 0 (g_em s !! (a, b)).
  Lemma wf_em (s : sre) a b : sre_wf s -> b ∈ ds_get (g_seq s) a -> g_em s !! (a, b) = Some (ev s a b).
  Proof. intros [_ W] Hb. destruct (W a b Hb) as [v E]. unfold ev. by rewrite E. Qed.

  Definition t_to (s1 s2 : sre) (mid a : N) : list trip :=
    (fun b => (a, b, ev s2 mid b * ev s1 a mid)) <$> enum (ds_get (g_seq s2) mid).

  Lemma mult_from_ok (s1 s2 : sre) mid g a T :
    sre_wf s1 -> sre_wf s2 -> a ∈ ds_get (g_req s1) mid -> minv T g ->
    exists g', mult_from enum s1 s2 mid g a = Ok g' /\ minv (T ++ t_to s1 s2 mid a) g'.
  Proof.
    intros W1 W2 Ha I. unfold mult_from, d_get.
    rewrite (wf_em s1) by (try done; by apply (proj1 W1)). cbn [mbind res_bind].
    apply (mfor_ind _ (fun pre g => minv (T ++ ((fun b => (a, b, ev s2 mid b * ev s1 a mid)) <$> pre)) g)).
    - cbn [fmap list_fmap]. rewrite app_nil_r. destruct I as (I1 & I2 & I3 & I4).
      split_and!; simpl; [|done..]. intros x y. rewrite <- I1. unfold ds_setdefault.
      rewrite ds_get_insert. by destruct (decide (x = a)) as [->|].
    - intros pre b post g1 E I'.
      assert (b ∈ ds_get (g_seq s2) mid) as Hb by (apply enum_elem; rewrite E; set_solver).
      rewrite fmap_app, app_assoc. cbn [fmap list_fmap].
      apply mult_to_ok; [done|by apply wf_em|done].
  Qed.

  Definition t_mid (s1 s2 : sre) (mid : N) : list trip :=
    if decide (ds_get (g_seq s2) mid = ∅) then []
    else flat_map (t_to s1 s2 mid) (enum (ds_get (g_req s1) mid)).

  Lemma mult_mid_ok dflt (s1 s2 : sre) g mid T :
    sre_wf s1 -> sre_wf s2 -> minv T g ->
    (dflt = true \/ ds_get (g_seq s2) mid = ∅ \/ mid ∈ dom (g_req s1)) ->
    exists g', mult_mid enum dflt s1 s2 g mid = Ok g' /\ minv (T ++ t_mid s1 s2 mid) g'.
  Proof.
    intros W1 W2 I Hd. unfold mult_mid, t_mid.
    destruct (decide (ds_get (g_seq s2) mid = ∅)) as [|Hne].
    { rewrite app_nil_r. by exists g. }
    assert (dd_get dflt (g_req s1) mid = Ok (ds_get (g_req s1) mid)) as ->.
    { unfold dd_get, ds_get. destruct (g_req s1 !! mid) eqn:E; [done|].
      destruct Hd as [->|[?|Hd]]; [done..|]. apply elem_of_dom in Hd as [? ?]. congruence. }
    cbn [mbind res_bind].
    apply (mfor_ind _ (fun pre g => minv (T ++ flat_map (t_to s1 s2 mid) pre) g)).
    - cbn [flat_map]. by rewrite app_nil_r.
    - intros pre a post g1 E I'.
      assert (a ∈ ds_get (g_req s1) mid) as Ha by (apply enum_elem; rewrite E; set_solver).
      rewrite flat_map_app, app_assoc. cbn [flat_map]. rewrite app_nil_r. by apply mult_from_ok.
  Qed.

  Lemma mult_mid_fail (s1 s2 : sre) g mid :
    ds_get (g_seq s2) mid <> ∅ -> mid ∉ dom (g_req s1) ->
    mult_mid enum false s1 s2 g mid = Err KeyError.
  Proof.
    intros Hne Hd. unfold mult_mid. rewrite decide_False by done. unfold dd_get.
    by rewrite (not_elem_of_dom_1 _ _ Hd).
  Qed.

  Lemma check_ok (g : sre) T : minv T g -> check_sre enum g = Ok tt.
  Proof.
    intros (I1 & I2 & I3 & I4). unfold check_sre.
    assert (forall x : unit, x = tt) as U by (by intros []).
    match goal with |- mbind _ ?m = _ => assert (m = Ok tt) as -> end.
    { apply mfor_const. intros b Hb. apply mfor_const. intros a Ha.
      apply enum_elem, I2, I1 in Ha. unfold dd_get, ds_get in *.
      destruct (g_seq g !! a); cbn in *; [by rewrite decide_True|set_solver]. }
    cbn [mbind res_bind].
    apply mfor_const. intros a Ha. apply mfor_const. intros b Hb.
    apply enum_elem, I1 in Hb. pose proof (I3 _ _ Hb) as He. apply I2 in Hb.
    unfold dd_get, ds_get in *. destruct (g_req g !! b); cbn in *; [|set_solver].
    rewrite decide_True by done. unfold d_get. by rewrite He.
  Qed.

  Definition t_all (s1 s2 : sre) : list trip := flat_map (t_mid s1 s2) (enum (dom (g_seq s2))).

  Lemma matrix_mult_ok dflt (s1 s2 : sre) :
    sre_wf s1 -> sre_wf s2 -> mult_defined dflt s1 s2 ->
    exists g, matrix_mult enum dflt s1 s2 = Ok g /\ minv (t_all s1 s2) g.
  Proof.
    intros W1 W2 Hd. unfold matrix_mult.
    destruct (mfor_ind (mult_mid enum dflt s1 s2) (fun pre g => minv (flat_map (t_mid s1 s2) pre) g)
                (enum (dom (g_seq s2))) (Graph ∅ ∅ ∅)) as (g & -> & I).
    - exact minv_nil.
    - intros pre mid post g E I. rewrite flat_map_app. cbn [flat_map]. rewrite app_nil_r.
      apply mult_mid_ok; try done.
      destruct Hd as [->|Hd]; [by left|].
      destruct (decide (ds_get (g_seq s2) mid = ∅)); [by right; left|]. right. right. auto.
    - cbn [mbind res_bind]. rewrite (check_ok g _ I). cbn [mbind res_bind]. eauto.
  Qed.

  Lemma matrix_mult_fail (s1 s2 : sre) :
    sre_wf s1 -> sre_wf s2 -> ~ mult_defined false s1 s2 ->
    matrix_mult enum false s1 s2 = Err KeyError.
  Proof.
    intros W1 W2 Hd. unfold matrix_mult.
    assert (mfor (mult_mid enum false s1 s2) (enum (dom (g_seq s2))) (Graph ∅ ∅ ∅) = Err KeyError) as ->; [|done].
    assert (Exists (fun mid => ds_get (g_seq s2) mid <> ∅ /\ mid ∉ dom (g_req s1)) (enum (dom (g_seq s2)))) as Hex.
    { destruct (decide (Exists (fun mid => ds_get (g_seq s2) mid <> ∅ /\ mid ∉ dom (g_req s1)) (enum (dom (g_seq s2))))) as [|Hn]; [done|].
      destruct Hd. right. intros mid Hne. destruct (decide (mid ∈ dom (g_req s1))) as [|Hm]; [done|].
      destruct Hn. apply Exists_exists. exists mid. split; [|done].
      apply enum_elem. apply elem_of_dom. unfold ds_get in Hne. destruct (g_seq s2 !! mid); [eauto|done]. }
    assert (exists T, minv T (Graph ∅ ∅ ∅)) as HI.
    { exists []. exact minv_nil. }
    generalize dependent (Graph (K := K) (N := N) ∅ ∅ ∅). revert Hex.
    induction (enum (dom (g_seq s2))) as [|mid l IH]; intros Hex g [T I]; [by inversion Hex|].
    cbn [mfor].
    destruct (decide (ds_get (g_seq s2) mid = ∅)) as [E|Hne].
    { unfold mult_mid at 1. rewrite decide_True by done. apply IH; [|eauto].
      inversion Hex; [naive_solver|done]. }
    destruct (decide (mid ∈ dom (g_req s1))) as [Hm|Hm].
    - destruct (mult_mid_ok false s1 s2 g mid T) as (g' & -> & I'); try done; [by right; right|].
      apply IH; [|eauto]. inversion Hex; [naive_solver|done].
    - by rewrite mult_mid_fail.
  Qed.

  Lemma t_to_mem s1 s2 mid x a b :
    (a, b) ∈ (t_to s1 s2 mid x).*1 <-> a = x /\ b ∈ ds_get (g_seq s2) mid.
  Proof.
    unfold t_to. rewrite <- list_fmap_compose. rewrite elem_of_list_fmap. split.
    - intros (y & [= -> ->] & Hy). by apply enum_elem in Hy.
    - intros [-> Hb]. exists b. split; [done|]. by apply enum_elem.
  Qed.
  Lemma fst_flat {A} (f : A -> list trip) l p : p ∈ (flat_map f l).*1 <-> exists a, a ∈ l /\ p ∈ (f a).*1.
  Proof.
    induction l as [|a l IH]; cbn [flat_map].
    - set_solver.
    - rewrite fmap_app, elem_of_app, IH. setoid_rewrite elem_of_cons. naive_solver.
  Qed.
  Lemma t_mid_mem s1 s2 mid a b :
    (a, b) ∈ (t_mid s1 s2 mid).*1 <-> a ∈ ds_get (g_req s1) mid /\ b ∈ ds_get (g_seq s2) mid.
  Proof.
    unfold t_mid. destruct (decide _) as [E|E].
    - rewrite E. set_solver.
    - rewrite fst_flat. setoid_rewrite t_to_mem. setoid_rewrite enum_elem. naive_solver.
  Qed.
  Lemma in_seq_dom (m : gmap N (gset N)) a b : b ∈ ds_get m a -> a ∈ dom m.
  Proof. unfold ds_get. intros Hb. apply elem_of_dom. destruct (m !! a); [eauto|set_solver]. Qed.
  Lemma t_all_mem s1 s2 a b :
    sre_wf s1 -> (a, b) ∈ (t_all s1 s2).*1 <-> exists m, adj s1 a m /\ adj s2 m b.
  Proof.
    intros W1. unfold t_all, adj. rewrite fst_flat. setoid_rewrite t_mid_mem. split.
    - intros (m & _ & ? & ?). exists m. split; [by apply (proj1 W1)|done].
    - intros (m & ? & ?). exists m. split_and!; [|by apply (proj1 W1)|done].
      apply enum_elem. eapply in_seq_dom. done.
  Qed.

  Lemma fsum_flat {A} (f : A -> list trip) (v : trip -> K) l :
    fsum v (flat_map f l) = fsum (fun a => fsum v (f a)) l.
  Proof. induction l as [|a l IH]; simpl; [done|]. by rewrite fsum_app, IH. Qed.

  Lemma t_mid_sum s1 s2 mid a b :
    fsum (tval a b) (t_mid s1 s2 mid)
    = if decide (a ∈ ds_get (g_req s1) mid) then
        if decide (b ∈ ds_get (g_seq s2) mid) then ev s2 mid b * ev s1 a mid else 0
      else 0.
  Proof.
    unfold t_mid. destruct (decide (ds_get (g_seq s2) mid = ∅)) as [E|E].
    { rewrite E. cbn [fsum]. destruct (decide _); [|done]. by rewrite decide_False by set_solver. }
    rewrite fsum_flat.
    rewrite (fsum_ext _ (fun x => if decide (x = a) then
        (if decide (b ∈ ds_get (g_seq s2) mid) then ev s2 mid b * ev s1 a mid else 0) else 0)).
    2: { intros x _. unfold t_to. rewrite fsum_map. unfold tval. cbn [fst snd].
      destruct (decide (x = a)) as [->|Hne].
      - rewrite (fsum_ext _ (fun y => if decide (y = b) then ev s2 mid y * ev s1 a mid else 0)).
        2: { intros y _. destruct (decide ((a, y) = (a, b))) as [E1|Hn], (decide (y = b)) as [E2|]; congruence. }
        rewrite (fsum_delta b (fun y => ev s2 mid y * ev s1 a mid)) by apply enum_nodup.
        destruct (decide (b ∈ enum _)) as [Hb|Hb]; rewrite enum_elem in Hb.
        + by rewrite decide_True.
        + by rewrite decide_False.
      - apply fsum_0. intros y _. rewrite decide_False; [done|]. intros [= -> ->]. done. }
    rewrite (fsum_delta a (fun _ => if decide (b ∈ ds_get (g_seq s2) mid) then ev s2 mid b * ev s1 a mid else 0))
      by apply enum_nodup.
    destruct (decide (a ∈ enum _)) as [Hb|Hb]; rewrite enum_elem in Hb.
    - by rewrite (decide_True (P := a ∈ ds_get (g_req s1) mid)).
    - by rewrite (decide_False (P := a ∈ ds_get (g_req s1) mid)).
  Qed.

  #[local] Instance adj_dec (s : sre) a b : Decision (adj s a b).
  Proof. unfold adj. apply _. Defined.
  Lemma entry_not (s : sre) a b : ~ adj s a b -> entry s a b = 0.
  Proof. intros Hn. unfold entry. by rewrite decide_False. Qed.

  Lemma minv_entry T (g : sre) a b : minv T g -> entry g a b = fsum (tval a b) T.
  Proof.
    intros (I1 & I2 & I3 & I4). unfold entry. destruct (decide _) as [Hb|Hb].
    - rewrite I3 by (by apply I1). done.
    - symmetry. apply tval_none. by rewrite <- I1.
  Qed.

  Lemma matrix_mult_spec dflt (s1 s2 : sre) V :
    sre_wf s1 -> sre_wf s2 -> mult_defined dflt s1 s2 ->
    NoDup V -> (forall a m b, adj s1 a m -> adj s2 m b -> m ∈ V) ->
    exists g, matrix_mult enum dflt s1 s2 = Ok g /\ sre_wf g /\
      (forall a b, adj g a b <-> exists m, adj s1 a m /\ adj s2 m b) /\
      (forall a b, entry g a b = fsum (fun m => entry s2 m b * entry s1 a m) V) /\
      (forall a b, is_Some (g_em g !! (a, b)) -> adj g a b).
  Proof.
    intros W1 W2 Hd HV Hin. destruct (matrix_mult_ok dflt s1 s2 W1 W2 Hd) as (g & Hg & I).
    exists g. split; [done|]. pose proof I as (I1 & I2 & I3 & I4). split_and!.
    - split; [intros a b; by rewrite I1, I2|]. intros a b Hb. rewrite I3 by (by apply I1). eauto.
    - intros a b. unfold adj at 1. rewrite I1. by apply t_all_mem.
    - intros a b. rewrite (minv_entry _ _ _ _ I). unfold t_all. rewrite fsum_flat.
      rewrite (fsum_ext _ (fun m => entry s2 m b * entry s1 a m)).
      2: { intros m _. rewrite t_mid_sum. unfold entry, ev.
        destruct (decide (a ∈ ds_get (g_req s1) m)) as [Ha|Ha]; rewrite <- (proj1 W1) in Ha.
        - rewrite (decide_True (P := m ∈ ds_get (g_seq s1) a)) by done.
          destruct (decide (b ∈ _)); [done|]. ring.
        - rewrite (decide_False (P := m ∈ ds_get (g_seq s1) a)) by done. ring. }
      transitivity (fsum (fun m => entry s2 m b * entry s1 a m) (filter (fun m => adj s1 a m /\ adj s2 m b) V)).
      + symmetry. apply fsum_sub_list; [apply _|by apply NoDup_filter|apply enum_nodup| |].
        * intros m Hm. apply elem_of_list_filter in Hm as [[? ?] _]. apply enum_elem. by eapply in_seq_dom.
        * intros m _ Hm. rewrite elem_of_list_filter in Hm.
          destruct (decide (adj s1 a m)) as [H1|]; [|rewrite (entry_not s1) by done; ring].
          destruct (decide (adj s2 m b)) as [H2|]; [|rewrite (entry_not s2) by done; ring].
          destruct Hm. split; [done|]. by apply (Hin a m b).
      + apply fsum_sub_list; [apply _|by apply NoDup_filter|done| |].
        { intros m Hm. by apply elem_of_list_filter in Hm as [_ ?]. }
        intros m Hm Hf. rewrite elem_of_list_filter in Hf.
        destruct (decide (adj s1 a m)) as [H1|]; [|rewrite (entry_not s1) by done; ring].
        destruct (decide (adj s2 m b)) as [H2|]; [|rewrite (entry_not s2) by done; ring].
        destruct Hf. done.
    - intros a b Hs. apply I1, I4, Hs.
  Qed.
End mult.

Section adjoint.
  Context {K : fld} {N : Type} `{Countable N}.
  Notation sre := (graph K N).
  Context (conj : K -> K).

  Definition flip (k : N * N) : N * N := (k.2, k.1).
  #[global] Instance flip_inj : Inj (=) (=) flip.
  Proof. intros [] [] [= -> ->]. done. Qed.

  Lemma adjoint_lookup (s : sre) a b :
    g_em (adjoint_sre conj s) !! (a, b) = conj <$> g_em s !! (b, a).
  Proof.
    unfold adjoint_sre. cbn [g_em]. change (a, b) with (flip (b, a)).
    change (fun k : N * N => (k.2, k.1)) with flip.
    rewrite (lookup_kmap flip). by rewrite lookup_fmap.
  Qed.

  Lemma adjoint_wf (s : sre) : sre_wf s -> sre_wf (adjoint_sre conj s).
  Proof.
    intros [W1 W2]. split.
    - intros a b. cbn. symmetry. apply W1.
    - intros a b Hb. rewrite adjoint_lookup. cbn in Hb. apply W1, W2 in Hb as [v ->]. cbn. eauto.
  Qed.

  Context (conj_0 : conj 0 = 0).
  Lemma adjoint_adj (s : sre) a b : sre_wf s -> adj (adjoint_sre conj s) a b <-> adj s b a.
  Proof. intros [W _]. unfold adj. cbn. by rewrite W. Qed.
  Lemma adjoint_entry (s : sre) a b :
    sre_wf s -> entry (adjoint_sre conj s) a b = conj (entry s b a).
  Proof.
    intros W. unfold entry. rewrite adjoint_lookup. cbn [adjoint_sre g_seq].
    destruct (decide (b ∈ ds_get (g_req s) a)) as [Hb|Hb]; rewrite <- (proj1 W) in Hb.
    - rewrite decide_True by done. destruct (proj2 W _ _ Hb) as [v ->]. done.
    - rewrite decide_False by done. done.
  Qed.

  Context (conj_conj : forall x, conj (conj x) = x).
  Lemma adjoint_adjoint (s : sre) : adjoint_sre conj (adjoint_sre conj s) = s.
  Proof.
    destruct s as [seq req em]. unfold adjoint_sre. cbn [g_seq g_req g_em]. f_equal.
    apply map_eq. intros [a b].
    change (fun k : N * N => (k.2, k.1)) with flip.
    change (a, b) with (flip (b, a)) at 1. rewrite (lookup_kmap flip), lookup_fmap.
    change (b, a) with (flip (a, b)). rewrite (lookup_kmap flip), lookup_fmap.
    destruct (em !! (a, b)); cbn; [|done]. by rewrite conj_conj.
  Qed.
End adjoint.

Section rev.
  Context {K : fld} {N : Type} `{Countable N}.
  Notation sre := (graph K N).
  Context (enum : gset N -> list N).
  Context (enum_ok : forall s, enum s ≡ₚ elements s).
  Context (conj : K -> K) (conj_add : forall x y, conj (x + y) = conj x + conj y)
          (conj_mul : forall x y, conj (x * y) = conj x * conj y) (conj_0 : conj 0 = 0).
  Add Field FFr : (f_theory K).

  Lemma conj_fsum {A} (f : A -> K) l : conj (fsum f l) = fsum (fun a => conj (f a)) l.
  Proof. induction l as [|a l IH]; simpl; [done|]. by rewrite conj_add, IH. Qed.

  (** the middle nodes of a product *)
  Definition mids (s2 : sre) : list N := elements (dom (g_seq s2)).

  Lemma adjoint_product dflt dflt' (s1 s2 p q : sre) :
    sre_wf s1 -> sre_wf s2 ->
    matrix_mult enum dflt s1 s2 = Ok p ->
    matrix_mult enum dflt' (adjoint_sre conj s2) (adjoint_sre conj s1) = Ok q ->
    forall a b, (adj q a b <-> adj (adjoint_sre conj p) a b) /\
                entry q a b = entry (adjoint_sre conj p) a b.
  Proof.
    intros W1 W2 Hp Hq.
    assert (forall d (t1 t2 r : sre), sre_wf t1 -> sre_wf t2 -> matrix_mult enum d t1 t2 = Ok r -> mult_defined d t1 t2) as Hdef.
    { intros d t1 t2 r V1 V2 Hr. destruct d; [by left|].
      destruct (decide (Forall (fun mid => ds_get (g_seq t2) mid <> ∅ -> mid ∈ dom (g_req t1)) (elements (dom (g_seq t2))))) as [Hf|Hf].
      - right. intros mid Hne. apply (proj1 (Forall_forall _ _) Hf mid); [|done].
        apply elem_of_elements, elem_of_dom. unfold ds_get in Hne. destruct (g_seq t2 !! mid); [eauto|done].
      - rewrite (matrix_mult_fail enum enum_ok) in Hr; [done..|].
        intros [|Hd]; [done|]. destruct Hf. apply Forall_forall. auto. }
    pose proof (adjoint_wf conj s1 W1) as W1'. pose proof (adjoint_wf conj s2 W2) as W2'.
    set (V := elements (dom (g_seq s2) ∪ dom (g_seq (adjoint_sre conj s1)))).
    destruct (matrix_mult_spec enum enum_ok dflt s1 s2 V) as (p' & Hp' & Wp & Ap & Ep & _);
      [done..|by eapply Hdef|apply NoDup_elements| |].
    { intros a m b Ha Hb. apply elem_of_elements, elem_of_union_l. by eapply in_seq_dom. }
    destruct (matrix_mult_spec enum enum_ok dflt' (adjoint_sre conj s2) (adjoint_sre conj s1) V) as (q' & Hq' & Wq & Aq & Eq & _);
      [done..|by eapply Hdef|apply NoDup_elements| |].
    { intros a m b Ha Hb. apply elem_of_elements, elem_of_union_r. by eapply in_seq_dom. }
    assert (p' = p) as -> by congruence. assert (q' = q) as -> by congruence.
    intros a b. split.
    - rewrite Aq, adjoint_adj by done. rewrite Ap. setoid_rewrite adjoint_adj; [|done..]. naive_solver.
    - rewrite Eq, adjoint_entry, Ep by done. rewrite conj_fsum. apply fsum_ext. intros m _.
      rewrite !adjoint_entry by done. rewrite conj_mul. ring.
  Qed.
End rev.

Section stack.
  Context {A : Type}.
  Fixpoint lprod (rs : list (list A)) : list (list A) :=
    match rs with [] => [[]] | r :: rs => flat_map (fun v => (v ::.) <$> lprod rs) r end.

  Lemma sr_loop_top rs : forall (rest : list (list A)) (it : list A) its' tup tups' out,
    drop (S (length its')) rs = rest ->
    exists c, forall f, sr_loop (c + f)%nat rs (it :: its') (tup :: tups') out
      = sr_loop f rs its' tups' (out ++ ((tup ++.) <$> flat_map (fun v => (v ::.) <$> lprod rest) it)).
  Proof.
    induction rest as [|r rest IH]; intros it its' tup tups' out Hd.
    - exists 1%nat. intros f. cbn [Nat.add sr_loop length]. rewrite Hd. do 2 f_equal.
      induction it as [|v it IHit]; [done|]. cbn [flat_map lprod fmap list_fmap app].
      f_equal. exact IHit.
    - revert out. induction it as [|v it IHit]; intros out.
      + exists 1%nat. intros f. cbn [Nat.add sr_loop length]. rewrite Hd. cbn. by rewrite app_nil_r.
      + assert (drop (S (length (it :: its'))) rs = rest) as Hd'.
        { cbn [length]. rewrite <- (Nat.add_1_r (S (length its'))), <- drop_drop, Hd. done. }
        destruct (IH r (it :: its') (tup ++ [v]) (tup :: tups') out Hd') as [c1 H1].
        destruct (IHit (out ++ (app tup <$> (cons v <$> lprod (r :: rest))))) as [c2 H2].
        exists (S (c1 + c2)). intros f. cbn [Nat.add sr_loop length]. rewrite Hd.
        rewrite <- Nat.add_assoc. rewrite H1.
        assert (forall L, app (tup ++ [v]) <$> L = app tup <$> (cons v <$> L)) as ->.
        { intros L. rewrite <- list_fmap_compose. apply list_fmap_ext. intros _ x _. cbn. by rewrite <- app_assoc. }
        change (flat_map (fun v0 => cons v0 <$> lprod rest) r) with (lprod (r :: rest)).
        rewrite H2. f_equal. rewrite <- app_assoc. f_equal.
        cbn [flat_map]. by rewrite fmap_app.
  Qed.

  Lemma stackrange_ok rs : rs <> [] ->
    exists c, forall f, (c <= f)%nat -> stackrange f rs = Ok (lprod rs).
  Proof.
    destruct rs as [|r rs]; [done|]. intros _.
    destruct (sr_loop_top (r :: rs) rs r [] [] [] []) as [c Hc]; [cbn; by rewrite drop_0|].
    exists (c + 1)%nat. intros f Hf. unfold stackrange.
    assert (f = c + (1 + (f - (c + 1))))%nat as -> by lia.
    rewrite Hc. cbn [Nat.add sr_loop]. f_equal. cbn [app].
    change (lprod (r :: rs)) with (flat_map (fun v => (v ::.) <$> lprod rs) r).
    rewrite <- (list_fmap_id (flat_map _ _)) at 2. by apply list_fmap_ext.
  Qed.

  Lemma lprod_mem rs t : t ∈ lprod rs <-> Forall2 (fun v r => v ∈ r) t rs.
  Proof.
    revert t. induction rs as [|r rs IH]; intros t; cbn [lprod].
    - rewrite elem_of_list_singleton. split; [by intros ->|by inversion 1].
    - rewrite elem_of_list_In, in_flat_map. setoid_rewrite <- elem_of_list_In.
      setoid_rewrite elem_of_list_fmap. split.
      + intros (v & Hv & t' & -> & Ht'). constructor; [done|]. by apply IH.
      + inversion 1 as [|v ? t' ? Hv Ht']; subst. exists v. split; [done|]. exists t'. split; [done|by apply IH].
  Qed.
End stack.

Lemma sorted_app {A} (R : A -> A -> Prop) l1 l2 :
  StronglySorted R l1 -> StronglySorted R l2 -> (forall x y, x ∈ l1 -> y ∈ l2 -> R x y) ->
  StronglySorted R (l1 ++ l2).
Proof.
  induction 1 as [|a l1 Hs IH Hf]; intros H2 Hx; [done|]. cbn. constructor.
  - apply IH; [done|]. intros x y ? ?. apply Hx; set_solver.
  - apply Forall_app. split; [done|]. apply Forall_forall. intros y Hy. apply Hx; set_solver.
Qed.

Lemma lprod_sorted (ns : list nat) :
  StronglySorted lex_lt (lprod (seq 0 <$> ns)).
Proof.
  induction ns as [|n ns IH]; cbn [fmap list_fmap lprod].
  - constructor; [constructor|done].
  - assert (forall j s, StronglySorted lex_lt (flat_map (fun v => (v ::.) <$> lprod (seq 0 <$> ns)) (seq s j))) as G; [|apply G].
    induction j as [|j IHj]; intros s; cbn [seq flat_map]; [constructor|].
    apply sorted_app; [|apply IHj|].
    + clear IHj. induction IH as [|t l Hl IHl Hf]; [constructor|]. rewrite fmap_cons. constructor; [done|].
      apply Forall_fmap. eapply Forall_impl; [done|]. intros u Hu. by constructor.
    + intros x y (t & -> & Ht)%elem_of_list_fmap Hy.
      apply elem_of_list_In, in_flat_map in Hy as (v & Hv & Hy).
      apply in_seq in Hv. apply elem_of_list_In, elem_of_list_fmap in Hy as (t' & -> & Ht').
      apply lprod_mem in Ht, Ht'. apply Forall2_length in Ht, Ht'. constructor; [lia|congruence].
Qed.

Lemma stackrange_range (ns : list nat) : ns <> [] ->
  exists c l, (forall f, (c <= f)%nat -> stackrange f (seq 0 <$> ns) = Ok l) /\
    (forall t, t ∈ l <-> Forall2 (fun i n => (i < n)%nat) t ns) /\
    StronglySorted lex_lt l.
Proof.
  intros Hne. destruct (stackrange_ok (seq 0 <$> ns)) as [c Hc].
  { by destruct ns. }
  exists c, (lprod (seq 0 <$> ns)). split; [done|]. split; [|apply lprod_sorted].
  intros t. rewrite lprod_mem. rewrite Forall2_fmap_r.
  split; intros Hf; eapply Forall2_impl; try done; intros v n Hv; cbn in *.
  - apply elem_of_seq in Hv. lia.
  - apply elem_of_seq. lia.
Qed.

Lemma mk_graph_wf {K : fld} (links : list ((nat * nat) * K)) :
  sre_wf (mk_graph ((fun l => (l.1, Some l.2)) <$> links)).
Proof.
  split; [intros a b; apply mk_graph_mirror|].
  unfold mk_graph.
  assert (forall g : graph K (wnode nat),
    (forall a b, b ∈ ds_get (g_seq g) a -> is_Some (g_em g !! (a, b))) ->
    forall a b, b ∈ ds_get (g_seq (fold_left (fun g (l : (nat * nat) * option K) => Graph (ds_add (g_seq g) (Nd l.1.1) (Nd l.1.2)) (ds_add (g_req g) (Nd l.1.2) (Nd l.1.1))
                          (match l.2 with Some v => <[(Nd l.1.1, Nd l.1.2) := v]> (g_em g) | None => g_em g end))
            ((fun l => (l.1, Some l.2)) <$> links) g)) a ->
      is_Some (g_em (fold_left (fun g (l : (nat * nat) * option K) => Graph (ds_add (g_seq g) (Nd l.1.1) (Nd l.1.2)) (ds_add (g_req g) (Nd l.1.2) (Nd l.1.1))
                          (match l.2 with Some v => <[(Nd l.1.1, Nd l.1.2) := v]> (g_em g) | None => g_em g end))
            ((fun l => (l.1, Some l.2)) <$> links) g) !! (a, b))) as G.
  { induction links as [|[[x y] v] links IH]; intros g Hg; [done|].
    rewrite fmap_cons. cbn [fold_left fst snd]. apply IH. cbn [g_seq g_em]. intros a b.
    rewrite ds_get_add. destruct (decide ((Nd x, Nd y) = (a, b))) as [E|E].
    - rewrite E, lookup_insert. eauto.
    - rewrite lookup_insert_ne by done. destruct (decide (a = Nd x)) as [->|].
      + rewrite elem_of_union, elem_of_singleton. intros [->|?]; [done|]. auto.
      + auto. }
  apply G. intros a b. unfold ds_get. cbn. rewrite lookup_empty. cbn. set_solver.
Qed.


Lemma stackrange_empty : exists rs : list (list nat), forall f, stackrange f rs = Err IndexError.
Proof. exists []. done. Qed.
