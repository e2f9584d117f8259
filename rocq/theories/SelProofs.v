(** Proofs about the selectors. *)
From stdpp Require Import base tactics numbers gmap list fin_maps.
From Verif Require Import Fld Py Herm InjModel InjSpec OptModel SigModel SigSpec PdModel PdProofs SelModel SelSpec.
Local Open Scope fld_scope.
Add Field FFc : (f_theory C_fld).

Lemma collect_ok {A B C} (g : A -> res B) (h : A -> B -> list C) ks acc r :
  mfor (fun acc k => l ← g k; Ok (acc ++ h k l)) ks acc = Ok r <->
  (forall k, k ∈ ks -> exists l, g k = Ok l) /\ r = acc ++ (ks ≫= fun k => match g k with Ok l => h k l | Err _ => [] end).
Proof.
  revert acc. induction ks as [|k ks IH]; intros acc; cbn.
  - rewrite app_nil_r. split; [intros [= ->]; split; [intros ? ?%elem_of_nil; done|done]|intros [_ ->]; done].
  - destruct (g k) as [l|e] eqn:E; cbn.
    + rewrite IH, <- app_assoc. split; intros [H ->]; (split; [|done]); intros k' Hk.
      * apply elem_of_cons in Hk as [->|Hk]; eauto.
      * apply H. by right.
    + split; [done|]. intros [H _]. destruct (H k) as [l E']; [by left|congruence].
Qed.
Lemma collect_err {A B C} (g : A -> res B) (h : A -> B -> list C) ks acc e0 :
  (forall k e, g k = Err e -> e = e0) -> (exists k, k ∈ ks /\ exists e, g k = Err e) ->
  mfor (fun acc k => l ← g k; Ok (acc ++ h k l)) ks acc = Err e0.
Proof.
  intros He. revert acc. induction ks as [|k ks IH]; intros acc (k' & Hk & e & E); [by apply elem_of_nil in Hk|].
  cbn. destruct (g k) as [l|e1] eqn:E1; cbn; [|f_equal; eauto].
  apply elem_of_cons in Hk as [->|Hk]; [congruence|]. apply IH; eauto.
Qed.

Lemma c0_add (z : C_fld) : 0 + z = z. Proof. ring. Qed.
Lemma c1_mul (z : C_fld) : 1 * z = z. Proof. ring. Qed.

Section proofs.
  Context {P A V : Type} `{Countable P} `{Countable A} `{Countable V}.
  Notation key := (gmap A V).
  Notation node := (P * key)%type.
  Notation bk := (back (P := P) (A := A) (V := V)).
  Notation js := (list (inj C_fld P key)).

  Lemma true_shares (a k : key) : k_true (k_and a k) = bool_decide (shares a k).
  Proof.
    unfold k_true. apply bool_decide_ext. unfold k_and. split.
    - intros Hn. destruct (map_choose _ Hn) as (e & v & E). apply map_filter_lookup_Some in E as [E1 E2]. by exists e, v.
    - intros (e & v & E1 & E2) E0. assert (E3 : filter (fun kv : A * V => k !! kv.1 = Some kv.2) a !! e = Some v) by (by apply map_filter_lookup_Some).
      rewrite E0 in E3. by rewrite lookup_empty in E3.
  Qed.
  Lemma chosen_true (k : key) (bs : list bk) : chosen true k bs = filter (fun b => shares (b_key b) k) bs.
  Proof.
    induction bs as [|b bs IH]; [done|]. cbn [chosen]. rewrite true_shares, filter_cons. case_bool_decide.
    - rewrite decide_True by done. by rewrite IH.
    - by rewrite decide_False.
  Qed.
  Lemma chosen_false (k : key) (bs : list bk) : chosen false k bs = take 1 (filter (fun b => shares (b_key b) k) bs).
  Proof.
    induction bs as [|b bs IH]; [done|]. cbn [chosen]. rewrite true_shares, filter_cons. case_bool_decide.
    - by rewrite decide_True.
    - by rewrite decide_False.
  Qed.
  Lemma chosen_one_err check (k : key) (bs : list bk) e : chosen_one check k bs = Err e -> e = AssertionError.
  Proof. unfold chosen_one. by case_decide; intros [= <-]. Qed.
  Lemma length_one {X} (l : list X) : length l = 1%nat <-> exists x, l = [x].
  Proof. destruct l as [|x [|y l]]; cbn; split; try done; eauto; intros [z E]; done. Qed.
  Lemma filter_selected (bs : list bk) (k : key) b : NoDup bs ->
    filter (fun b => shares (b_key b) k) bs = [b] <-> selected bs k b.
  Proof.
    intros Hnd. split.
    - intros E. assert (Hm : forall b', b' ∈ [b] <-> shares (b_key b') k /\ b' ∈ bs) by (intros b'; by rewrite <- E, elem_of_list_filter).
      destruct (Hm b) as [Hb _]. destruct Hb as [Hs Hi]; [by left|]. split; [done|]. split; [done|].
      intros b' Hi' Hs'. apply elem_of_list_singleton, Hm. done.
    - intros (Hi & Hs & Hu).
      assert (Hin : b ∈ filter (fun b => shares (b_key b) k) bs) by (by apply elem_of_list_filter).
      assert (Hnd' : NoDup (filter (fun b => shares (b_key b) k) bs)) by (by apply NoDup_filter).
      destruct (filter (fun b => shares (b_key b) k) bs) as [|b1 [|b2 l]] eqn:E.
      + by apply elem_of_nil in Hin.
      + apply elem_of_list_singleton in Hin as ->. done.
      + exfalso. assert (Hm : forall b', b' ∈ b1 :: b2 :: l -> b' = b).
        { intros b' Hb. rewrite <- E in Hb. apply elem_of_list_filter in Hb as [? ?]. by apply Hu. }
        apply NoDup_cons in Hnd' as [Hn _]. apply Hn. rewrite (Hm b1) by (by left). rewrite (Hm b2) by (right; left). by left.
  Qed.
  Lemma chosen_one_ok (bs : list bk) (k : key) l : NoDup bs ->
    chosen_one true k bs = Ok l <-> exists b, l = [b] /\ selected bs k b.
  Proof.
    intros Hnd. unfold chosen_one. rewrite chosen_true. case_decide as D.
    - apply length_one in D as [b E]. rewrite E. apply filter_selected in E as Hs; [|done]. split.
      + intros [= <-]. eauto.
      + intros (b' & -> & Hs'). apply filter_selected in Hs'; [|done]. congruence.
    - split; [done|]. intros (b & -> & Hs). exfalso. apply filter_selected in Hs; [|done]. by rewrite Hs in D.
  Qed.

  Lemma distinct_nodup fr_i fr_o (bs : list bk) : distinct fr_i fr_o bs -> NoDup bs.
  Proof.
    intros Hd. apply NoDup_cons in Hd as [_ Hd]. apply NoDup_cons in Hd as [_ Hd]. apply NoDup_app in Hd as (Hd & _ & _).
    by eapply NoDup_fmap_1.
  Qed.
  Lemma bo_inj fr_i fr_o (bs : list bk) b b' : distinct fr_i fr_o bs -> b ∈ bs -> b' ∈ bs -> b_o b = b_o b' -> b = b'.
  Proof.
    intros Hd. apply NoDup_cons in Hd as [_ Hd]. apply NoDup_cons in Hd as [_ Hd]. apply NoDup_app in Hd as (_ & _ & Hd).
    intros (i & Hi)%elem_of_list_lookup (j & Hj)%elem_of_list_lookup E.
    assert (i = j); [|by simplify_eq]. eapply NoDup_lookup; [exact Hd| |]; rewrite list_lookup_fmap; [by rewrite Hi|rewrite Hj; cbn; by rewrite E].
  Qed.
  Lemma bo_fr fr_i fr_o (bs : list bk) b : distinct fr_i fr_o bs -> b ∈ bs -> b_o b <> fr_o.
  Proof.
    intros Hd Hb E. apply NoDup_cons in Hd as [_ Hd]. apply NoDup_cons in Hd as [Hd _]. apply Hd, elem_of_app. right.
    apply elem_of_list_fmap. eauto.
  Qed.

  Definition warr (x : node -> C_fld) (n : node) (j : inj C_fld P key) : C_fld := if decide (target j = n) then amount 0 x ∅ j else 0.
  Lemma arr_eq (r : js) x n : arrives r x n = fsum (warr x n) r.
  Proof. unfold arrives, total. cbn [fsum]. apply cadd_0. Qed.

  (** the two halves of the coupling *)
  Definition fwd (fr_i : P) (bs : list bk) (check : bool) (ks : list key) : js :=
    ks ≫= fun k => match chosen_one check k bs with Ok l => (fun b => ConstantEdge (fr_i, k) (b_o b, k) 1) <$> l | Err _ => [] end.
  Definition bwd (fr_o : P) (bs : list bk) (have : P -> list key) : js :=
    bs ≫= fun b => (fun k => ConstantEdge (b_i b, k) (fr_o, k) 1) <$> have (b_i b).
  Lemma selector_ok check fr_i fr_o (bs : list bk) have r :
    selector check fr_i fr_o bs have = Ok r <->
    (forall k, k ∈ have fr_i -> exists l, chosen_one check k bs = Ok l) /\ r = fwd fr_i bs check (have fr_i) ++ bwd fr_o bs have.
  Proof.
    unfold selector. destruct (mfor _ _ _) as [r1|e] eqn:E; cbn.
    - apply collect_ok in E as [E1 ->]. cbn [app]. split; [intros [= <-]; done|intros [_ ->]; done].
    - split; [done|]. intros [Hk _]. exfalso.
      assert (E2 : mfor (fun (acc : js) (k : key) => l ← chosen_one check k bs; Ok (acc ++ ((fun b => ConstantEdge (fr_i, k) (b_o b, k) 1) <$> l))) (have fr_i) [] = Ok ([] ++ fwd fr_i bs check (have fr_i))) by (apply collect_ok; done).
      unfold C_fld in *. rewrite E in E2. done.
  Qed.
  Lemma fsum_bindl {X Y} (f : Y -> C_fld) (g : X -> list Y) l : fsum f (l ≫= g) = fsum (fun a => fsum f (g a)) l.
  Proof. induction l as [|a l IH]; [done|]. cbn [mbind list_bind fsum]. by rewrite fsum_app, IH. Qed.
  Lemma fsum_pick (f : key -> C_fld) ks k : NoDup ks -> (k ∉ ks -> f k = 0) -> fsum (fun k' => if decide (k' = k) then f k' else 0) ks = f k.
  Proof.
    intros Hnd Hz. destruct (decide (k ∈ ks)) as [Hi|Hi].
    - clear Hz. induction ks as [|a ks IH]; [by apply elem_of_nil in Hi|]. apply NoDup_cons in Hnd as [Hn Hnd]. cbn [fsum].
      destruct (decide (a = k)) as [->|Hne].
      + rewrite (fsum_0 _ ks); [apply cadd_0|]. intros k' Hk. rewrite decide_False; [done|]. intros ->. done.
      + rewrite IH; [apply c0_add|done|]. apply elem_of_cons in Hi as [->|]; done.
    - rewrite (Hz Hi). apply fsum_0. intros k' Hk. rewrite decide_False; [done|]. intros ->. done.
  Qed.
  Lemma bwd_sum fr_o (bs : list bk) have x n : within have x ->
    fsum (warr x n) (bwd fr_o bs have) = if decide (n.1 = fr_o) then fsum (fun b => x (b_i b, n.2)) bs else 0.
  Proof.
    intros [Hnd Hx]. unfold bwd. rewrite fsum_bindl. destruct n as [p k]. cbn [fst snd]. case_decide as D.
    - subst p. apply fsum_ext. intros b _. rewrite fsum_map. rewrite <- (fsum_pick (fun k => x (b_i b, k)) (have (b_i b)) k); [|done|by intros; apply Hx].
      apply fsum_ext. intros k' _. unfold warr. cbn [target amount]. destruct (decide (k' = k)) as [->|Hne].
      + rewrite decide_True by done. apply c1_mul.
      + by rewrite decide_False by congruence.
    - apply fsum_0. intros b _. rewrite fsum_map.
      apply fsum_0. intros k' _. unfold warr. cbn [target]. by rewrite decide_False by congruence.
  Qed.
  (** what one key sends *)
  Lemma fwd_sum check fr_i (bs : list bk) have x n : within have x ->
    fsum (warr x n) (fwd fr_i bs check (have fr_i)) =
    (match chosen_one check n.2 bs with Ok l => fsum (fun b => if decide (b_o b = n.1) then x (fr_i, n.2) else 0) l | Err _ => 0 end).
  Proof.
    intros [Hnd Hx]. unfold fwd. rewrite fsum_bindl. destruct n as [p k]. cbn [fst snd].
    set (F k' := match chosen_one check k' bs with Ok l => fsum (fun b => if decide (b_o b = p) then x (fr_i, k') else 0) l | Err _ => 0 end).
    change (fsum (fun k' => fsum (warr x (p, k)) (match chosen_one check k' bs with Ok l => (fun b => ConstantEdge (fr_i, k') (b_o b, k') 1) <$> l | Err _ => [] end)) (have fr_i) = F k).
    rewrite <- (fsum_pick F (have fr_i) k); [|done|].
    - apply fsum_ext. intros k' _. unfold F. destruct (chosen_one check k' bs) as [l|e]; cbn [fsum]; [|by case_decide].
      rewrite fsum_map. destruct (decide (k' = k)) as [->|Hne].
      + apply fsum_ext. intros b _. unfold warr. cbn [target amount]. destruct (decide (b_o b = p)) as [->|Hb].
        * rewrite decide_True by done. apply c1_mul.
        * by rewrite decide_False by congruence.
      + apply fsum_0. intros b _. unfold warr. cbn [target]. by rewrite decide_False by congruence.
    - intros Hk. unfold F. destruct (chosen_one check k bs) as [l|e]; [|done]. rewrite (Hx _ _ Hk).
      apply fsum_0. intros b _. by case_decide.
  Qed.
End proofs.
