(** Lemmas for SecProps.v. *)
From stdpp Require Import base tactics numbers sorting sets list.
From Verif Require Import Py SecModel SecSpec.

(** ** pairs and parity *)
Fixpoint pairs (l : list nat) : list (nat * nat) :=
  match l with a :: b :: l => (a, b) :: pairs l | _ => [] end.
Lemma zip_pairs_aux n : forall l, length l <= n -> zip (evens l) (odds l) = pairs l.
Proof.
  induction n as [|n IH]; intros [|a [|b l]] Hl; simpl in Hl; try done; try lia.
  assert (odds (a :: b :: l) = b :: odds l) as -> by (by destruct l).
  change (evens (a :: b :: l)) with (a :: evens l). cbn [zip_with pairs]. f_equal. apply IH. lia.
Qed.
Lemma zip_pairs l : zip (evens l) (odds l) = pairs l.
Proof. by apply (zip_pairs_aux (length l)). Qed.
Fixpoint par (l : list nat) (i : nat) : bool :=
  match l with [] => false | a :: l => xorb (bool_decide (a <= i)) (par l i) end.
Lemma par_app l1 l2 i : par (l1 ++ l2) i = xorb (par l1 i) (par l2 i).
Proof. induction l1 as [|a l1 IH]; simpl; [by destruct (par l2 i)|]. rewrite IH. by rewrite xorb_assoc. Qed.
Fixpoint evn (l : list nat) : bool := match l with [] => true | _ :: l => negb (evn l) end.
Lemma evn_app l1 l2 : evn (l1 ++ l2) = eqb (evn l1) (evn l2).
Proof. induction l1 as [|a l1 IH]; simpl; [by destruct (evn l2)|]. rewrite IH. by destruct (evn l1), (evn l2). Qed.
Lemma evn_mod_aux n : forall l, length l <= n -> evn l = bool_decide (length l `mod` 2 = 0).
Proof.
  induction n as [|n IH]; intros [|a [|b l]] Hl; simpl in Hl; try done; try lia.
  cbn [evn length]. rewrite negb_involutive. rewrite IH by lia. replace (S (S (length l))) with (length l + 1 * 2) by lia.
  by rewrite Nat.mod_add by lia.
Qed.
Lemma evn_mod l : evn l = bool_decide (length l `mod` 2 = 0).
Proof. by apply (evn_mod_aux (length l)). Qed.
(** sorted from [a] to [b] *)
Fixpoint srt (a b : nat) (l : list nat) : Prop :=
  match l with [] => a <= b | x :: l => a <= x /\ srt x b l end.
Lemma srt_le l : forall a b, srt a b l -> a <= b.
Proof. induction l as [|x l IH]; simpl; intros a b H; [lia|]. destruct H as [? H]. apply IH in H. lia. Qed.
Lemma srt_weak l : forall a a' b, srt a b l -> a' <= a -> srt a' b l.
Proof. destruct l; simpl; intros; [lia|]. naive_solver lia. Qed.
Lemma srt_app l1 : forall l2 a b c, srt a b l1 -> srt b c l2 -> srt a c (l1 ++ l2).
Proof. induction l1 as [|x l1 IH]; simpl; intros l2 a b c H1 H2; [by eapply srt_weak|]. destruct H1. split; [done|]. by eapply IH. Qed.
Lemma par_lt l : forall a b i, srt a b l -> i < a -> par l i = false.
Proof.
  induction l as [|x l IH]; simpl; intros a b i H Hi; [done|]. destruct H as [H1 H]. rewrite bool_decide_eq_false_2 by lia.
  by rewrite (IH x b i) by (done || lia).
Qed.
Lemma par_ge l : forall a b i, srt a b l -> b <= i -> par l i = negb (evn l).
Proof.
  induction l as [|x l IH]; simpl; intros a b i H Hi; [done|]. destruct H as [H1 H]. pose proof (srt_le _ _ _ H). rewrite bool_decide_eq_true_2 by lia.
  rewrite (IH x b i) by done. by destruct (evn l).
Qed.
Lemma covered_cons x l i : covered (x :: l) i <-> fst x <= i < snd x \/ covered l i.
Proof.
  unfold covered. split.
  - intros (s & e & H & Hi). apply elem_of_cons in H as [<-|H]; [by left|]. right. eauto.
  - intros [H|(s & e & H & Hi)]; [exists (fst x), (snd x)|exists s, e]; (split; [|done]); apply elem_of_cons; [left; by destruct x|by right].
Qed.
Lemma covered_nil i : ~ covered [] i.
Proof. intros (s & e & H & _). by apply elem_of_nil in H. Qed.
Lemma covered_pairs_aux n : forall l a b i, length l <= n -> srt a b l -> evn l = true -> (covered (pairs l) i <-> par l i = true).
Proof.
  induction n as [|n IH]; intros [|x [|y l]] a b i Hl Hs He; simpl in Hl; try lia; try done.
  - split; [by intros ?%covered_nil|done].
  - split; [by intros ?%covered_nil|done].
  - cbn [pairs]. rewrite covered_cons. cbn [srt evn par fst snd] in *. destruct Hs as (H1 & H2 & Hs). rewrite negb_involutive in He.
    rewrite (IH l y b i) by (done || lia). destruct (decide (y <= i)).
    + rewrite !bool_decide_eq_true_2 by lia. destruct (par l i); simpl; intuition lia.
    + rewrite (par_lt l y b i) by (done || lia). rewrite (bool_decide_eq_false_2 (y <= i)) by lia. simpl. rewrite xorb_false_r, bool_decide_eq_true. intuition (try lia || done).
Qed.
Lemma covered_pairs l a b i : srt a b l -> evn l = true -> (covered (pairs l) i <-> par l i = true).
Proof. by apply (covered_pairs_aux (length l)). Qed.

(** ** the boundaries of the array *)
Fixpoint chg (k : nat) (p : bool) (l : list bool) : list nat :=
  match l with [] => [] | x :: l => (if xorb p x then [k] else []) ++ chg (S k) x l end.
Lemma argwhere_S l : forall k, S <$> argwhere k l = argwhere (S k) l.
Proof. induction l as [|x l IH]; intros k; simpl; [done|]. destruct x; simpl; by rewrite IH. Qed.
Lemma argwhere_chg l : forall k p, argwhere k (zip_with xorb l (p :: l)) = chg k p l.
Proof.
  induction l as [|x l IH]; intros k p; [done|]. change (zip_with xorb (x :: l) (p :: x :: l)) with (xorb x p :: zip_with xorb l (x :: l)).
  cbn [argwhere chg]. rewrite (xorb_comm x p). destruct (xorb p x); simpl; by rewrite IH.
Qed.
Lemma chg_par l : forall k p i x, l !! i = Some x -> par (chg k p l) (k + i) = xorb p x.
Proof.
  induction l as [|y l IH]; intros k p i x H; [done|]. cbn [chg]. rewrite par_app.
  assert (par (if xorb p y then [k] else []) (k + i) = xorb p y) as ->.
  { destruct (xorb p y); [|done]. cbn [par]. by rewrite bool_decide_eq_true_2 by lia. }
  destruct i as [|i]; simpl in H.
  - injection H as ->. assert (par (chg (S k) x l) (k + 0) = false) as ->; [|by destruct p, x].
    assert (forall l k p j, j < k -> par (chg k p l) j = false) as G; [|apply G; lia].
    clear. induction l as [|y l IH]; intros k p j Hj; [done|]. cbn [chg]. rewrite par_app, IH by lia. destruct (xorb p y); [|done]. cbn [par].
    by rewrite bool_decide_eq_false_2 by lia.
  - replace (k + S i) with (S k + i) by lia. rewrite (IH _ _ _ _ H). by destruct p, y, x.
Qed.
Lemma chg_srt l : forall k p, srt k (k + length l - 1) (chg k p l) \/ l = [].
Proof.
  induction l as [|x l IH]; intros k p; [by right|]. left. cbn [chg length]. destruct (IH (S k) x) as [H| ->].
  - destruct (xorb p x); simpl; [split; [done|]|]; (eapply srt_weak; [|instantiate (1 := S k); lia]); by replace (k + S (length l) - 1) with (S k + length l - 1) by lia.
  - destruct (xorb p x); simpl; lia.
Qed.
Lemma chg_evn l : forall k p, evn (chg k p l) = eqb p (default p (last l)).
Proof.
  induction l as [|x l IH]; intros k p; [by destruct p|]. cbn [chg]. rewrite evn_app, IH.
  assert (default p (last (x :: l)) = default x (last l)) as ->. { destruct l as [|y l]; [done|]. rewrite last_cons_cons. destruct (last (y :: l)) eqn:E; [done|]. by apply last_None in E. }
  by destruct p, x, (default _ (last l)).
Qed.
(** the list of section boundaries *)
Definition bnd (b : list bool) : list nat :=
  chg 0 false b ++ (if default false (last b) then [length b - 1] else []).
Lemma sections_bnd b r : b <> [] ->
  generate_sections b r = Ok (match pairs (bnd b), last (pairs (bnd b)), r with
    | s0 :: l, Some s1, Some r => pairs (fst s0 :: gaps r s0 l ++ [snd s1])
    | _, _, _ => pairs (bnd b) end).
Proof.
  intros Hb. destruct b as [|b0 b]; [done|]. unfold generate_sections. cbn [tail head].
  destruct (last (b0 :: b)) as [b1|] eqn:El; [|by apply last_None in El].
  rewrite argwhere_S, argwhere_chg.
  assert ((if b0 then [0] else []) ++ chg 1 b0 b ++ (if b1 then [length (b0 :: b) - 1] else []) = bnd (b0 :: b)) as E.
  { unfold bnd. rewrite El. cbn [chg default]. replace (xorb false b0) with b0 by (by destruct b0). by rewrite <- app_assoc. }
  rewrite E. clear E. assert (evn (bnd (b0 :: b)) = true) as He.
  { unfold bnd. rewrite evn_app, chg_evn, El. by destruct b1. }
  rewrite evn_mod in He. apply bool_decide_eq_true in He. destruct (decide _); [|done]. rewrite !zip_pairs.
  destruct (pairs (bnd (b0 :: b))) as [|s0 l]; [done|]. destruct (last (s0 :: l)) as [s1|]; [|done]. destruct r; [|done]. by rewrite zip_pairs.
Qed.
Lemma bnd_evn b : evn (bnd b) = true.
Proof. unfold bnd. rewrite evn_app, chg_evn. by destruct (last b) as [[]|]. Qed.
Lemma bnd_srt b : srt 0 (length b - 1) (bnd b).
Proof.
  unfold bnd. destruct (chg_srt b 0 false) as [H| ->]; [|simpl; lia]. eapply srt_app; [exact H|]. simpl. destruct (default _ _); simpl; lia.
Qed.
Lemma bnd_par b i x : b !! i = Some x -> S i < length b -> par (bnd b) i = x.
Proof.
  intros H Hi. unfold bnd. rewrite par_app. change i with (0 + i) at 1. rewrite (chg_par _ _ _ _ _ H).
  destruct (default _ _); cbn [par]; [rewrite bool_decide_eq_false_2 by lia|]; by destruct x.
Qed.
Lemma bnd_covered b i : covered (pairs (bnd b)) i <-> b !! i = Some true /\ S i < length b.
Proof.
  rewrite (covered_pairs _ _ _ i (bnd_srt b) (bnd_evn b)). split.
  - intros H. destruct (decide (S i < length b)) as [Hi|Hi].
    + destruct (lookup_lt_is_Some_2 b i) as [x Hx]; [lia|]. by rewrite (bnd_par b i x Hx Hi) in H; subst.
    + rewrite (par_ge _ _ _ i (bnd_srt b)), bnd_evn in H by lia. done.
  - intros [H Hi]. by apply bnd_par.
Qed.
(** ** apart *)
Fixpoint ssrt (l : list nat) : Prop :=
  match l with [] => True | x :: l => match l with [] => True | y :: _ => x < y end /\ ssrt l end.
Lemma chg_ssrt l : forall k p, ssrt (chg k p l) /\ match chg k p l with [] => True | x :: _ => k <= x end.
Proof.
  induction l as [|x l IH]; intros k p; [done|]. cbn [chg]. destruct (IH (S k) x) as [H1 H2]. destruct (xorb p x); simpl.
  - split; [|done]. split; [|done]. by destruct (chg (S k) x l).
  - split; [done|]. destruct (chg (S k) x l); [done|lia].
Qed.
Lemma ssrt_pairs n : forall l m, length l <= n -> ssrt l -> evn l = negb m -> (forall x, last l = Some x -> x <= 0 + x) ->
  forall z, (forall x, x ∈ l -> x <= z) -> apart (pairs (l ++ if m then [z] else [])) /\
    match pairs (l ++ if m then [z] else []) with [] => True | (s, _) :: _ => head l = Some s end.
Proof.
  induction n as [|n IH]; intros [|x [|y l]] m Hl Hs He _ z Hz; simpl in Hl; try lia.
  - by destruct m.
  - by destruct m.
  - destruct m; [|done]. simpl. split; [|done]. split; [apply Hz; set_solver|done].
  - destruct Hs as (H1 & H2 & Hs). cbn [evn] in He. rewrite negb_involutive in He.
    destruct (IH l m ltac:(lia) Hs He ltac:(lia) z) as [G1 G2]; [set_solver|].
    cbn [app pairs apart fst snd head]. split; [|done]. split; [simpl in H1; lia|]. split; [|done].
    destruct (pairs (l ++ _)) as [|[s e] ?]; [done|]. destruct l as [|w l]; [done|]. injection G2 as ->. simpl. lia.
Qed.
Lemma srt_in l : forall a b x, srt a b l -> x ∈ l -> x <= b.
Proof.
  induction l as [|y l IH]; intros a b x H Hx; [by apply elem_of_nil in Hx|]. destruct H as [H1 H]. apply elem_of_cons in Hx as [->|Hx]; [|by eapply IH].
  by eapply srt_le.
Qed.
Lemma bnd_apart b : apart (pairs (bnd b)).
Proof.
  pose proof (chg_ssrt b 0 false) as [H _]. unfold bnd.
  destruct (ssrt_pairs (length (chg 0 false b)) (chg 0 false b) (default false (last b)) ltac:(lia) H) with (z := length b - 1) as [G _]; [|lia| |done].
  - rewrite chg_evn. by destruct (default _ _).
  - intros x Hx. destruct (chg_srt b 0 false) as [G| ->]; [|by apply elem_of_nil in Hx]. by eapply srt_in.
Qed.

(** ** joining *)
Fixpoint D (r e : nat) (l : list (nat * nat)) : list nat :=
  match l with [] => [e] | (s', e') :: l => (if decide (r < s' - e) then [e; s'] else []) ++ D r e' l end.
Lemma gaps_D r l : forall s0 s1, last (s0 :: l) = Some s1 -> gaps r s0 l ++ [snd s1] = D r (snd s0) l.
Proof.
  induction l as [|[s' e'] l IH]; intros s0 s1 H; [simpl in H; by injection H as ->|]. cbn [gaps D fst snd]. rewrite <- app_assoc.
  f_equal. apply IH. by rewrite last_cons_cons in H.
Qed.
Lemma small_gap_cons r x y l i : small_gap r (x :: y :: l) i <-> (fst y - snd x <= r /\ snd x <= i < fst y) \/ small_gap r (y :: l) i.
Proof.
  unfold small_gap. split.
  - intros (k & s & e & s' & e' & H1 & H2 & H3 & H4). destruct k as [|k]; simpl in *.
    + injection H1 as ->. injection H2 as ->. left. done.
    + right. by exists k, s, e, s', e'.
  - intros [[H1 H2]|(k & s & e & s' & e' & H)]; [|by exists (S k), s, e, s', e'].
    destruct x as [s e], y as [s' e']. by exists 0, s, e, s', e'.
Qed.
Lemma small_gap_one r x i : ~ small_gap r [x] i.
Proof. intros (k & s & e & s' & e' & H1 & H2 & _). by destruct k. Qed.
Lemma D_cov r l : forall s e i, apart ((s, e) :: l) ->
  (covered (pairs (s :: D r e l)) i <-> covered ((s, e) :: l) i \/ small_gap r ((s, e) :: l) i).
Proof.
  induction l as [|[s' e'] l IH]; intros s e i Ha.
  - cbn [D pairs]. split; [by left|]. intros [H|H]; [done|]. by apply small_gap_one in H.
  - cbn [D]. destruct Ha as (H1 & H2 & Ha). cbn [fst snd] in *. pose proof Ha as (H3 & _ & _). cbn [fst snd] in H3. rewrite small_gap_cons. cbn [fst snd].
    destruct (decide (r < s' - e)) as [Hr|Hr]; cbn [app pairs].
    + rewrite !(covered_cons (s, e)), (IH s' e' i Ha). cbn [fst snd]. intuition lia.
    + rewrite (IH s e' i). 2:{ simpl in Ha |- *. intuition lia. }
      assert (small_gap r ((s, e') :: l) i <-> small_gap r ((s', e') :: l) i) as ->.
      { destruct l as [|y l]; [split; by intros ?%small_gap_one|]. by rewrite !small_gap_cons. }
      rewrite !(covered_cons (s, _)), (covered_cons (s', e')). cbn [fst snd].
      assert (s <= i < e' <-> s <= i < e \/ e <= i < s' \/ s' <= i < e') as -> by lia. assert (s' - e <= r) by lia. tauto.
Qed.
Lemma D_apart r l : forall s e, apart ((s, e) :: l) -> apart (pairs (s :: D r e l)) /\ exists e2 l2, pairs (s :: D r e l) = (s, e2) :: l2.
Proof.
  induction l as [|[s' e'] l IH]; intros s e Ha; [split; [done|]; by exists e, []|].
  destruct Ha as (H1 & H2 & Ha). cbn [fst snd] in *. pose proof Ha as (H3 & _ & _). cbn [fst snd] in H3. cbn [D].
  destruct (decide (r < s' - e)) as [Hr|Hr].
  - destruct (IH s' e' Ha) as (G1 & e2 & l2 & G2). change (pairs (s :: [e; s'] ++ D r e' l)) with ((s, e) :: pairs (s' :: D r e' l)).
    rewrite G2 in *. split; [|by eexists _, _]. split; [done|]. split; [done|]. done.
  - cbn [app]. apply IH. simpl in Ha |- *. destruct Ha as (? & ? & ?). split; [lia|]. done.
Qed.

(** ** the complement *)
Definition flatten (l : list (nat * nat)) : list nat := l ≫= fun s => [fst s; snd s].
Lemma flatten_cons s e l : flatten ((s, e) :: l) = s :: e :: flatten l. Proof. done. Qed.
Lemma flatten_pairs l : pairs (flatten l) = l.
Proof. induction l as [|[s e] l IH]; [done|]. rewrite flatten_cons. cbn [pairs]. by rewrite IH. Qed.
Lemma flatten_evn l : evn (flatten l) = true.
Proof. induction l as [|[s e] l IH]; [done|]. rewrite flatten_cons. cbn [evn]. by rewrite IH. Qed.
Lemma flatten_srt l : forall a b, within a b l -> srt a b (flatten l).
Proof. induction l as [|[s e] l IH]; intros a b H; [done|]. destruct H as (H1 & H2 & H). rewrite flatten_cons. cbn [srt]. eauto. Qed.
Definition drop_start (a : nat) (d : list nat) : list nat :=
  match d with d0 :: l => if decide (d0 = a) then l else a :: d | [] => [] end.
Definition drop_end (b : nat) (d : list nat) : list nat :=
  match last d with Some d1 => if decide (d1 = b) then take (length d - 1) d else d ++ [b] | None => [] end.
Lemma drop_start_par a b d i : d <> [] -> srt a b d -> a <= i -> par (drop_start a d) i = negb (par d i).
Proof.
  intros Hd Hs Hi. destruct d as [|d0 d]; [done|]. simpl. destruct Hs as [H1 Hs]. destruct (decide (d0 = a)) as [->|Hn].
  - rewrite bool_decide_eq_true_2 by lia. by destruct (par d i).
  - cbn [par]. rewrite (bool_decide_eq_true_2 (a <= i)) by lia. by destruct (xorb _ (par d i)).
Qed.
Lemma drop_start_srt a b d : d <> [] -> srt a b d -> srt a b (drop_start a d) /\ evn (drop_start a d) = negb (evn d).
Proof.
  intros Hd Hs. destruct d as [|d0 d]; [done|]. simpl. destruct Hs as [H1 Hs]. destruct (decide (d0 = a)) as [->|Hn]; [by rewrite negb_involutive|].
  simpl. by rewrite negb_involutive.
Qed.
Lemma drop_end_shape (b : nat) (d : list nat) d1 : last d = Some d1 -> d = take (length d - 1) d ++ [d1].
Proof.
  intros H. apply last_Some in H as [l ->]. rewrite app_length. simpl. replace (length l + 1 - 1) with (length l) by lia. by rewrite take_app.
Qed.
Lemma srt_prefix l1 : forall l2 a b, srt a b (l1 ++ l2) -> srt a b l1.
Proof. induction l1 as [|x l1 IH]; simpl; intros l2 a b H; [by eapply srt_le|]. destruct H. split; [done|]. by eapply IH. Qed.
Lemma drop_end_par a b d i : d <> [] -> srt a b d -> i < b -> par (drop_end b d) i = par d i.
Proof.
  intros Hd Hs Hi. unfold drop_end. destruct (last d) as [d1|] eqn:E; [|by apply last_None in E].
  destruct (decide (d1 = b)) as [->|Hn].
  - rewrite (drop_end_shape b d b E) at 3. rewrite par_app. cbn [par]. rewrite bool_decide_eq_false_2 by lia. by destruct (par _ i).
  - rewrite par_app. cbn [par]. rewrite bool_decide_eq_false_2 by lia. by destruct (par d i).
Qed.
Lemma drop_end_srt a b d : d <> [] -> srt a b d -> srt a b (drop_end b d) /\ evn (drop_end b d) = negb (evn d).
Proof.
  intros Hd Hs. unfold drop_end. destruct (last d) as [d1|] eqn:E; [|by apply last_None in E].
  destruct (decide (d1 = b)) as [->|Hn].
  - rewrite (drop_end_shape b d b E) in Hs. split; [by eapply srt_prefix|]. rewrite (drop_end_shape b d b E) at 3. rewrite evn_app. by destruct (evn _).
  - split; [|rewrite evn_app; by destruct (evn d)]. eapply srt_app; [done|]. simpl. lia.
Qed.
Lemma drop_start_ne a d : length d >= 2 -> drop_start a d <> [].
Proof. destruct d as [|x [|y d]]; simpl; try lia. by destruct (decide (x = a)). Qed.
Lemma anti_eq a b l : l <> [] -> generate_antisections a b l = pairs (drop_end b (drop_start a (flatten l))).
Proof. intros Hl. destruct l as [|x l]; [done|]. unfold generate_antisections. rewrite zip_pairs. done. Qed.
Lemma anti_covered a b l i : within a b l -> (covered (generate_antisections a b l) i <-> a <= i < b /\ ~ covered l i).
Proof.
  intros Hw. destruct (decide (l = [])) as [->|Hl].
  { simpl. rewrite covered_cons. simpl. pose proof (covered_nil i). intuition. }
  rewrite anti_eq by done. pose proof (flatten_srt _ _ _ Hw) as Hs. pose proof (flatten_evn l) as He.
  assert (flatten l <> []) as Hf by (by destruct l as [|[? ?] ?]). destruct (drop_start_srt a b _ Hf Hs) as [Hs1 He1].
  assert (drop_start a (flatten l) <> []) as Hf1. { apply drop_start_ne. destruct l as [|x l]; [done|]. unfold flatten. simpl. lia. }
  destruct (drop_end_srt a b _ Hf1 Hs1) as [Hs2 He2]. rewrite He1, He in He2. simpl in He2.
  rewrite (covered_pairs _ a b i Hs2 He2). rewrite <- (flatten_pairs l) at 2. rewrite (covered_pairs _ a b i Hs He).
  destruct (decide (i < a)) as [H1|H1]; [rewrite (par_lt _ _ _ i Hs2) by done; intuition (lia || done)|].
  destruct (decide (b <= i)) as [H2|H2]; [rewrite (par_ge _ _ _ i Hs2), He2 by done; intuition (lia || done)|].
  rewrite (drop_end_par a b) by (done || lia). rewrite (drop_start_par a b) by (done || lia).
  destruct (par (flatten l) i); simpl; intuition (lia || done).
Qed.
Lemma apart_within l : forall a b, apart l -> (forall s e, (s, e) ∈ l -> a <= s /\ e <= b) -> a <= b -> within a b l.
Proof.
  induction l as [|[s e] l IH]; intros a b Ha H Hab; [done|]. destruct Ha as (H1 & H2 & Ha). cbn [fst snd] in *. cbn [within].
  destruct (H s e) as [H3 H4]; [set_solver|]. split; [done|]. split; [done|]. apply IH; [done| |done].
  intros s' e' Hin. split; [|apply (H s' e'); set_solver].
  clear IH H H3 H4. revert e H1 H2 s' e' Hin. induction l as [|[s1 e1] l IH]; intros e H1 H2 s' e' Hin; [by apply elem_of_nil in Hin|].
  simpl in H2. apply elem_of_cons in Hin as [[= -> ->]|Hin]; [lia|]. destruct Ha as (H3 & H4 & Ha). cbn [fst snd] in *.
  enough (e1 <= s') by lia. eapply (IH Ha e1); [|done|done]. lia.
Qed.
Lemma pairs_in l : forall a b s e, srt a b l -> (s, e) ∈ pairs l -> a <= s /\ e <= b.
Proof.
  assert (forall n l, length l <= n -> forall a b s e, srt a b l -> (s, e) ∈ pairs l -> a <= s /\ e <= b) as G; [|by apply (G (length l))].
  clear. induction n as [|n IH]; intros [|x [|y l]] Hl a b s e Hs Hin; simpl in Hl; try lia; try by apply elem_of_nil in Hin.
  cbn [pairs] in Hin. destruct Hs as (H1 & H2 & Hs). apply elem_of_cons in Hin as [[= -> ->]|Hin].
  - split; [done|]. by eapply srt_le.
  - destruct (IH l ltac:(lia) _ _ _ _ Hs Hin). lia.
Qed.

(** ** sorting and limiting *)
Lemma nondecreasing_sorted l : nondecreasing l = true -> Sorted Z.le l.
Proof.
  induction l as [|x l IH]; intros H; [constructor|]. destruct l as [|y l]; [repeat constructor|].
  cbn [nondecreasing] in H. destruct (decide (x <= y)%Z); [|done]. constructor; [by apply IH|by constructor].
Qed.
Lemma omap_seq {A} (l : list A) : omap (fun i => l !! i) (seq 0 (length l)) = l.
Proof.
  assert (forall pre, omap (fun i => (pre ++ l) !! i) (seq (length pre) (length l)) = l) as G; [|apply (G [])].
  induction l as [|x l IH]; intros pre; [done|]. simpl. rewrite lookup_app_r by lia. rewrite Nat.sub_diag. simpl. f_equal.
  specialize (IH (pre ++ [x])). rewrite <- app_assoc in IH. rewrite app_length in IH. simpl in IH. by rewrite Nat.add_1_r in IH.
Qed.
Lemma omap_perm {A} (l : list A) idx : idx ≡ₚ seq 0 (length l) -> omap (fun i => l !! i) idx ≡ₚ l.
Proof. intros H. rewrite H. by rewrite omap_seq. Qed.
Lemma omap_zip {A B} (X : list A) (Y : list B) idx : length X = length Y ->
  zip (omap (fun i => X !! i) idx) (omap (fun i => Y !! i) idx) = omap (fun i => zip X Y !! i) idx.
Proof.
  intros E. induction idx as [|i idx IH]; [done|]. simpl. rewrite lookup_zip_with. destruct (X !! i) as [x|] eqn:Ex.
  - destruct (lookup_lt_is_Some_2 Y i) as [y Ey]; [rewrite <- E; by eapply lookup_lt_Some|]. rewrite Ey. simpl. f_equal. exact IH.
  - rewrite (lookup_ge_None_2 Y i) by (rewrite <- E; by apply lookup_ge_None). simpl. exact IH.
Qed.
Lemma argwhere_filter {A B} (P : A -> bool) (f : nat -> option B) (X : list A) : forall k,
  omap f (argwhere k (P <$> X)) = omap (fun '(i, x) => if P x then f i else None) (zip (seq k (length X)) X).
Proof. induction X as [|x X IH]; intros k; [done|]. simpl. destruct (P x); simpl; by rewrite IH. Qed.
Lemma limit_eq {A} (P : A -> bool) (X : list A) : forall pre,
  omap (fun i => (pre ++ X) !! i) (argwhere (length pre) (P <$> X)) = List.filter P X.
Proof.
  induction X as [|x X IH]; intros pre; [done|]. specialize (IH (pre ++ [x])). rewrite <- app_assoc, app_length in IH. simpl in IH. rewrite Nat.add_1_r in IH.
  simpl. destruct (P x); simpl; [rewrite lookup_app_r, Nat.sub_diag by lia; simpl; f_equal|]; exact IH.
Qed.
