(** Proofs of the theorems of GraftProps.v. *)
From Coq Require Import Lia.
From stdpp Require Import base tactics numbers list.
From Verif Require Import Fld Py Herm NoiModel NoiProofs GraftModel GraftSpec GraftProofs GraftProofs2 GraftProofs3.

(** The dotted name of an element, looked up from the root, gives that element and changes nothing. *)
Lemma C57_resolve_lem s p u : reached s -> p <> [] -> uid_at (s_root s) p = Some u -> getitem (join_dot p) s = (s, Ok u).
Proof. intros Hr Hp. unfold uid_at. destruct (at_path p (s_root s)) as [x|] eqn:Hx; [|done]. cbn. intros [= <-]. apply getitem_there; [by apply reached_ok|done|done]. Qed.
(** Different elements have different dotted names. *)
Lemma C57_names_lem s p q u v : reached s -> p <> [] -> q <> [] -> uid_at (s_root s) p = Some u -> uid_at (s_root s) q = Some v -> join_dot p = join_dot q -> p = q /\ u = v.
Proof.
  intros Hr Hp Hq Hu Hv E. assert (u = v). { pose proof (C57_resolve_lem s p u Hr Hp Hu) as E1. rewrite E, (C57_resolve_lem s q v Hr Hq Hv) in E1. congruence. } subst v. split; [|done].
  unfold uid_at in *. destruct (at_path p (s_root s)) as [x|] eqn:Hx; [|done]. destruct (at_path q (s_root s)) as [y|] eqn:Hy; [|done]. cbn in *. simplify_eq.
  eapply at_path_unique; [|done|done|done]. by apply reached_ok in Hr as (_ & ? & _).
Qed.
(** An element is at one place of the tree only. *)
Lemma C57_unique_lem s p q u : reached s -> uid_at (s_root s) p = Some u -> uid_at (s_root s) q = Some u -> p = q.
Proof.
  intros Hr. unfold uid_at in *. destruct (at_path p (s_root s)) as [x|] eqn:Hx; [|done]. destruct (at_path q (s_root s)) as [y|] eqn:Hy; [|done]. cbn. intros E1 E2.
  eapply at_path_unique; [|done|done|congruence]. by apply reached_ok in Hr as (_ & ? & _).
Qed.
(** The children of an element have different names, none with a dot. *)
Lemma C57_siblings_lem s p e : reached s -> at_path p (s_root s) = Some e -> NoDup (e_children e).*1 /\ Forall plain (e_children e).*1.
Proof. intros Hr Hx. apply reached_ok in Hr as (W & _ & _). destruct (at_path_wf p _ _ W Hx) as [We _]. by apply wf_inv in We as (? & ? & _). Qed.
(** A name with a dot is rejected and the tree has the same elements. *)
Lemma C57_dots_lem s p n c : ~ plain n -> is_Some (at_path p (s_root s)) ->
  (insert_at p n c s).2 = Err RuntimeError /\ forall q, uid_at (s_root (insert_at p n c s).1) q = uid_at (s_root s) q /\ class_at (s_root (insert_at p n c s).1) q = class_at (s_root s) q.
Proof.
  intros Hn [x Hx]. unfold insert_at, insert. rewrite Hx, (proj2 (has_dot_true n) Hn). cbn. split; [done|]. intros q.
  set (x' := if is_building s then x else _). apply view2. eapply at_update_view; [apply put_uid_cls|done|]. intros [|m r] _; unfold x'; cbn [at_path]; destruct (is_building s), x; done.
Qed.
(** Inserting gives a new element at that name; everything not under that name stays where it was. *)
Lemma C57_insert_lem s p n cls own : reached s -> good_ctor (Ctor cls own) -> plain n -> is_Some (at_path p (s_root s)) -> let s' := (insert_at p n (Ctor cls own) s).1 in
  exists u, (insert_at p n (Ctor cls own) s).2 = Ok u /\ uid_at (s_root s') (p ++ [n]) = Some u /\ class_at (s_root s') (p ++ [n]) = Some cls /\
  (forall q, uid_at (s_root s) q <> Some u) /\
  forall q, ~ (p ++ [n]) `prefix_of` q -> uid_at (s_root s') q = uid_at (s_root s) q /\ class_at (s_root s') q = class_at (s_root s) q.
Proof.
  intros Hr Hg Hn [x Hx]. apply reached_ok in Hr as (W & Nd & L). unfold insert_at, insert. rewrite Hx, (proj2 (has_dot_plain n) Hn).
  destruct (construct _ _ (s_next s)) as [[ch nx] ex] eqn:Ec. pose proof (construct_cls _ _ _ _ _ _ Hg Ec) as Hcls. pose proof (construct_fresh _ _ _ _ _ _ Ec) as (_ & _ & F3 & _). apply construct_shell in Ec as [-> _]; [|done].
  rewrite child_put. destruct (decide (n = n)); [|done]. cbn [fst snd s_root]. set (x0 := if is_building s then x else _). exists (e_uid ch). split; [done|].
  assert (E : at_path (p ++ [n]) (update_at p (put_child n ch x0) (s_root s)) = Some ch). { rewrite (at_update _ _ x) by done. cbn [at_path]. rewrite child_put. destruct (decide (n = n)); done. }
  unfold uid_at at 1, class_at at 1. rewrite E. cbn. split; [done|]. split; [by rewrite Hcls|]. split.
  - intros q. unfold uid_at. destruct (at_path q (s_root s)) as [y|] eqn:Hy; [|done]. cbn. intros [= E2]. apply at_path_uid, L in Hy. specialize (F3 (e_uid ch)). rewrite uids_eq in F3. specialize (F3 (elem_of_list_here _ _)). lia.
  - intros q Hq. apply view2. eapply at_update_view; [apply put_uid_cls|done|]. intros [|m r] ->; cbn [at_path].
    + unfold x0. destruct (is_building s), x; done.
    + rewrite child_put. destruct (decide (n = m)) as [->|]; [destruct Hq; exists r; by rewrite <- app_assoc|]. unfold x0. destruct (is_building s), x; done.
Qed.
(** A name that is not there raises KeyError and changes nothing, as long as nothing is waiting to be regenerated. *)
Lemma C57_missing_lem c s p : good_ctor c -> grown c s -> p <> [] -> Forall plain p -> at_path p (s_root s) = None -> getitem (join_dot p) s = (s, Err KeyError).
Proof.
  intros Hg Hs Hp Hf Hn. apply grown_inv in Hs; [|done]. unfold getitem. destruct (child (join_dot p) (s_root s)) as [ch|] eqn:Hc.
  - exfalso. pose proof (i_reg _ _ Hs) as Hr. assert (Hpl : plain (join_dot p)).
    { destruct c as [cls own]. apply regular_inv in Hr as (_ & _ & _ & _ & R4 & _ & R6 & _). eapply Forall_forall in R4; [done|]. apply R6, key_get. unfold child in Hc. rewrite Hc. eauto. }
    destruct p as [|n [|m p]]; [done| |by apply join_dotted in Hpl; [|cbn; lia]]. cbn in Hn, Hc. by rewrite Hc in Hn.
  - rewrite split_join by done. rewrite (walk_missing _ _ _ c) by (done || apply Hs). by destruct s.
Qed.
Lemma C57_ex_lem : reached ex_s /\ uid_at (s_root ex_s) [ex_a; ex_b; ex_b; ex_a] = Some 4 /\ ~ plain ex_dot /\ good_ctor ex_c /\ plain ex_a /\ grown ex_c ex_s /\ at_path [ex_b; ex_a] (s_root ex_s) = None.
Proof.
  split; [by exists ex_c, None, ex_ops|]. split; [reflexivity|]. split; [apply has_dot_true; reflexivity|]. split; [apply ex_good|]. split; [apply plain_a|]. split; [apply ex_grown|]. reflexivity.
Qed.

(** Regenerating a tree that has only been added to gives an element of the same class under every name and none besides, and keeps the electrical bonds; this
    for as many regenerations as one likes, with additions between. *)
Lemma C73_regenerate_lem c s fuel p : good_ctor c -> grown c s -> height (s_root s) <= fuel ->
  (regenerate fuel c s).2 = None /\ class_at (s_root (regenerate fuel c s).1) p = class_at (s_root s) p /\ ebonds_at (s_root (regenerate fuel c s).1) p = ebonds_at (s_root s) p.
Proof.
  intros Hg Hs Hf. apply grown_inv in Hs; [|done]. destruct (regenerate_ok c s fuel Hs Hf) as (E1 & E2 & _). split; [done|]. specialize (E2 p). pose proof (i_flags _ _ Hs p) as Hfl. unfold class_at, ebonds_at.
  destruct (at_path p (s_root s)) as [y|], (at_path p _) as [x|]; try done. cbn in *. specialize (Hfl y eq_refl). unfold now, kept in E2. split; [congruence|].
  assert (Ee : e_ebonds x = filter (fun b => b.2 = false) (e_ebonds y)) by congruence. rewrite Ee. f_equal. clear -Hfl. induction Hfl as [|b l Hb _ IH]; [done|]. rewrite filter_cons_True by done. by rewrite IH.
Qed.
(** The first regeneration keeps the optical bonds. *)
Lemma C73_bonds_lem c s fuel p : good_ctor c -> grown c s -> s_old s = None -> height (s_root s) <= fuel -> bond_at (s_root (regenerate fuel c s).1) p = bond_at (s_root s) p.
Proof.
  intros Hg Hs Ho Hf. apply grown_inv in Hs; [|done]. destruct (regenerate_ok c s fuel Hs Hf) as (E1 & E2 & _). specialize (E2 p). pose proof (i_bflags _ _ Hs Ho p) as Hfl. unfold bond_at.
  destruct (at_path p (s_root s)) as [y|], (at_path p _) as [x|]; try done. cbn in *. specialize (Hfl y eq_refl). unfold now, kept in E2. assert (Eb : e_bond x = if e_bbonded y then None else e_bond y) by congruence. rewrite Eb. destruct Hfl as [-> | ->]; [by destruct (e_bbonded y)|done].
Qed.
(** An optical bond made since the last regeneration is kept by the next. *)
Lemma C73_bond_kept_lem c s fuel p q : good_ctor c -> grown c s -> (bond_inform p q s).2 = None -> let s' := (bond_inform p q s).1 in
  height (s_root s') <= fuel -> bond_at (s_root (regenerate fuel c s').1) p = Some q.
Proof.
  intros Hg Hs Hb s' Hf. pose proof (grown_bond c s p q Hs) as Hs'. apply grown_inv in Hs'; [|done]. apply grown_inv in Hs; [|done]. destruct (regenerate_ok c s' fuel Hs' Hf) as (E1 & E2 & _). specialize (E2 p).
  assert (E : exists y, at_path p (s_root s') = Some y /\ e_bond y = Some q /\ e_bbonded y = false).
  { unfold s'. revert Hb. unfold bond_inform. destruct (at_path p (s_root s)) as [x|] eqn:Hx; [|done]. rewrite (inv_building _ _ Hs). destruct (e_bond x); [done|]. intros _. cbn [fst s_root]. exists (set_bonds (Some q) false (e_ebonds x) x).
    split; [|by destruct x]. rewrite <- (app_nil_r p) at 1. by rewrite (at_update _ _ x). }
  destruct E as (y & Y1 & Y2 & Y3). unfold bond_at. rewrite Y1 in E2. destruct (at_path p _) as [x|]; [|done]. cbn in *. unfold now, kept in E2. rewrite Y3 in E2. congruence.
Qed.
(** Further regenerations lose it: _building_bonded of the new port stays True. *)
Lemma C73_bonds_refuted_lem : exists c s p, good_ctor c /\ grown c s /\ bond_at (s_root s) p <> None /\
  forall fuel, height (s_root s) <= fuel -> bond_at (s_root (regenerate fuel c s).1) p = None.
Proof.
  exists ex_c, (regenerate 9 ex_c ex_s).1, [ex_b]. split; [apply ex_good|]. split; [apply ex_grown2|]. split; [by vm_compute|]. intros fuel Hf.
  destruct (regenerate_ok ex_c _ fuel (grown_inv _ _ ex_good ex_grown2) Hf) as (_ & E2 & _). specialize (E2 [ex_b]). unfold bond_at. destruct (at_path [ex_b] (s_root (regenerate fuel _ _).1)) as [x|]; [|done]. cbn [mbind option_bind].
  assert (E : kept <$> at_path [ex_b] (s_root (regenerate 9 ex_c ex_s).1) = Some (6, None, true, [([ex_a], false)])) by reflexivity. rewrite E in E2. cbn in E2. unfold now in E2. congruence.
Qed.
(** An element inserted over a part of the class is replaced by the part again. *)
Lemma C73_override_refuted_lem : exists c s p, good_ctor c /\ (exists os, s = run os (start c None).1) /\ class_at (s_root s) p = Some 3 /\
  class_at (s_root (regenerate 9 c s).1) p = Some 2 /\ (regenerate 9 c s).2 = None.
Proof.
  exists (Ctor 1 [(ex_a, Ctor 2 [])]), (run [Insert [] ex_a (Ctor 3 [])] (start (Ctor 1 [(ex_a, Ctor 2 [])]) None).1), [ex_a].
  split; [apply good_one; [apply plain_a|apply good_leaf]|]. split; [eauto|]. split; [reflexivity|]. split; reflexivity.
Qed.
(** A rejected name with a dot makes every regeneration raise. *)
Lemma C73_rejected_refuted_lem : exists c s n c', good_ctor c /\ grown c s /\ ~ plain n /\ (insert_at [] n c' s).2 = Err RuntimeError /\
  (regenerate 9 c s).2 = None /\ (regenerate 9 c (insert_at [] n c' s).1).2 = Some RuntimeError.
Proof.
  exists ex_c, ex_s, ex_dot, (Ctor 2 []). split; [apply ex_good|]. split; [apply ex_grown|]. split; [apply has_dot_true; reflexivity|]. split; [reflexivity|]. split; reflexivity.
Qed.
(** An added element first fetched while building is found then, and lost by the next regeneration. *)
Lemma C73_fetched_refuted_lem : exists c s x u, good_ctor c /\ grown c s /\
  let s1 := enter (start c (Some (s_root s))).1 in (getitem x s1).2 = Ok u /\
  let s2 := (complete_root 9 (leave (getitem x s1).1)).1 in class_at (s_root s2) [x] = class_at (s_root s) [x] /\ class_at (s_root s) [x] = Some 6 /\
  class_at (s_root (regenerate 9 c s2).1) [x] = None.
Proof.
  exists ex_c, ex_s, ex_b, 3. split; [apply ex_good|]. split; [apply ex_grown|]. cbn zeta. split; [reflexivity|]. split; [reflexivity|]. split; reflexivity.
Qed.
(** Completing a regenerated tree again, after an insertion, repeats the electrical bonds. *)
Lemma C73_repeated_refuted_lem : exists c s p, good_ctor c /\ grown c s /\ ebonds_at (s_root s) p = [[ex_a]] /\
  let s1 := (regenerate 9 c s).1 in let s2 := (insert_at p ex_b (Ctor 7 []) s1).1 in
  ebonds_at (s_root s1) p = [[ex_a]] /\ ebonds_at (s_root (complete_root 9 s2).1) p = [[ex_a]; [ex_a]].
Proof.
  exists ex_c, ex_s, [ex_b]. split; [apply ex_good|]. split; [apply ex_grown|]. split; [reflexivity|]. split; reflexivity.
Qed.
Lemma C73_ex_lem : good_ctor ex_c /\ grown ex_c ex_s /\ grown ex_c (regenerate 9 ex_c ex_s).1 /\ s_old ex_s = None /\ height (s_root ex_s) = 5 /\
  class_at (s_root ex_s) [ex_a; ex_b; ex_b; ex_a] = Some 5 /\ bond_at (s_root ex_s) [ex_b] = Some [ex_a; ex_b] /\ (bond_inform [ex_a] [ex_b] ex_s).2 = None.
Proof. split; [apply ex_good|]. split; [apply ex_grown|]. split; [apply ex_grown2|]. repeat (split; [reflexivity|]). reflexivity. Qed.
(** with-blocks of building nest *)
Lemma run_building_op s o : o <> Enter -> o <> Leave -> s_building (run1 s o) = s_building s.
Proof.
  intros H1 H2. destruct o; cbn [run1]; try done.
  - unfold insert_at. destruct (at_path _ _); [|done]. by destruct (insert _ _ _ _ _ _) as [[? ?] ?].
  - unfold getitem. destruct (child _ _); [done|]. by destruct (walk _ _ _ _ _ _) as [[[? ?] ?] ?].
  - unfold complete_root. by destruct (complete _ _ _ _ _ _) as [[[? ?] ?] ?].
  - unfold bond_inform. destruct (at_path _ _); [|done]. by destruct (e_bond _).
  - unfold ebond_inform. by destruct (at_path _ _).
Qed.
Lemma run_nested os : nested os -> forall s, s_building (run os s) = s_building s.
Proof.
  unfold run. induction 1 as [|o os H1 H2 _ IH|os os' _ IH _ IH']; intros s; [done| |].
  - cbn [foldl]. rewrite IH. by apply run_building_op.
  - cbn [foldl]. rewrite foldl_app. cbn [foldl]. rewrite IH'. cbn [run1]. unfold leave. cbn [s_building]. by rewrite IH.
Qed.
Lemma recorded_insert p n c s : is_Some (at_path p (s_root s)) ->
  recorded (insert_at p n c s).1 p = if is_building s then recorded s p else dict_set n c (recorded s p).
Proof.
  intros [e He]. unfold recorded, insert_at. rewrite He. cbn [fmap option_fmap option_map default].
  destruct (insert _ _ _ _ _ _) as [[e' next] ex] eqn:Ei. cbn [fst s_root].
  replace (at_path p (update_at p e' (s_root s))) with (Some e') by (rewrite <- (app_nil_r p) at 1; by rewrite (at_update p _ e e' [] He)).
  cbn [fmap option_fmap option_map default]. unfold insert in Ei. destruct (has_dot n).
  - injection Ei as <- _ _. destruct (is_building s); by destruct e.
  - destruct (construct _ _ _) as [[ch ?] ?]. injection Ei as <- _ _. destruct (is_building s); by destruct e.
Qed.
Lemma C73_building_lem s os p n c : nested os -> let s1 := run os (enter s) in is_Some (at_path p (s_root s1)) ->
  recorded (insert_at p n c s1).1 p = recorded s1 p /\
  (s_building s = 0 -> dict_get n (recorded (insert_at p n c (leave s1)).1 p) = Some c).
Proof.
  intros Hn s1 Hp. assert (E : s_building s1 = S (s_building s)) by (unfold s1; by rewrite (run_nested _ Hn)).
  split; [rewrite (recorded_insert _ _ _ _ Hp); unfold is_building; by rewrite E|].
  intros E0. rewrite recorded_insert by exact Hp. unfold is_building, leave. cbn [s_building]. rewrite E, E0. cbn [pred Nat.eqb negb].
  rewrite dict_get_set. by rewrite decide_True.
Qed.
Lemma C73_building_ex_lem : nested [Enter; Insert [] ex_a (Ctor 3 []); Leave; GetItem ex_a] /\
  (class_at (s_root (run [Enter; Enter; Leave; Insert [] [99] (Ctor 8 []); Leave] ex_start)) [[99]] = Some 8 /\
   class_at (s_root (regenerate 9 ex_c (run [Enter; Enter; Leave; Insert [] [99] (Ctor 8 []); Leave] ex_start)).1) [[99]] = None).
Proof.
  split; [|split; reflexivity]. change (nested (Enter :: [Insert [] ex_a (Ctor 3 [])] ++ Leave :: [GetItem ex_a])).
  apply nested_block; (apply nested_op; [done|done|apply nested_nil]).
Qed.
