(** Lemmas for GraftProps.v: growing histories. *)
From Coq Require Import Lia.
From stdpp Require Import base tactics numbers list.
From Verif Require Import Fld Py Herm NoiModel NoiProofs GraftModel GraftSpec GraftProofs GraftProofs2.

(** *** more depth changes nothing *)
Lemma complete_list_mono fuel fuel' bld pre :
  (forall pre e n ep e' n' ep', complete fuel bld pre e n ep = (e', n', ep', None) -> complete fuel' bld pre e n ep = (e', n', ep', None)) ->
  forall (cs : forest) n ep cs' n' ep', complete_list fuel bld pre cs n ep = (cs', n', ep', None) -> complete_list fuel' bld pre cs n ep = (cs', n', ep', None).
Proof.
  intros H. induction cs as [|[m c] cs IH]; intros n ep cs' n' ep'; cbn [complete_list]; [done|].
  destruct (complete fuel bld (pre ≫= child m) c n ep) as [[[c1 n1] ep1] [x|]] eqn:Ec; [done|]. rewrite (H _ _ _ _ _ _ _ Ec).
  destruct (complete_list fuel bld pre cs n1 ep1) as [[[cs2 n2] ep2] [x|]] eqn:El; [done|]. by rewrite (IH _ _ _ _ _ El).
Qed.
Lemma complete_mono fuel bld : forall fuel' pre e n ep e' n' ep', fuel <= fuel' -> complete fuel bld pre e n ep = (e', n', ep', None) -> complete fuel' bld pre e n ep = (e', n', ep', None).
Proof.
  induction fuel as [|fuel IH]; intros fuel' pre e n ep e' n' ep' Hle; [done|]. destruct fuel' as [|fuel']; [lia|]. rewrite !complete_eq. destruct (decide _); [done|].
  destruct (insert_pending _ _ _ _ _ _) as [[[e1 n1] ep1] [x|]]; [done|].
  destruct (complete_list fuel bld pre (e_children e1) n1 ep1) as [[[cs2 n2] ep2] [x|]] eqn:El; [done|].
  erewrite complete_list_mono; [done| |exact El]. intros. apply IH; [lia|done].
Qed.
(** *** completing a regular tree *)
Definition flags (e : elem) : Prop := forall p x, at_path p e = Some x -> Forall (fun b => b.2 = false) (e_ebonds x).
Definition bflags (e : elem) : Prop := forall p x, at_path p e = Some x -> e_bond x = None \/ e_bbonded x = false.
Lemma flags_inv e : flags e <-> Forall (fun b => b.2 = false) (e_ebonds e) /\ forall n c, child n e = Some c -> flags c.
Proof.
  split; [intros H; split; [by apply (H [])|intros n c Hc p x Hp; apply (H (n :: p)); cbn; rewrite Hc; done]|].
  intros [H1 H2] [|n p] x; cbn [at_path]; [by intros [= ->]|]. destruct (child n e) as [c|] eqn:Hc; [|done]. cbn. exact (H2 n c Hc p x).
Qed.
Lemma bflags_inv e : bflags e <-> (e_bond e = None \/ e_bbonded e = false) /\ forall n c, child n e = Some c -> bflags c.
Proof.
  split; [intros H; split; [by apply (H [])|intros n c Hc p x Hp; apply (H (n :: p)); cbn; rewrite Hc; done]|].
  intros [H1 H2] [|n p] x; cbn [at_path]; [by intros [= ->]|]. destruct (child n e) as [c|] eqn:Hc; [|done]. cbn. exact (H2 n c Hc p x).
Qed.
(** the relation between a regular tree and what completion makes of it *)
Definition settled (pre : option elem) (e e' : elem) : Prop :=
  (forall c, regular c e -> regular c e') /\ (forall p, e_cls <$> at_path p e' = e_cls <$> at_path p e) /\ (flags e -> flags e') /\ (pre = None -> bflags e -> bflags e').
Lemma settled_refl pre e : settled pre e e.
Proof. repeat split; auto. Qed.
Lemma complete_list_settled fuel bld pre :
  (forall pre c e n ep e' n' ep' ex, regular c e -> complete fuel bld pre e n ep = (e', n', ep', ex) -> settled pre e e') ->
  forall (cs : forest) n ep cs' n' ep' ex, (forall m ch, (m, ch) ∈ cs -> exists c, regular c ch) -> complete_list fuel bld pre cs n ep = (cs', n', ep', ex) ->
  cs'.*1 = cs.*1 /\ forall m, match dict_get m cs with None => dict_get m cs' = None | Some x => exists x', dict_get m cs' = Some x' /\ settled (pre ≫= child m) x x' end.
Proof.
  intros H. induction cs as [|[m ch] cs IH]; intros n ep cs' n' ep' ex Hr; cbn [complete_list].
  - intros [= <- <- <- <-]. done.
  - destruct (complete fuel bld (pre ≫= child m) ch n ep) as [[[c1 n1] ep1] ex1] eqn:Ec.
    destruct (Hr m ch (elem_of_list_here _ _)) as [c Hc]. pose proof (H _ _ _ _ _ _ _ _ _ Hc Ec) as S.
    destruct ex1 as [x|].
    + intros [= <- <- <- <-]. split; [done|]. intros k. cbn [dict_get]. destruct (decide (m = k)) as [->|]; [eauto|]. destruct (dict_get k cs); [|done]. eexists. split; [done|apply settled_refl].
    + destruct (complete_list fuel bld pre cs n1 ep1) as [[[cs2 n2] ep2] ex2] eqn:El. intros [= <- <- <- <-].
      apply IH in El as [E1 E2]; [|intros; apply (Hr m0); by right]. split; [cbn; by rewrite E1|]. intros k. cbn [dict_get]. destruct (decide (m = k)) as [->|]; [eauto|]. apply E2.
Qed.
Lemma complete_settled fuel bld : forall pre c e n ep e' n' ep' ex, regular c e -> complete fuel bld pre e n ep = (e', n', ep', ex) -> settled pre e e'.
Proof.
  induction fuel as [|fuel IH]; intros pre c e n ep e' n' ep' ex Hr.
  - cbn [complete]. intros [= <- <- <- <-]. apply settled_refl.
  - rewrite complete_eq. destruct (decide _); [intros [= <- <- <- <-]; apply settled_refl|].
    assert (Hp : e_pending e = []) by (destruct c; by apply regular_inv in Hr as (_ & _ & ? & _)). rewrite Hp. cbn [rev insert_pending].
    set (e1 := set_pending [] _). assert (E1 : e_children e1 = e_children e) by (by destruct e).
    destruct (complete_list fuel bld pre (e_children e1) n ep) as [[[cs2 n2] ep2] ex2] eqn:El.
    apply complete_list_settled in El as [L1 L2]; [|intros; by eapply IH|].
    2:{ rewrite E1. intros m ch Hm. eapply (regular_child c e m); [done|]. apply get_in; [|done]. destruct c; by apply regular_inv in Hr as (_ & _ & _ & _ & _ & ? & _). }
    rewrite E1 in L1, L2.
    assert (G : forall e2, e_children e2 = cs2 -> e_cls e2 = e_cls e -> e_inserted e2 = e_inserted e -> e_pending e2 = [] ->
       (Forall (fun b => b.2 = false) (e_ebonds e) -> Forall (fun b => b.2 = false) (e_ebonds e2)) ->
       (pre = None -> e_bond e2 = e_bond e /\ e_bbonded e2 = e_bbonded e) -> settled pre e e2).
    { intros e2 F1 F2 F3 F4 F5 F6. split; [|split; [|split]].
      - intros [cls own] Hr'. apply regular_inv in Hr' as (R0 & R1 & R2 & R3 & R4 & R5 & R6 & R7). constructor; rewrite ?F1, ?F2, ?F3, ?L1; try done.
        intros m d ch Hd. unfold child. rewrite F1. intros Hch. destruct (get_keys cs2 (e_children e) m ch L1 Hch) as [w Hw]. specialize (L2 m). rewrite Hw in L2. destruct L2 as (x' & X1 & X2). rewrite Hch in X1. revert X1. intros [= ->].
        apply (proj1 X2). by apply (R7 m).
      - intros [|m p]; cbn [at_path]; [cbn; by rewrite F2|]. unfold child. rewrite F1. specialize (L2 m). destruct (dict_get m (e_children e)) as [x|]; [|by rewrite L2].
        destruct L2 as (x' & -> & X2). cbn. apply (proj1 (proj2 X2)).
      - rewrite !flags_inv. intros [H1 H2]. split; [by apply F5|]. intros m ch. unfold child. rewrite F1. intros Hch. destruct (get_keys cs2 (e_children e) m ch L1 Hch) as [w Hw]. specialize (L2 m). rewrite Hw in L2. destruct L2 as (x' & X1 & X2). rewrite Hch in X1. revert X1. intros [= ->].
        apply (proj1 (proj2 (proj2 X2))). by apply (H2 m).
      - intros Hn. destruct (F6 Hn) as [B1 B2]. rewrite !bflags_inv, B1, B2. intros [H1 H2]. split; [done|]. intros m ch. unfold child. rewrite F1. intros Hch. destruct (get_keys cs2 (e_children e) m ch L1 Hch) as [w Hw]. specialize (L2 m). rewrite Hw in L2. destruct L2 as (x' & X1 & X2). rewrite Hch in X1. revert X1. intros [= ->].
        apply (proj2 (proj2 (proj2 X2))); [by rewrite Hn|]. by apply (H2 m). }
    destruct ex2 as [x|]; intros [= <- <- <- <-]; apply G; try (by destruct e, pre); try (by destruct e).
    + destruct e as [u cl cs i pd d b bb eb]. destruct pre as [q|]; [|done]. cbn. intros Hf. apply Forall_app. split; [done|]. apply Forall_forall. intros x Hx. by apply elem_of_list_filter in Hx as [? _].
Qed.

(** *** looking up in a regular tree *)
Lemma walk_regular bld p : forall pre c e next epoch, regular c e -> exists r, walk bld pre p e next epoch = (e, next, epoch, r).
Proof.
  induction p as [|n p IH]; intros pre c e next epoch Hr; cbn [walk]; [eauto|].
  assert (Hp : e_pending e = []) by (destruct c; by apply regular_inv in Hr as (_ & _ & ? & _)).
  destruct (child n e) as [ch|] eqn:Hc.
  - destruct (regular_child _ _ _ _ Hr Hc) as [c' Hr']. destruct (IH (pre ≫= child n) c' ch next epoch Hr') as [r Er]. rewrite Er. exists r. rewrite put_same; [done| |done].
    destruct c; by apply regular_inv in Hr as (_ & _ & _ & _ & _ & ? & _).
  - rewrite Hp. cbn [dict_get]. eauto.
Qed.
Lemma getitem_regular c x s : regular c (s_root s) -> (getitem x s).1 = s.
Proof.
  intros Hr. unfold getitem. destruct (child x (s_root s)); [done|]. destruct (walk_regular (is_building s) (split_dot x) (s_old s) c (s_root s) (s_next s) (s_epoch s) Hr) as [r ->]. by destruct s.
Qed.

(** *** changing one element of a regular tree *)
Lemma keys_set {V} n (v : V) (d : list (name * V)) : n ∈ d.*1 -> (dict_set n v d).*1 = d.*1.
Proof.
  induction d as [|[m w] d IH]; cbn [dict_set fmap list_fmap fst]; [intros H; inversion H|]. rewrite elem_of_cons. destruct (decide (m = n)) as [->|]; [done|]. intros [?|H]; [congruence|]. cbn. by rewrite IH.
Qed.
Lemma regular_update p : forall c e x x', regular c e -> at_path p e = Some x -> (forall cx, regular cx x -> regular cx x') -> regular c (update_at p x' e).
Proof.
  induction p as [|n p IH]; intros c e x x' Hr; cbn [at_path update_at]; [intros [= ->]; auto|]. destruct (child n e) as [ch|] eqn:Hc; [|done]. cbn. intros Hp Hx.
  destruct c as [cls own]. pose proof (regular_inv _ _ _ Hr) as (R0 & R1 & R2 & R3 & R4 & R5 & R6 & R7).
  assert (Hn : n ∈ (e_children e).*1) by (apply key_get; unfold child in Hc; rewrite Hc; eauto).
  assert (E1 : (e_children (put_child n (update_at p x' ch) e)).*1 = (e_children e).*1) by (rewrite children_put; by apply keys_set).
  assert (E2 : e_inserted (put_child n (update_at p x' ch) e) = e_inserted e) by (by destruct e).
  constructor; rewrite ?E1, ?E2; try done; [by destruct e|by destruct e|].
  intros m d y Hd. rewrite child_put. destruct (decide (n = m)) as [->|]; [intros [= <-]|by apply R7]. eapply IH; [|done|done]. by eapply R7.
Qed.
Lemma update_paths p : forall e x x', at_path p e = Some x -> (forall q, is_Some (at_path q x) -> is_Some (at_path q x')) ->
  forall q, is_Some (at_path q e) -> is_Some (at_path q (update_at p x' e)).
Proof.
  induction p as [|n p IH]; intros e x x'; cbn [at_path update_at]; [intros [= ->]; auto|]. destruct (child n e) as [ch|] eqn:Hc; [|done]. cbn. intros Hp Hx [|m q]; cbn [at_path]; [eauto|].
  rewrite child_put. destruct (decide (n = m)) as [->|]; [|done]. rewrite Hc. cbn. by eapply IH.
Qed.
Lemma update_flags p : forall e x x', at_path p e = Some x -> (flags x -> flags x') -> flags e -> flags (update_at p x' e).
Proof.
  induction p as [|n p IH]; intros e x x'; cbn [at_path update_at]; [intros [= ->]; auto|]. destruct (child n e) as [ch|] eqn:Hc; [|done]. cbn. intros Hp Hx. rewrite !flags_inv. intros [H1 H2].
  split; [by destruct e|]. intros m d. rewrite child_put. destruct (decide (n = m)) as [->|]; [intros [= <-]|apply H2]. eapply IH; [done|done|]. by eapply H2.
Qed.
Lemma update_bflags p : forall e x x', at_path p e = Some x -> (bflags x -> bflags x') -> bflags e -> bflags (update_at p x' e).
Proof.
  induction p as [|n p IH]; intros e x x'; cbn [at_path update_at]; [intros [= ->]; auto|]. destruct (child n e) as [ch|] eqn:Hc; [|done]. cbn. intros Hp Hx. rewrite !bflags_inv. intros [H1 H2].
  split; [by destruct e|]. intros m d. rewrite child_put. destruct (decide (n = m)) as [->|]; [intros [= <-]|apply H2]. eapply IH; [done|done|]. by eapply H2.
Qed.
Lemma shell_flags c : forall pre e, shell c pre e -> flags e.
Proof.
  induction c as [cls own IH] using ctor_ind2. intros pre e Hs. inversion Hs as [? ? ? ? S1 S2 S3 S4 S5 S6 S7 S8 S9]; subst. apply flags_inv. rewrite S7. split; [done|].
  intros n ch Hc. unfold child in Hc. destruct (get_keys _ _ _ _ S8 Hc) as [d Hd]. rewrite Forall_forall in IH. apply (IH (n, d)) with (pre := pre ≫= child n); [by apply in_get|]. by apply S9.
Qed.
Lemma shell_bflags c : forall pre e, shell c pre e -> bflags e.
Proof.
  induction c as [cls own IH] using ctor_ind2. intros pre e Hs. inversion Hs as [? ? ? ? S1 S2 S3 S4 S5 S6 S7 S8 S9]; subst. apply bflags_inv. split; [by left|].
  intros n ch Hc. unfold child in Hc. destruct (get_keys _ _ _ _ S8 Hc) as [d Hd]. rewrite Forall_forall in IH. apply (IH (n, d)) with (pre := pre ≫= child n); [by apply in_get|]. by apply S9.
Qed.
Lemma set_bonds_regular b bb eb c e : regular c e -> regular c (set_bonds b bb eb e).
Proof. destruct c as [cls own]. intros Hr. apply regular_inv in Hr as (R0 & R1 & R2 & R3 & R4 & R5 & R6 & R7). destruct e. by constructor. Qed.
Lemma set_bonds_paths b bb eb q e : is_Some (at_path q e) -> is_Some (at_path q (set_bonds b bb eb e)).
Proof. destruct q; cbn [at_path]; [eauto|]. by destruct e. Qed.

(** *** the invariant of growing histories *)
Record inv (c : ctor) (s : st) : Prop := Inv {
  i_reg : regular c (s_root s); i_bld : s_building s = 0;
  i_old : forall o, s_old s = Some o -> forall p, is_Some (at_path p o) -> is_Some (at_path p (s_root s));
  i_flags : flags (s_root s); i_bflags : s_old s = None -> bflags (s_root s) }.
Lemma inv_building c s : inv c s -> is_building s = false.
Proof. intros [_ H _ _ _]. unfold is_building. by rewrite H. Qed.
Lemma inv_start c : good_ctor c -> inv c (start c None).1.
Proof.
  intros Hg. unfold start. destruct (construct c None 0) as [[e n] ex] eqn:Ec. apply construct_shell in Ec as [-> Hs]; [|done]. constructor; cbn; try done; [by apply shell_regular|by eapply shell_flags|intros _; by eapply shell_bflags].
Qed.
Lemma inv_insert c s p n c' : inv c s -> good_ctor c' -> plain n -> is_Some (at_path p (s_root s)) -> at_path (p ++ [n]) (s_root s) = None -> inv c (insert_at p n c' s).1.
Proof.
  intros Hi Hg Hn [x Hx] Hnew. pose proof (inv_building _ _ Hi) as Hb. destruct Hi as [I1 I2 I3 I4 I5]. rewrite at_app, Hx in Hnew. cbn in Hnew.
  assert (Hcx : child n x = None) by (destruct (child n x); done). clear Hnew.
  unfold insert_at. rewrite Hx, Hb. unfold insert. rewrite (proj2 (has_dot_plain n) Hn).
  assert (Hpre : (s_old s ≫= at_path p) ≫= child n = None).
  { destruct (s_old s) as [o|] eqn:Ho; [|done]. cbn. destruct (at_path p o ≫= child n) as [y|] eqn:Ey; [|done]. exfalso.
    destruct (I3 o eq_refl (p ++ [n])) as [z Hz]; [rewrite at_app; destruct (at_path p o); [|done]; cbn in *; rewrite Ey; eauto|]. rewrite at_app, Hx in Hz. cbn in Hz. by rewrite Hcx in Hz. }
  rewrite Hpre. destruct (construct c' None (s_next s)) as [[ch nx] ex] eqn:Ec. apply construct_shell in Ec as [-> Hs]; [|done]. cbn [fst].
  set (x' := put_child n ch _). assert (Ex : child n x = None -> e_children x' = e_children x ++ [(n, ch)]). { intros H. unfold x'. rewrite children_put. destruct x. cbn. apply set_new. by apply get_none. } specialize (Ex Hcx).
  assert (Hch : forall m y, child m x' = Some y -> child m x = Some y \/ y = ch /\ m = n).
  { intros m y. unfold x'. rewrite child_put. destruct (decide (n = m)) as [->|]; [intros [= ->]; auto|]. destruct x. auto. }
  constructor; cbn [s_root s_old s_building]; [| | | |].
  - eapply regular_update; [done|done|]. intros [cls own] Hr. pose proof (regular_inv _ _ _ Hr) as (R0 & R1 & R2 & R3 & R4 & R5 & R6 & R7).
    assert (Hns : n ∉ (own ++ e_inserted x).*1) by (rewrite <- R6; by apply get_none).
    assert (Hni : n ∉ (e_inserted x).*1) by (rewrite fmap_app, not_elem_of_app in Hns; tauto).
    assert (Ei : e_inserted x' = e_inserted x ++ [(n, c')]). { unfold x'. destruct x. cbn in *. by apply set_new. }
    assert (Es : own ++ e_inserted x' = (own ++ e_inserted x) ++ [(n, c')]) by (by rewrite Ei, app_assoc).
    constructor; rewrite ?Es, ?Ex; try done.
    + by destruct x.
    + by destruct x.
    + rewrite fmap_app. apply NoDup_app. split; [done|]. split; [|apply NoDup_singleton]. intros m Hm Hm2. apply elem_of_list_singleton in Hm2 as ->. done.
    + rewrite fmap_app. apply Forall_app. split; [done|]. by apply Forall_singleton.
    + rewrite fmap_app. apply NoDup_app. split; [done|]. split; [|apply NoDup_singleton]. intros m Hm Hm2. apply elem_of_list_singleton in Hm2 as ->. by apply R6 in Hm.
    + intros m. rewrite (fmap_app fst (e_children x)), (fmap_app fst (own ++ e_inserted x)), (elem_of_app (e_children x).*1), (elem_of_app (own ++ e_inserted x).*1), R6. done.
    + intros m d y. rewrite get_app. intros Hd Hy. apply Hch in Hy as [Hy|[-> ->]].
      * destruct (dict_get m (own ++ e_inserted x)) as [d'|] eqn:Hd'; [revert Hd; intros [= ->]; by eapply R7|].
        exfalso. apply get_none in Hd'. apply Hd', R6, key_get. unfold child in Hy. rewrite Hy. eauto.
      * rewrite (proj2 (get_none _ _) Hns) in Hd. cbn [dict_get] in Hd. destruct (decide (n = n)); [|done]. revert Hd. intros [= <-]. by apply shell_regular.
  - done.
  - intros o Ho q Hq. eapply update_paths; [done| |by apply (I3 o)]. intros [|m r]; cbn [at_path]; [eauto|]. unfold x'. rewrite child_put. destruct (decide (n = m)) as [->|]; [|by destruct x]. rewrite Hcx. intros [? ?]; done.
  - eapply update_flags; [done| |done]. rewrite !flags_inv. intros [H1 H2]. split; [by destruct x|]. intros m y Hy. apply Hch in Hy as [Hy|[-> _]]; [by eapply H2|by eapply shell_flags].
  - intros Ho. eapply update_bflags; [done| |by apply I5]. rewrite !bflags_inv. intros [H1 H2]. split; [by destruct x|]. intros m y Hy. apply Hch in Hy as [Hy|[-> _]]; [by eapply H2|by eapply shell_bflags].
Qed.
Lemma inv_complete c s fuel : inv c s -> inv c (complete_root fuel s).1.
Proof.
  intros [I1 I2 I3 I4 I5]. unfold complete_root. destruct (complete _ _ _ _ _ _) as [[[e n] ep] ex] eqn:Ec. eapply complete_settled in Ec as (T1 & T2 & T3 & T4); [|done]. constructor; cbn; auto.
  intros o Ho p Hp. apply (I3 o Ho) in Hp as [x Hp]. specialize (T2 p). rewrite Hp in T2. destruct (at_path p e); [eauto|done].
Qed.
Lemma inv_bond c s p q : inv c s -> inv c (bond_inform p q s).1.
Proof.
  intros Hi. unfold bond_inform. destruct (at_path p (s_root s)) as [x|] eqn:Hx; [|done]. rewrite (inv_building _ _ Hi). destruct Hi as [I1 I2 I3 I4 I5].
  destruct (e_bond x) as [b|] eqn:Eb; constructor; cbn [fst s_root s_old s_building]; try done.
  1, 5: (eapply regular_update; [done|done|]; intros; by apply set_bonds_regular).
  1, 4: (intros o Ho r Hr; eapply update_paths; [done| |by apply (I3 o)]; intros; by apply set_bonds_paths).
  1, 3: (eapply update_flags; [done| |done]; rewrite !flags_inv; by destruct x).
  1, 2: (intros Ho; eapply update_bflags; [done| |by apply I5]; rewrite !bflags_inv; destruct x; cbn; tauto).
Qed.
Lemma inv_ebond c s p q : inv c s -> inv c (ebond_inform p q s).1.
Proof.
  intros Hi. unfold ebond_inform. destruct (at_path p (s_root s)) as [x|] eqn:Hx; [|done]. rewrite (inv_building _ _ Hi). destruct Hi as [I1 I2 I3 I4 I5].
  constructor; cbn [fst s_root s_old s_building]; try done.
  - eapply regular_update; [done|done|]; intros; by apply set_bonds_regular.
  - intros o Ho r Hr; eapply update_paths; [done| |by apply (I3 o)]; intros; by apply set_bonds_paths.
  - eapply update_flags; [done| |done]; rewrite !flags_inv. destruct x. cbn. intros [H1 H2]. split; [|done]. apply Forall_app. split; [done|]. by apply Forall_singleton.
  - intros Ho; eapply update_bflags; [done| |by apply I5]; rewrite !bflags_inv; destruct x; cbn; tauto.
Qed.
(** *** regeneration *)
Lemma regenerate_ok c s fuel : inv c s -> height (s_root s) <= fuel ->
  (regenerate fuel c s).2 = None /\ (forall p, now <$> at_path p (s_root (regenerate fuel c s).1) = kept <$> at_path p (s_root s)) /\ inv c (regenerate fuel c s).1.
Proof.
  intros [I1 I2 I3 I4 I5] Hf. unfold regenerate, start. destruct (construct c (Some (s_root s)) 0) as [[e n] ex] eqn:Ec. apply construct_shell in Ec as [-> Hs]; [|by eapply regular_good].
  unfold complete_root. cbn [is_building s_building s_old s_root s_next s_epoch Nat.eqb negb]. destruct (complete_shell c (s_root s) I1 e n 0 fuel Hs Hf) as (e' & n' & ep' & E1 & E2 & E3).
  rewrite E1. cbn. split; [done|]. split; [done|]. constructor; cbn; try done.
  - intros o [= <-] p [x Hp]. specialize (E3 p). rewrite Hp in E3. destruct (at_path p e'); [eauto|done].
  - intros p x Hp. specialize (E3 p). rewrite Hp in E3. destruct (at_path p (s_root s)) as [y|]; [|done]. cbn in E3. unfold now, kept in E3. revert E3. intros [= _ _ _ E3]. rewrite E3. apply Forall_forall. intros b Hb. by apply elem_of_list_filter in Hb as [? _].
Qed.
Lemma regenerate_none c s fuel : inv c s -> (regenerate fuel c s).2 = None -> exists fuel', height (s_root s) <= fuel' /\ regenerate fuel' c s = regenerate fuel c s.
Proof.
  intros Hi. exists (Nat.max (height (s_root s)) fuel). split; [lia|]. revert H. unfold regenerate. destruct (start c (Some (s_root s))) as [s' [x|]]; [done|]. unfold complete_root.
  destruct (complete fuel _ _ _ _ _) as [[[e n] ep] ex] eqn:Ec. cbn. intros ->. erewrite complete_mono; [done| |exact Ec]. lia.
Qed.
Lemma grown_inv c s : good_ctor c -> grown c s -> inv c s.
Proof.
  intros Hg. induction 1 as [|s p n c' _ IH H1 H2 H3 H4|s x _ IH|s fuel _ IH|s p q _ IH|s p q _ IH|s fuel _ IH H1].
  - by apply inv_start.
  - by apply inv_insert.
  - by rewrite (getitem_regular c x s (i_reg _ _ IH)).
  - by apply inv_complete.
  - by apply inv_bond.
  - by apply inv_ebond.
  - destruct (regenerate_none _ _ _ IH H1) as (fuel' & F1 & F2). rewrite <- F2. by apply regenerate_ok.
Qed.
(** *** single insertions *)
Lemma at_update_view {A} (g : elem -> A) p : (forall n c e, g (put_child n c e) = g e) -> forall e x x' q, at_path p e = Some x ->
  (forall r, q = p ++ r -> g <$> at_path r x' = g <$> at_path r x) -> g <$> at_path q (update_at p x' e) = g <$> at_path q e.
Proof.
  intros Hg. induction p as [|n p IH]; intros e x x' q; cbn [at_path update_at]; [intros [= ->] H; by apply H|]. destruct (child n e) as [ch|] eqn:Hc; [|done]. cbn. intros Hp H.
  destruct q as [|m q]; cbn [at_path]; [cbn; by rewrite Hg|]. rewrite child_put. destruct (decide (n = m)) as [->|]; [|done]. rewrite Hc. cbn. eapply IH; [done|]. intros r ->. by apply H.
Qed.
Lemma put_uid_cls n c e : (e_uid (put_child n c e), e_cls (put_child n c e)) = (e_uid e, e_cls e).
Proof. by destruct e. Qed.
Lemma view2 q e e' : (fun x => (e_uid x, e_cls x)) <$> at_path q e' = (fun x => (e_uid x, e_cls x)) <$> at_path q e -> uid_at e' q = uid_at e q /\ class_at e' q = class_at e q.
Proof. unfold uid_at, class_at. destruct (at_path q e'), (at_path q e); cbn; intros; simplify_eq; split; congruence. Qed.
Lemma walk_missing bld p : forall pre c e next epoch, regular c e -> at_path p e = None -> walk bld pre p e next epoch = (e, next, epoch, Err KeyError).
Proof.
  induction p as [|n p IH]; intros pre c e next epoch Hr; cbn [walk at_path]; [done|].
  assert (Hp : e_pending e = []) by (destruct c; by apply regular_inv in Hr as (_ & _ & ? & _)).
  destruct (child n e) as [ch|] eqn:Hc; cbn; intros Hn.
  - destruct (regular_child _ _ _ _ Hr Hc) as [c' Hr']. rewrite (IH _ c' ch) by done. rewrite put_same; [done| |done].
    destruct c; by apply regular_inv in Hr as (_ & _ & _ & _ & _ & ? & _).
  - by rewrite Hp.
Qed.
Lemma construct_cls c pre next e n ex : good_ctor c -> construct c pre next = (e, n, ex) -> e_cls e = (let '(Ctor cls _) := c in cls).
Proof. intros Hg Ec. apply construct_shell in Ec as [_ Hs]; [|done]. by destruct Hs. Qed.
(** *** the examples *)
Lemma good_leaf cls : good_ctor (Ctor cls []).
Proof. constructor; [apply NoDup_nil_2|constructor|]. intros n c H. inversion H. Qed.
Lemma good_one cls n c : plain n -> good_ctor c -> good_ctor (Ctor cls [(n, c)]).
Proof. intros Hn Hc. constructor; [apply NoDup_singleton|by repeat constructor|]. intros m d H. apply elem_of_list_singleton in H. by simplify_eq. Qed.
Lemma plain_a : plain ex_a. Proof. apply has_dot_plain. reflexivity. Qed.
Lemma plain_b : plain ex_b. Proof. apply has_dot_plain. reflexivity. Qed.
Lemma ex_good : good_ctor ex_c.
Proof. apply good_one; [apply plain_a|]. apply good_one; [apply plain_b|]. apply good_leaf. Qed.
Lemma ex_grown : grown ex_c ex_s.
Proof.
  unfold ex_s, ex_ops, run. cbn [foldl run1]. apply grown_ebond, grown_bond. apply grown_insert; [|apply good_leaf|apply plain_b|eexists; reflexivity|reflexivity].
  apply grown_insert; [apply grown_start|apply good_one; [apply plain_a|apply good_leaf]|apply plain_b|eexists; reflexivity|reflexivity].
Qed.
Lemma ex_grown2 : grown ex_c (regenerate 9 ex_c ex_s).1.
Proof. apply grown_regenerate; [apply ex_grown|reflexivity]. Qed.
