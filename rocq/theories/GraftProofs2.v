(** Lemmas for GraftProps.v: regeneration. *)
From Coq Require Import Lia.
From stdpp Require Import base tactics numbers list.
From Verif Require Import Fld Py Herm NoiModel NoiProofs GraftModel GraftSpec GraftProofs.

Notation forest := (list (name * elem)).
Lemma key_get {V} (d : list (name * V)) n : n ∈ d.*1 <-> is_Some (dict_get n d).
Proof.
  induction d as [|[m v] d IH]; cbn [dict_get fmap list_fmap fst]; [split; [intros H; inversion H|intros [? ?]; done]|].
  rewrite elem_of_cons, IH. destruct (decide (m = n)) as [->|]; [split; eauto|]. split; [intros [?|?]; [congruence|done]|auto].
Qed.
Lemma get_app {V} (d1 d2 : list (name * V)) n : dict_get n (d1 ++ d2) = match dict_get n d1 with Some v => Some v | None => dict_get n d2 end.
Proof. induction d1 as [|[m v] d1 IH]; cbn [app dict_get]; [done|]. by destruct (decide (m = n)). Qed.
Lemma get_in {V} (d : list (name * V)) n v : NoDup d.*1 -> (n, v) ∈ d -> dict_get n d = Some v.
Proof.
  induction d as [|[m w] d IH]; cbn [dict_get fmap list_fmap fst]; [intros _ H; inversion H|]. intros Hd. apply NoDup_cons in Hd as [H1 H2]. rewrite elem_of_cons. intros [[= <- <-]|H].
  - destruct (decide (n = n)); done.
  - destruct (decide (m = n)) as [->|]; [|by apply IH]. destruct H1. apply elem_of_list_fmap. by exists (n, v).
Qed.
Lemma in_get {V} (d : list (name * V)) n v : dict_get n d = Some v -> (n, v) ∈ d.
Proof.
  induction d as [|[m w] d IH]; cbn [dict_get]; [done|]. destruct (decide (m = n)) as [->|]; [intros [= ->]; left|]. intros H. right. by apply IH.
Qed.
Lemma get_none {V} (d : list (name * V)) n : dict_get n d = None <-> n ∉ d.*1.
Proof. rewrite key_get, <- eq_None_not_Some. done. Qed.
Lemma set_new {V} (d : list (name * V)) n v : n ∉ d.*1 -> dict_set n v d = d ++ [(n, v)].
Proof.
  induction d as [|[m w] d IH]; cbn [dict_set app fmap list_fmap fst]; [done|]. intros H. apply not_elem_of_cons in H as [H1 H2]. destruct (decide (m = n)); [congruence|]. by rewrite IH.
Qed.
Lemma set_last {V} (d : list (name * V)) n v w : n ∉ d.*1 -> dict_set n v (d ++ [(n, w)]) = d ++ [(n, v)].
Proof.
  induction d as [|[m x] d IH]; cbn [dict_set app fmap list_fmap fst]; [destruct (decide (n = n)); done|]. intros H. apply not_elem_of_cons in H as [H1 H2]. destruct (decide (m = n)); [congruence|]. by rewrite IH.
Qed.
Lemma fmap_rev {V} (d : list (name * V)) : (rev d).*1 = reverse d.*1.
Proof. rewrite <- fmap_reverse. unfold reverse. by rewrite <- rev_alt. Qed.
Lemma get_rev {V} (d : list (name * V)) n : NoDup d.*1 -> dict_get n (rev d) = dict_get n d.
Proof.
  intros Hd. destruct (dict_get n d) as [v|] eqn:E.
  - apply get_in; [rewrite fmap_rev; by rewrite reverse_Permutation|]. apply elem_of_list_In, (proj1 (in_rev _ _)), elem_of_list_In. by apply in_get.
  - apply get_none. apply get_none in E. rewrite fmap_rev. by rewrite elem_of_reverse.
Qed.

(** *** what a constructor makes *)
Inductive shell : ctor -> option elem -> elem -> Prop :=
| Shell cls own pre e : e_cls e = cls -> e_inserted e = [] -> e_pending e = default [] (e_inserted <$> pre) -> e_done e = None ->
    e_bond e = None -> e_bbonded e = true -> e_ebonds e = [] -> (e_children e).*1 = own.*1 ->
    (forall n c ch, dict_get n own = Some c -> child n e = Some ch -> shell c (pre ≫= child n) ch) -> shell (Ctor cls own) pre e.
Lemma good_inv cls own : good_ctor (Ctor cls own) -> NoDup own.*1 /\ Forall plain own.*1 /\ (forall n c, (n, c) ∈ own -> good_ctor c).
Proof. intros H. inversion H; subst. done. Qed.
Lemma construct_shell c : good_ctor c -> forall pre next e next' ex, construct c pre next = (e, next', ex) -> ex = None /\ shell c pre e.
Proof.
  induction c as [cls own IH] using ctor_ind2. intros Hg pre next e next' ex. rewrite construct_eq. apply good_inv in Hg as (G1 & G2 & G3).
  set (e0 := Elem next cls [] [] (default [] (e_inserted <$> pre)) None None true []).
  assert (L : forall own, Forall (fun x => good_ctor x.2 -> forall pre next e next' ex, construct x.2 pre next = (e, next', ex) -> ex = None /\ shell x.2 pre e) own ->
     NoDup own.*1 -> Forall plain own.*1 -> (forall n c, (n, c) ∈ own -> good_ctor c) ->
     forall e1 n1 e2 n2 ex2, (forall n, n ∈ own.*1 -> n ∉ (e_children e1).*1) -> own_loop pre own e1 n1 = (e2, n2, ex2) ->
     ex2 = None /\ exists new : forest, new.*1 = own.*1 /\ e2 = set_children (e_children e1 ++ new) e1 /\
       forall n c ch, dict_get n own = Some c -> dict_get n new = Some ch -> shell c (pre ≫= child n) ch).
  { clear. induction 1 as [|[n c] own Hc _ IH]; intros N1 N2 N3 e1 n1 e2 n2 ex2 Hd; cbn [own_loop].
    - intros [= <- <- <-]. split; [done|]. exists []. rewrite app_nil_r, set_children_same. done.
    - cbn [fmap list_fmap fst] in N1, N2, Hd. apply NoDup_cons in N1 as [N0 N1]. apply Forall_cons in N2 as [P0 N2]. rewrite (proj2 (has_dot_plain n) P0).
      destruct (construct c (pre ≫= child n) n1) as [[ch n3] ex3] eqn:Ec. cbn [snd] in Hc. apply Hc in Ec as [-> Hs]; [|apply (N3 n); left].
      assert (Hn : n ∉ (e_children e1).*1) by (apply Hd; left).
      assert (Ep : e_children (put_child n ch e1) = e_children e1 ++ [(n, ch)]) by (rewrite children_put; by apply set_new).
      intros El. apply IH in El as [-> (new & E1 & E2 & E3)]; [|done|done|intros m d Hm; apply (N3 m); by right|].
      + split; [done|]. exists ((n, ch) :: new). cbn [fmap list_fmap fst]. split; [by rewrite E1|]. split.
        * rewrite E2, Ep, <- app_assoc. by destruct e1.
        * intros m d x. cbn [dict_get]. destruct (decide (n = m)) as [->|]; [intros Ha Hb; simplify_eq; done|]. apply E3.
      + intros m Hm. rewrite Ep, fmap_app. cbn [fmap list_fmap fst]. rewrite elem_of_app, elem_of_list_singleton. intros [H| ->]; [|done]. revert H. apply Hd. by right. }
  intros E. apply (L own IH G1 G2 G3) in E as [-> (new & E1 & -> & E3)]; [|intros n Hn; cbn; apply not_elem_of_nil].
  split; [done|]. apply Shell; try done.
Qed.

(** *** trees made of their classes and what was inserted *)
Inductive regular : ctor -> elem -> Prop :=
| Regular cls own e : good_ctor (Ctor cls own) -> e_cls e = cls -> e_pending e = [] ->
    NoDup (own ++ e_inserted e).*1 -> Forall plain (own ++ e_inserted e).*1 -> NoDup (e_children e).*1 ->
    (forall n, n ∈ (e_children e).*1 <-> n ∈ (own ++ e_inserted e).*1) ->
    (forall n c ch, dict_get n (own ++ e_inserted e) = Some c -> child n e = Some ch -> regular c ch) -> regular (Ctor cls own) e.
Lemma regular_inv cls own e : regular (Ctor cls own) e -> good_ctor (Ctor cls own) /\ e_cls e = cls /\ e_pending e = [] /\
    NoDup (own ++ e_inserted e).*1 /\ Forall plain (own ++ e_inserted e).*1 /\ NoDup (e_children e).*1 /\
    (forall n, n ∈ (e_children e).*1 <-> n ∈ (own ++ e_inserted e).*1) /\
    (forall n c ch, dict_get n (own ++ e_inserted e) = Some c -> child n e = Some ch -> regular c ch).
Proof. intros H. inversion H; subst. repeat (split; [done|]). done. Qed.
Lemma regular_good c e : regular c e -> good_ctor c.
Proof. by intros []. Qed.
Lemma shell_regular c : forall e, good_ctor c -> shell c None e -> regular c e.
Proof.
  induction c as [cls own IH] using ctor_ind2. intros e Hg Hs. inversion Hs as [? ? ? ? S1 S2 S3 S4 S5 S6 S7 S8 S9]; subst. pose proof (good_inv _ _ Hg) as (G1 & G2 & G3).
  constructor; try done; rewrite ?S2, ?app_nil_r, ?S8; try done.
  intros n c ch Hn Hc. rewrite Forall_forall in IH. apply (IH (n, c)); [by apply in_get|apply (G3 n); by apply in_get|]. by apply (S9 n).
Qed.
Lemma regular_child c e n ch : regular c e -> child n e = Some ch -> exists c', regular c' ch.
Proof.
  destruct c as [cls own]. intros Hr Hc. apply regular_inv in Hr as (_ & _ & _ & _ & _ & _ & R7 & R8).
  assert (Hn : n ∈ (own ++ e_inserted e).*1). { apply R7, key_get. unfold child in Hc. rewrite Hc. eauto. }
  apply key_get in Hn as [c' Hn]. exists c'. by eapply R8.
Qed.

(** *** completing a regenerated tree *)
Lemma pending_shell pre todo : forall e next epoch, NoDup todo.*1 -> Forall plain todo.*1 -> (forall n c, (n, c) ∈ todo -> good_ctor c) ->
  (forall n, n ∈ todo.*1 -> n ∉ (e_children e).*1 /\ n ∉ (e_inserted e).*1) ->
  exists new next' epoch', insert_pending false pre todo e next epoch =
     (set_pending [] (set_inserted (e_inserted e ++ todo) (set_children (e_children e ++ new) e)), next', epoch', None) /\
     new.*1 = todo.*1 /\ forall n c ch, dict_get n todo = Some c -> dict_get n new = Some ch -> shell c (pre ≫= child n) ch.
Proof.
  induction todo as [|[n c] todo IH]; intros e next epoch N1 N2 N3 Hd; cbn [insert_pending].
  - exists [], next, epoch. split; [|done]. rewrite !app_nil_r. by destruct e.
  - cbn [fmap list_fmap fst] in N1, N2, Hd. apply NoDup_cons in N1 as [N0 N1]. apply Forall_cons in N2 as [P0 N2].
    destruct (Hd n) as [D1 D2]; [left|].
    assert (Hc : child n (set_pending (rev todo) e) = None) by (destruct e; by apply get_none). rewrite Hc.
    unfold insert. rewrite (proj2 (has_dot_plain n) P0).
    destruct (construct c (pre ≫= child n) next) as [[ch n3] ex3] eqn:Ec. apply construct_shell in Ec as [-> Hs]; [|apply (N3 n); left].
    set (e1 := put_child n ch _).
    assert (E1 : e1 = set_pending (rev todo) (set_inserted (e_inserted e ++ [(n, c)]) (set_children (e_children e ++ [(n, ch)]) e))).
    { unfold e1. destruct e as [u cl cs i p d b bb eb]. cbn. cbn in D1, D2. rewrite (set_new cs) by done. rewrite (set_new i) by done. rewrite set_last by done. done. }
    destruct (IH e1 n3 (S epoch) N1 N2) as (new & next' & epoch' & E2 & E3 & E4).
    + intros m d Hm. apply (N3 m). by right.
    + intros m Hm. rewrite E1. destruct e as [u cl cs i p d b bb eb]. cbn. rewrite !fmap_app, !not_elem_of_app. cbn [fmap list_fmap fst]. rewrite !elem_of_list_singleton.
      destruct (Hd m) as [? ?]; [by right|]. cbn in *. assert (m <> n) by (intros ->; done). done.
    + exists ((n, ch) :: new), next', epoch'. split; [|split; [cbn; by rewrite E3|]].
      * rewrite E2, E1. destruct e. cbn. by rewrite <- !app_assoc.
      * intros m d x. cbn [dict_get]. destruct (decide (n = m)) as [->|]; [intros Ha Hb; simplify_eq; done|]. apply E4.
Qed.
Lemma complete_list_ok fuel bld pre (P : name -> elem -> Prop) : forall (cs : forest) next epoch,
  (forall n ch, (n, ch) ∈ cs -> forall next epoch, exists e' next' epoch', complete fuel bld (pre ≫= child n) ch next epoch = (e', next', epoch', None) /\ P n e') ->
  exists cs' next' epoch', complete_list fuel bld pre cs next epoch = (cs', next', epoch', None) /\ cs'.*1 = cs.*1 /\ forall n e', (n, e') ∈ cs' -> P n e'.
Proof.
  induction cs as [|[n ch] cs IH]; intros next epoch H; cbn [complete_list].
  - exists [], next, epoch. split; [done|]. split; [done|]. intros n e' Hn. inversion Hn.
  - destruct (H n ch (elem_of_list_here _ _) next epoch) as (e' & n1 & ep1 & E1 & E2). rewrite E1.
    destruct (IH n1 ep1) as (cs' & n2 & ep2 & F1 & F2 & F3); [intros m d Hm; apply H; by right|]. rewrite F1. exists ((n, e') :: cs'), n2, ep2.
    split; [done|]. split; [cbn; by rewrite F2|]. intros m d. rewrite elem_of_cons. intros [[= -> ->]|Hm]; [done|by apply F3].
Qed.
(** what is seen of an element, and what is carried over from its old incarnation *)
Definition now (x : elem) := (e_cls x, e_bond x, e_bbonded x, e_ebonds x).
Definition kept (x : elem) := (e_cls x, if e_bbonded x then None else e_bond x, true, filter (fun b => b.2 = false) (e_ebonds x)).
Lemma height_child n c e : child n e = Some c -> height c < height e.
Proof.
  destruct e as [u cl cs i p d b bb eb]. cbn. unfold child. cbn. induction cs as [|[m x] cs IH]; cbn [dict_get]; [done|]. destruct (decide (m = n)); [intros [= ->]; lia|]. intros H. apply IH in H. lia.
Qed.
Lemma get_keys {V W} (d1 : list (name * V)) (d2 : list (name * W)) n v : d1.*1 = d2.*1 -> dict_get n d1 = Some v -> exists w, dict_get n d2 = Some w.
Proof. intros E H. assert (Hn : n ∈ d1.*1) by (apply key_get; rewrite H; eauto). rewrite E in Hn. apply key_get in Hn as [w Hw]. eauto. Qed.
Lemma complete_shell c old : regular c old -> forall e next epoch fuel, shell c (Some old) e -> height old <= fuel ->
  exists e' next' epoch', complete fuel false (Some old) e next epoch = (e', next', epoch', None) /\ regular c e' /\ forall p, now <$> at_path p e' = kept <$> at_path p old.
Proof.
  induction 1 as [cls own old Hg R1 R2 R3 R4 R5 R6 R7 IH]. intros e next epoch fuel Hs Hf. pose proof (good_inv _ _ Hg) as (G1 & G2 & G3).
  inversion Hs as [? ? ? ? S1 S2 S3 S4 S5 S6 S7 S8 S9]; subst. destruct fuel as [|fuel]; [destruct old; cbn in Hf; lia|].
  rewrite complete_eq. destruct (decide (e_done e = Some epoch)) as [Ed|_]; [congruence|]. change (e_pending e = e_inserted old) in S3. rewrite S3.
  rewrite fmap_app in R3, R4. apply NoDup_app in R3 as (_ & Rd & Ri). apply Forall_app in R4 as [_ R4].
  set (ins := e_inserted old) in *.
  destruct (pending_shell (Some old) (rev ins) (set_done (Some epoch) e) next epoch) as (new & n1 & ep1 & Ep & En & Esh).
  { rewrite fmap_rev. by rewrite reverse_Permutation. }
  { rewrite fmap_rev. by rewrite Forall_reverse. }
  { intros n d Hn. apply elem_of_list_In, in_rev, elem_of_list_In in Hn. assert (Hi : n ∈ ins.*1) by (apply elem_of_list_fmap; by exists (n, d)).
    assert (Ho : n ∈ (e_children old).*1) by (apply R6; rewrite fmap_app, elem_of_app; auto). apply key_get in Ho as [ch Ho].
    eapply regular_good, (R7 n d ch); [|done]. rewrite get_app. assert (Hno : dict_get n own = None) by (apply get_none; intros H; by apply (Rd n H)). rewrite Hno. by apply get_in. }
  { intros n. rewrite fmap_rev, elem_of_reverse. intros Hn. destruct e as [u cl cs i p d b bb eb]. cbn in *. subst i. split; [|cbn; apply not_elem_of_nil]. rewrite S8. intros H. by apply (Rd n H). }
  rewrite Ep. set (e1 := set_pending [] _). cbn [fmap].
  assert (C1 : e_children e1 = e_children e ++ new) by (by destruct e).
  assert (Hspec : forall n ch, (n, ch) ∈ e_children e1 -> exists c' och, dict_get n (own ++ ins) = Some c' /\ child n old = Some och /\ shell c' (Some och) ch).
  { intros n ch Hn. assert (Hnd : NoDup (e_children e1).*1).
    { rewrite C1, fmap_app, S8, En, fmap_rev. apply NoDup_app. split; [done|]. split; [intros x Hx; rewrite elem_of_reverse; by apply Rd|]. by rewrite reverse_Permutation. }
    apply get_in in Hn; [|done]. rewrite C1, get_app in Hn.
    assert (Hk : n ∈ (own ++ ins).*1). { rewrite fmap_app, elem_of_app. destruct (dict_get n (e_children e)) eqn:E; [left; rewrite <- S8; apply key_get; rewrite E; eauto|].
      right. rewrite <- elem_of_reverse, <- fmap_rev, <- En. apply key_get. rewrite Hn. eauto. }
    pose proof (proj2 (R6 n) Hk) as Ho. apply key_get in Hk as [c' Hk]. apply key_get in Ho as [och Ho]. exists c', och. split; [done|]. split; [done|].
    rewrite get_app in Hk. destruct (dict_get n (e_children e)) as [x|] eqn:E.
    - revert Hn. intros [= ->]. destruct (get_keys _ _ _ _ S8 E) as [w Hw]. rewrite Hw in Hk. revert Hk. intros [= ->].
      specialize (S9 n c' ch Hw E). cbn [mbind option_bind] in S9. unfold child at 1 in S9. by rewrite Ho in S9.
    - assert (Hno : dict_get n own = None). { apply get_none. rewrite <- S8. by apply get_none. } rewrite Hno in Hk.
      specialize (Esh n c' ch). rewrite get_rev in Esh by done. specialize (Esh Hk Hn). cbn [mbind option_bind] in Esh. unfold child at 1 in Esh. by rewrite Ho in Esh. }
  destruct (complete_list_ok fuel false (Some old) (fun n e' => exists c' och, dict_get n (own ++ ins) = Some c' /\ child n old = Some och /\ regular c' e' /\ forall p, now <$> at_path p e' = kept <$> at_path p och) (e_children e1) n1 ep1) as (cs' & n2 & ep2 & L1 & L2 & L3).
  { intros n ch Hn nx ep. destruct (Hspec n ch Hn) as (c' & och & H1 & H2 & H3). cbn [mbind option_bind]. rewrite H2.
    destruct (IH n c' och H1 H2 ch nx ep fuel H3) as (e' & n' & ep' & K1 & K2 & K3); [apply height_child in H2; lia|]. exists e', n', ep'. split; [done|]. exists c', och. done. }
  rewrite L1. exists (carry_bonds (Some old) (set_children cs' e1)), n2, ep2. split; [done|].
  assert (K : forall n, n ∈ cs'.*1 <-> n ∈ (own ++ rev ins).*1).
  { intros n. rewrite L2, C1, !fmap_app, S8, En. done. }
  assert (Hnd : NoDup (own ++ rev ins).*1).
  { rewrite fmap_app, fmap_rev. apply NoDup_app. split; [done|]. split; [intros x Hx; rewrite elem_of_reverse; by apply Rd|]. by rewrite reverse_Permutation. }
  assert (I1 : e_inserted e1 = rev ins) by (destruct e; cbn in *; by subst).
  set (e2 := carry_bonds _ _).
  assert (CE : e_children e2 = cs') by (by destruct e).
  assert (IE : e_inserted e2 = rev ins) by (rewrite <- I1; by destruct e).
  split.
  - constructor; try done.
    + by destruct e.
    + by destruct e.
    + by rewrite IE.
    + rewrite IE, fmap_app, fmap_rev. apply Forall_app. split; [done|]. by rewrite Forall_reverse.
    + rewrite CE, L2, C1, fmap_app, S8, En, <- fmap_app. done.
    + rewrite CE, IE. done.
    + rewrite IE. intros n c ch Hn Hc. unfold child in Hc. rewrite CE in Hc. apply in_get in Hc. destruct (L3 n ch Hc) as (c' & och & H1 & H2 & H3 & H4).
      rewrite get_app in H1, Hn. rewrite get_rev in Hn by done. rewrite Hn in H1. by revert H1; intros [= ->].
  - intros p. destruct p as [|n p]; cbn [at_path].
    + cbn. f_equal. unfold now, kept, e2, carry_bonds. destruct e as [u cl cs i pd d b bb eb]. cbn in *. subst. cbn. rewrite ?app_nil_l. destruct (e_bond old), (e_bbonded old); done.
    + destruct (child n e2) as [ch|] eqn:Hc.
      * unfold child in Hc. rewrite CE in Hc. apply in_get in Hc. destruct (L3 n ch Hc) as (c' & och & H1 & H2 & H3 & H4). rewrite H2. cbn. apply H4.
      * destruct (child n old) as [och|] eqn:Ho; [|done]. exfalso. unfold child in Hc. rewrite CE in Hc. apply get_none in Hc. apply Hc, K.
        assert (Hn : n ∈ (e_children old).*1) by (apply key_get; unfold child in Ho; rewrite Ho; eauto). apply R6 in Hn. revert Hn. rewrite !fmap_app, !elem_of_app, fmap_rev, elem_of_reverse. done.
Qed.
