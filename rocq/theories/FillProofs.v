From stdpp Require Import base tactics numbers gmap fin_sets sets list.
From Verif Require Import Py PortModel PortSpec PortProofs PdModel FillModel FillSpec.

Section fill.
  Context {P A Q : Type} `{Countable P} `{Countable A} `{Countable Q}.
  Context (qadd : Q -> Q -> Q) (qneg : Q -> Q) (reject : Q -> bool).
  Notation K := (key A Q).
  Notation reqs := (list (P * K)).
  Implicit Types (u c : P -> gset K) (o : A).

  Lemma gather_ok {B} (f : B -> res reqs) l :
    (forall x, x ∈ l -> exists r, f x = Ok r) ->
    exists r, gather f l = Ok r /\ forall y, y ∈ r <-> exists x rx, x ∈ l /\ f x = Ok rx /\ y ∈ rx.
  Proof.
    induction l as [|x l IH]; intros Hf; cbn [gather].
    { exists []. split; [done|]. intros y. split; [by intros ?%elem_of_nil|]. intros (x & rx & []%elem_of_nil & _). }
    destruct (Hf x) as (a & Ea); [left|]. destruct IH as (b & Eb & Hb); [intros z Hz; apply Hf; by right|].
    rewrite Ea, Eb. cbn. exists (a ++ b). split; [done|]. intros y. rewrite elem_of_app, Hb. split.
    - intros [Hy|(z & rz & Hz & Ez & Hy)]; [exists x, a; repeat split; [left|done..]|exists z, rz; repeat split; [by right|done..]].
    - intros (z & rz & Hz & Ez & Hy). apply elem_of_cons in Hz as [->|Hz]; [left; congruence|right; eauto].
  Qed.
  Lemma gather_err {B} (f : B -> res reqs) l e :
    (forall x, x ∈ l -> (exists r, f x = Ok r) \/ f x = Err e) -> (exists x, x ∈ l /\ f x = Err e) -> gather f l = Err e.
  Proof.
    induction l as [|x l IH]; intros Hf (y & Hy & Ey); [by apply elem_of_nil in Hy|]. cbn [gather].
    destruct (Hf x) as [[r Er]|Ex]; [left| |by rewrite Ex]. rewrite Er. cbn.
    rewrite IH; [done|intros z Hz; apply Hf; by right|].
    apply elem_of_cons in Hy as [->|Hy]; [congruence|eauto].
  Qed.

  Lemma of_group_ok l o (k : K) : of_group l o k = true <-> exists f, k = opt l o f.
  Proof.
    unfold of_group, light_of, opt. destruct k as [[[l' o']|] f]; [|split; [done|intros (? & ?); done]].
    rewrite bool_decide_eq_true. split; [intros [-> ->]; eauto|intros (g & [= -> -> ->]); done].
  Qed.
  Lemma elem_filter (g : K -> bool) (L : list K) k : k ∈ List.filter g L <-> k ∈ L /\ g k = true.
  Proof. rewrite !elem_of_list_In, filter_In. done. Qed.
  Lemma subset_same_ok pool l o f (b : K) : b ∈ subset_same pool (opt l o f) <-> b ∈ pool /\ exists g, b = opt l o g.
  Proof. unfold subset_same. cbn. rewrite elem_filter, of_group_ok, elem_of_elements. done. Qed.
  Lemma subset_opposite_ok pool l o f (b : K) : b ∈ subset_opposite pool (opt l o f) <-> b ∈ pool /\ exists g, b = opt (negb l) o g.
  Proof. unfold subset_opposite. cbn. rewrite elem_filter, of_group_ok, elem_of_elements. done. Qed.

  (** the pairs handed out *)
  Lemma same_ok u c p f2 : exists l, symmetric_update u c (Some (POne p)) (Some (POne p)) (Some f2) None = Ok l /\
    forall a b, (a, b) ∈ l <-> a ∈ u p /\ b ∈ f2 (u p ∪ c p) a.
  Proof.
    eexists. split; [reflexivity|]. intros a b. rewrite decide_True by done. rewrite app_nil_r, elem_pairs. done.
  Qed.
  Lemma many_ok u c p ps f2 : exists l, symmetric_update u c (Some (POne p)) (Some (PMany ps)) (Some f2) None = Ok l /\
    forall a b, (a, b) ∈ l <->
      (a ∈ u p /\ b ∈ f2 (⋃ ((fun q => u q ∪ c q) <$> ps)) a) \/ ((exists q, q ∈ ps /\ b ∈ u q) /\ a ∈ c p).
  Proof.
    eexists. split; [reflexivity|]. intros a b. rewrite elem_of_app, elem_pairs.
    rewrite decide_False by congruence. rewrite elem_pairs', !elem_of_elements. cbn [pool].
    rewrite elem_of_union_list. setoid_rewrite elem_of_list_fmap. set_solver.
  Qed.
  Lemma elem_union_fmap (g : P -> gset K) ps b : b ∈ ⋃ (g <$> ps) <-> exists q, q ∈ ps /\ b ∈ g q.
  Proof. rewrite elem_of_union_list. setoid_rewrite elem_of_list_fmap. split; [intros (X & (q & -> & Hq) & Hb); eauto|intros (q & Hq & Hb); eauto]. Qed.

  (** a pair of keys of which one is new *)
  Definition fresh u c p q (a b : K) : Prop := (a ∈ u p \/ a ∈ c p) /\ (b ∈ u q \/ b ∈ c q) /\ (a ∈ u p \/ b ∈ u q).
  Lemma fresh_or u c p q a b : (a ∈ u p \/ a ∈ c p) -> (b ∈ u q \/ b ∈ c q) -> fresh u c p q a b \/ ((a ∈ c p /\ a ∉ u p) /\ (b ∈ c q /\ b ∉ u q)).
  Proof. unfold fresh. intros. destruct (decide (a ∈ u p)), (decide (b ∈ u q)); naive_solver. Qed.

  Notation fill_in := (fill_in qadd qneg reject).
  Notation fill_out := (fill_out qadd qneg reject).
  Notation ports_fill := (ports_fill qadd qneg reject).
  Notation moved := (moved qadd qneg).

  Lemma fill_drive_ok (ptos : list P) i q l (o : A) f F r p :
    fill_drive qadd qneg reject ptos i q (opt l o f, cls F) = Ok r -> reject (moved l f F) = false ->
    p ∈ ptos -> (p, opt l o (moved l f F)) ∈ r.
  Proof.
    unfold fill_drive, FillModel.qsub. cbn [fst snd light_of signal_of opt cls]. intros Er Hr Hp.
    unfold FillSpec.moved in *. rewrite Hr in Er. destruct (last ptos); [|done]. injection Er as <-.
    apply elem_of_cons. right. apply elem_of_cons. right. apply elem_of_app. left.
    apply elem_of_list_bind. exists p. split; [left|done].
  Qed.
  Lemma fill_drive_total (ptos : list P) i q (x : K * K) : ptos <> [] -> exists r, fill_drive qadd qneg reject ptos i q x = Ok r.
  Proof.
    intros Hp. unfold fill_drive. destruct (light_of x.1) as [[[l1 o1] f1]|]; [|by eexists]. destruct (signal_of x.2); [|by eexists].
    destruct (reject _); [by eexists|]. destruct (last ptos) eqn:E; [eexists; reflexivity|]. by apply last_None in E.
  Qed.
  Lemma fill_in_inv u c pmap inp outp i r : inp <> Some i -> outp <> Some i -> fill_in u c pmap inp outp i = Ok r ->
    (forall p k, p ∈ pmap i -> k ∈ u i -> (p, k) ∈ r) /\
    (forall p q l o (f F : Q), p ∈ pmap i -> inp = Some q -> fresh u c i q (opt l o f) (cls F) -> reject (moved l f F) = false ->
       (p, opt l o (moved l f F)) ∈ r) /\
    (forall q l o (f F : Q), outp = Some q -> fresh u c i q (opt l o f) (cls F) -> reject (moved (negb l) f F) = false ->
       (i, opt (negb l) o (moved (negb l) f F)) ∈ r) /\
    (forall q o (f g : Q), outp = Some q -> fresh u c i i (opt true o f) (opt false o g) -> reject (qadd f (qneg g)) = false ->
       (q, cls (qadd f (qneg g))) ∈ r) /\
    (forall p q l o (f g : Q), p ∈ pmap i -> inp = Some q -> fresh u c i p (opt l o f) (opt l o g) ->
       reject (if l then qadd g (qneg f) else qadd f (qneg g)) = false ->
       (q, cls (if l then qadd g (qneg f) else qadd f (qneg g))) ∈ r).
  Proof.
    intros Hi Ho. unfold FillModel.fill_in.
    destruct (same_ok u c i (subset_opposite)) as (ls & -> & Hls).
    destruct (many_ok u c i (pmap i) (subset_same)) as (lm & -> & Hlm).
    destruct (match inp with Some _ => _ | None => _ end) as [a|] eqn:Ea; [|done].
    cbn [mbind res_bind].
    destruct (match outp with Some _ => _ | None => _ end) as [b|] eqn:Eb; [|done].
    cbn [mbind res_bind]. intros [= <-]. repeat split.
    - intros p k Hp Hk. rewrite !elem_of_app. left. unfold fill_through. apply elem_of_list_bind. exists p. split; [|done].
      apply elem_of_list_bind. exists k. split; [left|by apply elem_of_elements].
    - intros p q l o f F Hp -> Hf Hr. rewrite !elem_of_app. right. left.
      destruct (symm_pairs u c i q) as (lp & Elp & Hlp); [congruence|]. rewrite Elp in Ea. cbn [mbind res_bind] in Ea.
      assert (forall x, x ∈ lp -> exists r', fill_drive qadd qneg reject (pmap i) i q x = Ok r') as Hall.
      { intros x _. apply fill_drive_total. intros E. rewrite E in Hp. by apply elem_of_nil in Hp. }
      destruct (gather_ok _ _ Hall) as (a' & Ea' & Ha'). assert (a' = a) as -> by congruence. apply Ha'.
      assert ((opt l o f, cls F) ∈ lp) as Hin by (by apply Hlp). destruct (Hall _ Hin) as (rx & Erx).
      eexists _, rx. split; [exact Hin|]. split; [exact Erx|]. by eapply fill_drive_ok.
    - intros q l o f F -> Hf Hr. rewrite !elem_of_app. right. right. left.
      destruct (symm_pairs u c i q) as (lp & Elp & Hlp); [congruence|]. rewrite Elp in Eb. cbn [mbind res_bind] in Eb.
      injection Eb as <-. apply elem_of_list_bind. exists (opt l o f, cls F). split; [|by apply Hlp].
      unfold fill_pair, FillModel.qsub. cbn [fst snd light_of signal_of opt cls]. unfold FillSpec.moved in *.
      destruct l; cbn [negb] in *; rewrite Hr; left.
    - intros q o f g -> (H1' & H2' & H3') Hr. rewrite !elem_of_app. right. right. right. left. apply elem_of_list_bind.
      destruct H3' as [Hu|Hu].
      + exists (opt true o f, opt false o g). split.
        * unfold fill_beat, FillModel.qsub. cbn [fst snd light_of opt]. rewrite Hr. left.
        * apply Hls. split; [done|]. apply (subset_opposite_ok _ true). split; [set_solver|eauto].
      + exists (opt false o g, opt true o f). split.
        * unfold fill_beat, FillModel.qsub. cbn [fst snd light_of opt]. rewrite Hr. left.
        * apply Hls. split; [done|]. apply (subset_opposite_ok _ false). split; [set_solver|eauto].
    - intros p q l o f g Hp -> (H1' & H2' & H3') Hr. rewrite !elem_of_app. right. right. right. right. apply elem_of_list_bind.
      exists (opt l o f, opt l o g). split.
      + unfold fill_change, FillModel.qsub. cbn [fst snd light_of opt]. rewrite Bool.eqb_reflx. cbn [negb]. rewrite Hr. left.
      + apply Hlm. destruct (decide (opt l o f ∈ u i)) as [Hu|Hu].
        * left. split; [done|]. apply subset_same_ok. split; [|eauto]. apply elem_union_fmap. exists p. split; [done|set_solver].
        * right. split; [|by destruct H1']. exists p. split; [done|]. by destruct H3'.
  Qed.
  Lemma fill_out_inv u c pmap outp t r : outp <> Some t -> fill_out u c pmap outp t = Ok r ->
    forall p q l o (f F : Q), p ∈ pmap t -> outp = Some q -> fresh u c t q (opt l o f) (cls F) -> reject (moved (negb l) f F) = false ->
       (p, opt l o (moved (negb l) f F)) ∈ r.
  Proof.
    intros Ht Er p q l o f F Hp -> Hf Hr. unfold FillModel.fill_out in Er.
    destruct (symm_pairs u c t q) as (lp & Elp & Hlp); [congruence|]. rewrite Elp in Er. cbn [mbind res_bind] in Er. injection Er as <-.
    apply elem_of_list_bind. exists (opt l o f, cls F). split; [|by apply Hlp].
    unfold fill_back, FillModel.qsub. cbn [fst snd light_of signal_of opt cls]. unfold FillSpec.moved in *.
    destruct l; cbn [negb] in *; rewrite Hr; apply elem_of_list_bind; exists p; (split; [left|done]).
  Qed.
  Lemma gather_inv {B} (f : B -> res reqs) l r : gather f l = Ok r -> forall x, x ∈ l -> exists rx, f x = Ok rx /\ forall y, y ∈ rx -> y ∈ r.
  Proof.
    revert r. induction l as [|z l IH]; intros r; [intros _ x Hx; by apply elem_of_nil in Hx|]. cbn [gather].
    destruct (f z) as [a|] eqn:Ea; [|done]. cbn [mbind res_bind]. destruct (gather f l) as [b|] eqn:Eb; [|done]. cbn [mbind res_bind].
    intros [= <-] x Hx. apply elem_of_cons in Hx as [->|Hx].
    - exists a. split; [done|]. intros y Hy. apply elem_of_app. by left.
    - destruct (IH b eq_refl x Hx) as (rx & Ex & Hrx). exists rx. split; [done|]. intros y Hy. apply elem_of_app. right. by apply Hrx.
  Qed.
  Lemma ports_fill_incr u c ins outs pmap inp outp r :
    (forall i, i ∈ ins -> inp <> Some i /\ outp <> Some i) -> (forall t, t ∈ outs -> outp <> Some t) ->
    ports_fill u c ins outs pmap inp outp = Ok r -> forall p k,
    fill_wants qadd qneg reject ins outs pmap inp outp (fun q j => j ∈ u q \/ j ∈ c q) p k ->
    (p, k) ∈ r \/ fill_wants qadd qneg reject ins outs pmap inp outp (fun q j => j ∈ c q /\ j ∉ u q) p k.
  Proof.
    intros Hi Ht. unfold FillModel.ports_fill.
    destruct (gather _ ins) as [a|] eqn:Ea; [|done]. cbn [mbind res_bind].
    destruct (gather _ outs) as [b|] eqn:Eb; [|done]. cbn [mbind res_bind]. intros [= <-].
    assert (forall i, i ∈ ins -> exists ri, fill_in u c pmap inp outp i = Ok ri /\ forall y, y ∈ ri -> y ∈ a ++ b) as HI.
    { intros i Hin. destruct (gather_inv _ _ _ Ea i Hin) as (ri & E & G). exists ri. split; [done|]. intros y Hy. apply elem_of_app. left. by apply G. }
    assert (forall t, t ∈ outs -> exists ri, fill_out u c pmap outp t = Ok ri /\ forall y, y ∈ ri -> y ∈ a ++ b) as HO.
    { intros i Hin. destruct (gather_inv _ _ _ Eb i Hin) as (ri & E & G). exists ri. split; [done|]. intros y Hy. apply elem_of_app. right. by apply G. }
    intros p k W. destruct W as [i p k Hin Hp Hx|i p q l o f F Hin Hp Eq Hx Hy Hr|i q l o f F Hin Eq Hx Hy Hr|i q o f g Hin Eq Hx Hy Hr|i p q l o f g Hin Hp Eq Hx Hy Hr|t p q l o f F Hin Hp Eq Hx Hy Hr].
    6: { destruct (HO t Hin) as (rt & Et & G). pose proof (fill_out_inv _ _ _ _ _ _ (Ht _ Hin) Et) as G1.
      destruct (fresh_or u c t q _ _ Hx Hy) as [Hf|[? ?]]; [left; apply G; by eapply G1|right; by eapply fw_back]. }
    all: destruct (HI i Hin) as (ri & Ei & G); destruct (Hi i Hin) as [Hi1 Hi2];
      destruct (fill_in_inv _ _ _ _ _ _ _ Hi1 Hi2 Ei) as (G1 & G2 & G3 & G4 & G5).
    - destruct (decide (k ∈ u i)); [left; apply G; by apply G1|right]. apply fw_through with i; [done..|]. naive_solver.
    - destruct (fresh_or u c i q _ _ Hx Hy) as [Hf|[? ?]]; [left; apply G; by eapply G2|right; by eapply fw_drive].
    - destruct (fresh_or u c i q _ _ Hx Hy) as [Hf|[? ?]]; [left; apply G; by eapply G3|right; by eapply fw_pair].
    - destruct (fresh_or u c i i _ _ Hx Hy) as [Hf|[? ?]]; [left; apply G; by eapply G4|right; by eapply fw_beat].
    - destruct (fresh_or u c i p _ _ Hx Hy) as [Hf|[? ?]]; [left; apply G; by eapply G5|right; by eapply fw_change].
  Qed.
  Lemma ports_fill_total u c ins outs pmap inp outp :
    (forall i, i ∈ ins -> inp <> None -> pmap i <> []) -> exists r, ports_fill u c ins outs pmap inp outp = Ok r.
  Proof.
    intros Hp. unfold FillModel.ports_fill.
    destruct (gather_ok (fill_in u c pmap inp outp) ins) as (a & -> & _).
    { intros i Hi. unfold FillModel.fill_in.
      assert (exists a, match inp with Some inp => l ← symmetric_update u c (Some (POne i)) (Some (POne inp)) None None; gather (fill_drive qadd qneg reject (pmap i) i inp) l | None => Ok [] end = Ok a) as [a ->].
      { destruct inp as [q|]; [|eauto]. cbn [symmetric_update psel_get mbind res_bind].
        edestruct (gather_ok (fill_drive qadd qneg reject (pmap i) i q)) as (a & Ea & _); [|eexists; exact Ea].
        intros x _. apply fill_drive_total. by apply Hp. }
      cbn [mbind res_bind]. destruct outp; cbn [symmetric_update psel_get mbind res_bind]; eauto. }
    cbn [mbind res_bind]. destruct (gather_ok (fill_out u c pmap outp) outs) as (b & -> & _); [|cbn; eauto].
    intros t _. unfold FillModel.fill_out. destruct outp; cbn [symmetric_update psel_get mbind res_bind]; eauto.
  Qed.
End fill.
