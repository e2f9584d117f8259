(** Proofs about the acousto-optic modulator: light that is not moved, an example. *)
From Coq Require Import Reals Lra.
From stdpp Require Import base tactics list numbers gmap.
From stdpp Require Import list.
From Verif Require Import Py Fld Herm SigModel SigProofs OdeModel OdeSpec OdeProofs OdeProofs2 OdeProofs3 OdeFinal AomModel AomSpec AomProofs.
Local Open Scope fld_scope.

Section through.
  Context {B C : Type} `{Countable B} `{Countable C}.
  Context (cadd csub : C -> C -> C) (center : C -> R) (rejected : C -> bool) (split : R) (dir : bool -> R) (kappa : R).
  Context (ks : bool -> list (bool * (B * C))) (Ds : list C) (N : nat) (pks : list (@akey B C)).
  Notation ts := (aom_terms cadd csub center rejected split dir kappa ks Ds).
  Notation c := (aom_ode N pks ts).
  Lemma in_inv (p : akey) i : od_in c !! p = Some i -> i = (false, p) /\ p ∈ ts ≫= aom_mapped.
  Proof. cbn [aom_ode od_in]. unfold aom_in. intros (k & E & Hk)%elem_of_list_to_map_2%elem_of_list_fmap. injection E as -> ->. done. Qed.
  Lemma out_inv (p : akey) o : od_out c !! p = Some (Some o) -> o = (true, p).
  Proof. cbn [aom_ode od_out]. unfold aom_out. intros (k & E & Hk)%elem_of_list_to_map_2%elem_of_list_fmap. injection E as -> E. destruct k; congruence. Qed.
  Lemma in_ok (p : akey) : p ∈ ts ≫= aom_mapped -> od_in c !! p = Some (false, p).
  Proof.
    intros Hp. cbn [aom_ode od_in]. unfold aom_in. apply elem_of_list_to_map_1'.
    - intros y (k' & E & _)%elem_of_list_fmap. congruence.
    - apply elem_of_list_fmap. by exists p.
  Qed.
  Lemma out_ok k : (inl k : akey) ∈ ts ≫= aom_mapped -> od_out c !! (inl k : akey) = Some (Some (true, inl k)).
  Proof.
    intros Hp. cbn [aom_ode od_out]. unfold aom_out. apply elem_of_list_to_map_1'.
    - intros y (k' & E & _)%elem_of_list_fmap. injection E as <- ->. done.
    - apply elem_of_list_fmap. by exists (inl k).
  Qed.
  Lemma first_lem k : (inl k : akey) ∈ ts ≫= aom_mapped -> edge_of (obj_init c) (false, inl k) (true, inl k) = 1.
  Proof.
    intros Hk. unfold edge_of. cbn [obj_init b_solution]. erewrite (dict_of_elem _ _ 1); [done| |].
    - apply elem_of_list_omap. exists (inl k, (false, inl k)). split; [apply elem_of_map_to_list; by apply in_ok|].
      cbn [fst snd]. destruct (od_out c !! _) as [o|] eqn:E; pose proof (eq_trans (eq_sym E) (out_ok k Hk)) as E2; [|done]. injection E2 as ->. done.
    - intros w Hw. apply elem_of_list_omap in Hw as ([p i] & _ & E). cbn [fst snd] in E. destruct (od_out c !! p) as [[o|]|]; [|discriminate E..]. by injection E as _ _ <-.
  Qed.
  Lemma passes_lem (port l : bool) (b : B) (cf drv : C) (p : bool) (k : bool * (B * C)) : (l, (b, cf)) ∈ ks port -> drv ∈ Ds -> rejected (if l then cadd cf drv else csub cf drv) = false ->
    (split < (if l then 1 else -1) * center drv * dir port)%R ->
    k = (l, (b, cf)) \/ k = (l, (b, if l then cadd cf drv else csub cf drv)) ->
    edge_of (obj_init c) (false, inl (p, k)) (true, inl (p, k)) = 1.
  Proof.
    intros Hk Hd Hr Hs Hc. apply first_lem. apply elem_of_list_bind.
    exists (inl (negb port, (l, (b, if l then cadd cf drv else csub cf drv))), (aom_gain kappa l, [inl (port, (l, (b, cf))); inr drv])). split.
    - unfold aom_mapped. cbn [fst snd]. destruct Hc as [-> | ->], p, port; cbn [negb]; rewrite !elem_of_cons; tauto.
    - unfold aom_terms. apply elem_of_list_bind. exists port. split; [|destruct port; rewrite !elem_of_cons; tauto].
      apply elem_of_list_bind. exists (l, (b, cf)). split; [|done]. apply elem_of_list_bind. exists drv. split; [|done].
      unfold aom_pair, aom_shift. rewrite Hr. destruct (Rlt_dec _ _) as [_|Hn]; [by apply elem_of_list_singleton|done].
  Qed.
  Lemma dropped_lem moved vs ob k : ode_updates c moved vs = Ok ob -> inl k ∉ pks ->
    ob = obj_init c \/ (inj_of ob (true, inl k) = 0 /\ forall i, edge_of ob i (true, inl k) = 0 /\ edge_of ob (false, inl k) i = 0).
  Proof.
    intros Hu Hk. apply updates_pks in Hu as [->|[Hs Hi]]; [by left|right]. split_and!.
    - unfold inj_of, sol_get. destruct (b_inj ob !! _) as [v|] eqn:E; [|done]. destruct (Hi _ _ E) as (q & Hq & Eq). apply out_inv in Eq. by injection Eq as <-.
    - intros i. unfold edge_of. split.
      + destruct (b_solution ob !! _) as [v|] eqn:E; [|done]. destruct (Hs _ _ _ E) as [_ (q & Hq & Eq)]. apply out_inv in Eq. by injection Eq as <-.
      + destruct (b_solution ob !! _) as [v|] eqn:E; [|done]. destruct (Hs _ _ _ E) as [(q & Hq & Eq) _]. apply in_inv in Eq as [Eq _]. by injection Eq as <-.
  Qed.
End through.

(** example: sound at 80, split at 40, light at orders 0 and 1 *)
Definition ex_center (n : Z) : R := IZR (80 * n).
Definition ex_rejected (n : Z) : bool := negb (bool_decide (0 <= n <= 1)%Z).
Definition ex_dir (p : bool) : R := if p then 1 else -1.
Definition ex_modes : list (bool * (unit * Z)) := [(true, ((), 0%Z)); (true, ((), 1%Z)); (false, ((), 0%Z)); (false, ((), 1%Z))].
Definition ex_ks (p : bool) : list (bool * (unit * Z)) := [(true, ((), 0%Z)); (true, ((), 1%Z)); (false, ((), 0%Z)); (false, ((), 1%Z))].
Definition ex_ds : list Z := [1%Z; (-1)%Z].
Definition ex_terms := aom_terms Z.add Z.sub ex_center ex_rejected 40 ex_dir 1 ex_ks ex_ds.
Lemma ex_terms_eq : ex_terms = [
  (inl (false, (true, ((), 1%Z))), (aom_gain 1 true, [inl (true, (true, ((), 0%Z))); inr 1%Z]));
  (inl (false, (false, ((), 1%Z))), (aom_gain 1 false, [inl (true, (false, ((), 0%Z))); inr (-1)%Z]));
  (inl (true, (true, ((), 0%Z))), (aom_gain 1 true, [inl (false, (true, ((), 1%Z))); inr (-1)%Z]));
  (inl (true, (false, ((), 0%Z))), (aom_gain 1 false, [inl (false, (false, ((), 1%Z))); inr 1%Z]))].
Proof.
  unfold ex_terms, aom_terms, ex_ks, ex_ds. cbn [mbind list_bind app]. unfold aom_pair, aom_shift, ex_rejected, ex_dir, ex_center.
  repeat match goal with |- context [bool_decide ?P] => let v := eval vm_compute in (bool_decide P) in change (bool_decide P) with v end. cbn [negb].
  repeat match goal with |- context [IZR ?z] => progress (let v := eval vm_compute in z in change z with v) end.
  repeat (destruct (Rlt_dec _ _); [try (exfalso; lra)|try (exfalso; lra)]). reflexivity.
Qed.
Lemma ex_ports : at_ports ex_modes ex_ks.
Proof.
  split; [apply (bool_decide_unpack _); vm_compute; exact Logic.I|]. intros p. split; [apply (bool_decide_unpack _); vm_compute; exact Logic.I|].
  intros l m. unfold ex_ks, ex_modes. rewrite !elem_of_cons. split.
  - intros [[= -> ->]|[[= -> ->]|[[= -> ->]|[[= -> ->]|Hx]]]]; [destruct p; tauto..|by apply not_elem_of_nil in Hx].
  - intros [[= -> ->]|[[= -> ->]|[[= -> ->]|[[= -> ->]|Hx]]]]; [destruct l; tauto..|by apply not_elem_of_nil in Hx].
Qed.
Lemma ex_closed : closed Z.add Z.opp ex_center ex_rejected 40 ex_dir ex_modes ex_ds.
Proof.
  split_and!.
  - apply (bool_decide_unpack _); vm_compute; exact Logic.I.
  - unfold ex_ds. intros F. rewrite !elem_of_cons. intros [->|[->|Hx]]; [tauto..|by apply not_elem_of_nil in Hx].
  - unfold ex_modes. intros m. rewrite !elem_of_cons. intros [->|[->|[->|[->|Hx]]]]; [done..|by apply not_elem_of_nil in Hx].
  - intros [p [[] c]] F Hm HF. unfold ex_rejected, carries, moved_by. cbn [fst snd]. rewrite negb_false_iff, bool_decide_eq_true. intros Hr _.
    assert (c + F = 0 \/ c + F = 1)%Z as [-> | ->] by lia; unfold ex_modes; rewrite !elem_of_cons; destruct p; auto.
Qed.
Lemma aom_meets_lem : at_ports ex_modes ex_ks /\ closed Z.add Z.opp ex_center ex_rejected 40 ex_dir ex_modes ex_ds /\
  (forall F, ex_center (- F) = (- ex_center F)%R) /\ (forall p, ex_dir (negb p) = (- ex_dir p)%R) /\
  exists e, e ∈ ex_terms /\ e.1 = inl (false, (true, ((), 1%Z))).
Proof.
  split_and!; [apply ex_ports|apply ex_closed| | |].
  - intros F. unfold ex_center. rewrite <- opp_IZR. f_equal. lia.
  - intros []; unfold ex_dir; cbn; lra.
  - eexists. split; [|shelve]. unfold ex_terms, aom_terms. apply elem_of_list_bind. exists true. split; [|by left].
    apply elem_of_list_bind. exists (true, ((), 0%Z)). split; [|by left]. apply elem_of_list_bind. exists 1%Z. split; [|by left].
    unfold aom_pair. cbn [aom_shift]. replace (ex_rejected (0 + 1)) with false by reflexivity.
    destruct (Rlt_dec _ _) as [|Hn]; [by apply elem_of_list_singleton|]. exfalso. apply Hn. unfold ex_center, ex_dir. change (80 * 1)%Z with 80%Z. lra.
    Unshelve. done.
Qed.

(** the light at order 1 of the first port goes through at first, and no more after the first update *)
Lemma passes_refuted_lem : exists (sv : gmap (bool * @akey unit Z) C_fld) ob,
  let c := aom_ode 1 (elements (pks_grab (aom_dict ex_terms))) ex_terms in
  let k := inl (true, (true, ((), 1%Z))) in
  edge_of (obj_init c) (false, k) (true, k) = 1 /\ ode_updates c c_moved [sv] = Ok ob /\
  edge_of ob (false, k) (true, k) = 0 /\ inj_of ob (true, k) = 0.
Proof.
  set (pks := elements (pks_grab (aom_dict ex_terms))). set (c := aom_ode 1 pks ex_terms).
  set (k0 := inl (true, (true, ((), 0%Z))) : @akey unit Z). set (sv := {[ (false, k0) := 1 ]} : gmap (bool * @akey unit Z) C_fld).
  assert (forall k, k ∈ pks -> exists e, e ∈ ex_terms /\ (k = e.1 \/ k ∈ e.2.2)) as Hp.
  { intros k. unfold pks. rewrite elem_of_elements. unfold pks_grab. rewrite elem_of_list_to_set, elem_of_list_bind.
    intros ([q lt] & Hk & Hm). apply elem_of_map_to_list in Hm. apply tdict_keys in Hm as [(e & He & Ee) Hlt]. cbn [fst snd] in Hk.
    apply elem_of_cons in Hk as [->|Hk]; [exists e; split; [done|by left]|].
    apply elem_of_list_bind in Hk as (t & Hk & Ht). exists (q, t). split; [by apply Hlt|by right]. }
  assert (k0 ∈ pks) as Hk0.
  { unfold pks. rewrite elem_of_elements. unfold pks_grab. rewrite elem_of_list_to_set, elem_of_list_bind.
    set (e := (inl (true, (true, ((), 0%Z))), (aom_gain 1 true, [inl (false, (true, ((), 1%Z))); inr (-1)%Z])) : @akey unit Z * mono C_fld (@akey unit Z)).
    destruct (tdict_has ex_terms e) as (lt & Hlt); [rewrite ex_terms_eq; by right; right; left|].
    exists (e.1, lt). split; [by left|]. by apply elem_of_map_to_list. }
  destruct (generate_wf c (pair false) c_moved (obj_init c) sv) as (ob & Eg & _ & Hprev).
  { by apply aom_wf. }
  { exists k0. split; [done|]. unfold fields_of, sv. rewrite lookup_singleton. cbn [obj_init b_prev]. rewrite lookup_empty. cbn [default].
    unfold c_moved. destruct (Rlt_dec _ _) as [|Hn]; [done|]. exfalso. apply Hn. unfold norm2. cbn. lra. }
  assert (ode_updates c c_moved [sv] = Ok ob) as Hu by (unfold ode_updates; cbn [mfor]; by rewrite Eg).
  assert ((inl (true, (true, ((), 1%Z))) : @akey unit Z) ∉ pks) as Hk.
  { intros (e & He & Hk)%Hp. rewrite ex_terms_eq in He. rewrite !elem_of_cons in He.
    destruct He as [->|[->|[->|[->|Hx]]]]; [..|by apply not_elem_of_nil in Hx]; cbn [fst snd] in Hk; rewrite !elem_of_cons, elem_of_nil in Hk;
      destruct Hk as [[=]|[[=]|[[=]|[]]]]. }
  destruct (dropped_lem _ _ _ _ _ _ _ _ _ _ _ c_moved [sv] ob _ Hu Hk) as [E|[Hi He]].
  { exfalso. specialize (Hprev k0 Hk0). rewrite E in Hprev. unfold fields_of, sv in Hprev. rewrite lookup_singleton in Hprev. cbn [obj_init b_prev] in Hprev.
    rewrite lookup_empty in Hprev. cbn [default] in Hprev. injection Hprev as Hprev. lra. }
  exists sv, ob. cbv zeta. fold pks. fold c. split_and!.
  - apply first_lem. fold ex_terms. rewrite ex_terms_eq. apply elem_of_list_bind. eexists. split; [|by left]. unfold aom_mapped. cbn. by left.
  - done.
  - apply He.
  - apply Hi.
Qed.
