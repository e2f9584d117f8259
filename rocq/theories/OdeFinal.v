(** The statements about the ODE coupling. *)
From Coq Require Import Reals Lra FunctionalExtensionality.
From stdpp Require Import base tactics list numbers gmap.
From stdpp Require Import list.
From Verif Require Import Py Fld Herm SigModel OdeModel OdeSpec OdeProofs OdeProofs2 OdeProofs3.
Local Open Scope fld_scope.

Section gen.
  Context {K : fld} {P PK : Type} `{Countable P} `{Countable PK}.
  Add Field FG : (f_theory K).
  Context (c : ode_spec (K := K) (P := P) (PK := PK)) (ink : P -> PK) (moved : K -> K -> bool).
  Lemma wf_nodup : well_formed c ink -> NoDup (od_pks c).
  Proof. intros (-> & _). apply NoDup_elements. Qed.
  Lemma wf_cov : well_formed c ink -> forall pk, pk ∈ pks_grab (od_dLt c) -> pk ∈ od_pks c.
  Proof. intros (Hp & _) pk Hk. rewrite Hp. by apply elem_of_elements. Qed.
  Lemma fields_sol_get sv pk : sol_get sv (ink pk) = fields_of (K := K) ink sv pk.
  Proof. done. Qed.
  Lemma generate_wf ob sv : well_formed c ink ->
    (exists pk, pk ∈ od_pks c /\ moved (fields_of ink sv pk) (fields_of ink (b_prev ob) pk) = true) ->
    exists ob', generate_solution c moved ob sv = Ok ob' /\ tangent_at c ink ob' (fields_of ink sv) /\
      (forall pk, pk ∈ od_pks c -> fields_of ink (b_prev ob') pk = fields_of ink sv pk).
  Proof.
    intros Hw Hm. pose proof (wf_nodup Hw) as Hnd. pose proof (wf_cov Hw) as Hcov. destruct Hw as (_ & H1 & H2 & H3).
    apply (generate_lem c Hnd Hcov moved ink); [intros pk Hp; by apply H1|done|intros pk Hp; by apply H1|done|done].
  Qed.
  Lemma generate_still ob sv : well_formed c ink ->
    (forall pk, pk ∈ od_pks c -> moved (fields_of ink sv pk) (fields_of ink (b_prev ob) pk) = false) ->
    generate_solution c moved ob sv = Ok ob.
  Proof.
    intros Hw Hm. unfold generate_solution. destruct Hw as (_ & H1 & H2 & H3).
    rewrite (mapM_ins c ink) by (intros; by apply H1).
    assert (forallb (fun pk_in => negb (moved (sol_get sv pk_in) (sol_get (b_prev ob) pk_in))) (ink <$> od_pks c) = true) as ->; [|done].
    apply forallb_forall. intros k Hk%elem_of_list_In. apply elem_of_list_fmap in Hk as (pk & -> & Hp).
    specialize (Hm pk Hp). unfold fields_of in Hm. unfold sol_get. by rewrite Hm.
  Qed.
  Lemma step_lem ob sv : well_formed c ink ->
    (exists pk, pk ∈ od_pks c /\ moved (fields_of ink sv pk) (fields_of ink (b_prev ob) pk) = true) ->
    exists ob', generate_solution c moved ob sv = Ok ob' /\
    forall pk o, pk ∈ od_pks c -> od_out c !! pk = Some (Some o) -> sends c ink ob' (fields_of ink sv) o = flow c (fields_of ink sv) pk.
  Proof.
    intros Hw Hm. destruct (generate_wf ob sv Hw Hm) as (ob' & E & Ht & _). exists ob'. split; [done|].
    intros pk o Hp Ho. destruct (Ht pk o Hp Ho) as (x & i & _ & _ & _ & Hi). unfold sends. rewrite Hi. unfold flow. ring.
  Qed.
  Lemma key_error_lem ob sv pk0 : (forall pk, pk ∈ od_pks c -> od_in c !! pk = Some (ink pk)) ->
    (exists pk, pk ∈ od_pks c /\ moved (fields_of ink sv pk) (fields_of ink (b_prev ob) pk) = true) ->
    pk0 ∈ od_pks c -> od_out c !! pk0 = None -> generate_solution c moved ob sv = Err KeyError.
  Proof.
    intros H1 (pkm & Hp & Hm) H0p H0n. unfold generate_solution. rewrite (mapM_ins c ink) by done.
    assert (forallb (fun pk_in => negb (moved (sol_get sv pk_in) (sol_get (b_prev ob) pk_in))) (ink <$> od_pks c) = false) as ->.
    { apply not_true_iff_false. intros Ha. rewrite forallb_forall in Ha.
      specialize (Ha (ink pkm)). unfold fields_of in Hm. unfold sol_get in Ha. rewrite Hm in Ha. discriminate Ha. apply elem_of_list_In, elem_of_list_fmap. eauto. }
    assert (mapM (M := option) (fun pk => od_out c !! pk) (od_pks c) = None) as ->; [|done].
    apply mapM_None. apply Exists_exists. eauto.
  Qed.
End gen.

Section cplx.
  Context {P PK : Type} `{Countable P} `{Countable PK}.
  Add Field FGC : (f_theory C_fld).
  Context (c : ode_spec (K := C_fld) (P := P) (PK := PK)) (ink : P -> PK) (Hw : well_formed c ink).
  Lemma tangent_linearised ob X : tangent_at c ink ob X -> linearised c ink ob X.
  Proof using Hw.
    intros Ht pk o Hp Ho. destruct (Ht pk o Hp Ho) as (x & i & Hr & Hi & Hd & Hj). split.
    { unfold sends. rewrite Hj. unfold flow. ring. }
    intros V. set (v := fun j => match od_pks c !! j with Some pk => V pk | None => 0 end).
    assert (rel c V v) as Hv. { intros j q Hq. unfold v. by rewrite Hq. }
    rewrite (Hd V v Hv) by (intros j Hl; unfold v; by rewrite lookup_ge_None_2).
    set (xc := fun (t : R) j => x j + ((t, 0%R) : C_fld) * v j).
    assert (x = xc 0%R) as Ex.
    { apply functional_extensionality. intros j. unfold xc. change ((0%R, 0%R) : C_fld) with (0 : C_fld). ring. }
    assert (forall j, cderiv (fun t => xc t j) (v j)) as Hc.
    { intros j.
      assert (cderiv (fun t => (t, 0%R) : C_fld) 1) as Hid.
      { split; simpl; [apply derivable_pt_lim_id|apply (derivable_pt_lim_const 0 0)]. }
      pose proof (cderiv_add (fun _ => x j) (fun t => ((t, 0%R) : C_fld) * v j) 0 _ (cderiv_const _)
        (cderiv_mul (fun t => (t, 0%R) : C_fld) (fun _ => v j) 1 0 Hid (cderiv_const _))) as A.
      assert (0 + (1 * v j + ((0%R, 0%R) : C_fld) * 0) = v j) as Ev by ring.
      exact (eq_ind _ (fun l => cderiv (fun t => x j + ((t, 0%R) : C_fld) * v j) l) A _ Ev). }
    pose proof (cderiv_run xc v (concat (replicate (od_N c) (dLt_base c))) Hc i) as Hf. rewrite <- Ex in Hf.
    eapply cderiv_ext; [|exact Hf]. intros t. unfold flow.
    apply (integrate_rel c (wf_nodup c ink Hw) (wf_cov c ink Hw)); [|done].
    intros j q Hq. unfold xc, line_at. by rewrite (Hr j q Hq), (Hv j q Hq).
  Qed.
  Lemma c_moved_same x : c_moved x x = false.
  Proof.
    unfold c_moved. destruct (Rlt_dec _ _) as [Hl|]; [|done]. exfalso.
    assert (norm2 (x - x) = 0%R) as E by (unfold norm2; simpl; ring). rewrite E in Hl.
    assert (0 <= norm2 x)%R by (unfold norm2; nra). assert (0 < / 10 ^ 16)%R by (apply Rinv_0_lt_compat; lra). nra.
  Qed.
  Lemma c_moved_0 x : c_moved x 0 = false -> x = 0.
  Proof.
    unfold c_moved. destruct (Rlt_dec _ _) as [|Hl]; [done|]. intros _.
    assert (norm2 (x - 0) = norm2 x) as E by (unfold norm2; simpl; ring). rewrite E in Hl.
    assert (/ 10 ^ 16 < 1)%R. { rewrite <- Rinv_1. apply Rinv_lt_contravar; lra. }
    assert (0 <= norm2 x)%R by (unfold norm2; nra).
    assert (norm2 x = 0)%R as E0 by nra. unfold norm2 in E0. apply injective_projections; simpl; nra.
  Qed.
  (** history *)
  Lemma mfor_snoc {S A} (body : S -> A -> res S) l a s : mfor body (l ++ [a]) s = match mfor body l s with Ok s => body s a | Err e => Err e end.
  Proof. rewrite mfor_app. destruct (mfor body l s) as [s'|e]; [|done]. simpl. by destruct (body s' a). Qed.
  Lemma history_gen vs : exists ob, ode_updates c c_moved vs = Ok ob /\
    (ob = obj_init c \/ exists Y, linearised c ink ob Y /\ forall pk, pk ∈ od_pks c -> fields_of ink (b_prev ob) pk = Y pk).
  Proof using Hw.
    unfold ode_updates. induction vs as [|sv vs IH] using rev_ind; [exists (obj_init c); simpl; auto|].
    destruct IH as (ob & E & Hob). rewrite mfor_snoc, E.
    destruct (decide (Exists (fun pk => c_moved (fields_of ink sv pk) (fields_of ink (b_prev ob) pk) = true) (od_pks c))) as [Hm|Hm].
    - apply Exists_exists in Hm. destruct (generate_wf c ink c_moved ob sv Hw Hm) as (ob' & E' & Ht & Hp).
      exists ob'. split; [done|]. right. exists (fields_of ink sv). split; [by apply tangent_linearised|done].
    - exists ob. split; [|done]. apply (generate_still c ink); [done|]. intros pk Hp.
      destruct (c_moved _ _) eqn:Em; [|done]. exfalso. apply Hm, Exists_exists. eauto.
  Qed.
  Lemma history_lem vs sv : exists ob, ode_updates c c_moved (vs ++ [sv]) = Ok ob /\
    ((ob = obj_init c /\ forall pk, pk ∈ od_pks c -> fields_of ink sv pk = 0) \/
     exists Y, linearised c ink ob Y /\ forall pk, pk ∈ od_pks c -> c_moved (fields_of ink sv pk) (Y pk) = false).
  Proof using Hw.
    destruct (history_gen vs) as (ob & E & Hob). unfold ode_updates in *. rewrite mfor_snoc, E.
    destruct (decide (Exists (fun pk => c_moved (fields_of ink sv pk) (fields_of ink (b_prev ob) pk) = true) (od_pks c))) as [Hm|Hm].
    - apply Exists_exists in Hm. destruct (generate_wf c ink c_moved ob sv Hw Hm) as (ob' & E' & Ht & Hp).
      exists ob'. split; [done|]. right. exists (fields_of ink sv). split; [by apply tangent_linearised|].
      intros. apply c_moved_same.
    - assert (forall pk, pk ∈ od_pks c -> c_moved (fields_of ink sv pk) (fields_of ink (b_prev ob) pk) = false) as Hm'.
      { intros pk Hp. destruct (c_moved _ _) eqn:Em; [|done]. exfalso. apply Hm, Exists_exists. eauto. }
      exists ob. split; [by apply (generate_still c ink)|].
      destruct Hob as [->|(Y & HY & Hp)]; [left|right].
      + split; [done|]. intros pk Hk. apply c_moved_0. specialize (Hm' pk Hk). unfold fields_of at 2 in Hm'. cbn [obj_init b_prev] in Hm'. by rewrite lookup_empty in Hm'.
      + exists Y. split; [done|]. intros pk Hk. rewrite <- Hp by done. auto.
  Qed.
End cplx.
