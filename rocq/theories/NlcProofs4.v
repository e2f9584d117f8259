(** Proofs about conjugate fields in the nonlinear crystal. *)
From Coq Require Import Reals Lra.
From stdpp Require Import base tactics list numbers gmap.
From stdpp Require Import list.
From Verif Require Import Py Fld Herm SigModel SigProofs OdeModel OdeSpec OdeProofs NoiProofs3 ElecProofs NlcModel NlcSpec NlcProofs NlcProofs2 NlcProofs3.
Local Open Scope fld_scope.
Add Field FN : (f_theory C_fld).

Lemma conjugate_lem {B Q : Type} `{Countable B} `{Countable Q} (qadd : Q -> Q -> Q) (n : Q -> Z) (g : R) (S : list (B * Q)) (x : nkey -> C_fld) s :
  conj_fields S x -> field_rate qadd n g S false s x = cconj (field_rate qadd n g S true s x).
Proof.
  intros Hx. unfold field_rate. rewrite !cconj_mul, cconj_ci, cconj_cre, (cZ_conj _ : cconj (cZ (n s.2)) = _), cconj_fsum. f_equal.
  apply fsum_ext. intros s1 H1. rewrite cconj_fsum. apply fsum_ext. intros s2 H2. rewrite cconj_add. cbn [negb].
  assert (forall s, s ∈ S -> x (true, s) = cconj (x (false, s))) as Hx' by (intros s' Hs'; by rewrite (Hx _ Hs'), cconj_conj).
  f_equal.
  - destruct (decide (sums_to qadd s1 s2 s)); [|symmetry; exact (conj_0 C_herm)]. rewrite !cconj_mul, <- (Hx _ H1), <- (Hx _ H2). f_equal.
    destruct (decide (s1 = s2)); [|by rewrite cconj_1]. rewrite cconj_div by apply two_neq. by rewrite cconj_add, cconj_1.
  - destruct (decide (sums_to qadd s s2 s1)); [|symmetry; exact (conj_0 C_herm)]. by rewrite !cconj_mul, <- (Hx _ H1), <- (Hx' _ H2).
Qed.

Lemma advance_eq {K : fld} {X} `{EqDecision X} h f (x : X -> K) k : advance h f x k k = x k + h * poly_at x (f k).
Proof. unfold advance, set_at. by rewrite decide_True. Qed.
Lemma advance_ne {K : fld} {X} `{EqDecision X} h f (x : X -> K) k j : j <> k -> advance h f x k j = x j.
Proof. intros Hn. unfold advance, set_at. by rewrite decide_False. Qed.

(** one step of length 1 from fields 1, second harmonic generation *)
Definition ex_two : list (unit * Z) := [((), 1%Z); ((), 2%Z)].
Definition ex_order : list (@nkey unit Z) := [(true, ((), 1%Z)); (true, ((), 2%Z)); (false, ((), 1%Z)); (false, ((), 2%Z))].
Lemma ex_rate l x : field_rate Z.add (fun q => q) 1 ex_two l ((), 1%Z) x =
  (if l then ci else - ci) * (x (l, ((), 2%Z)) * x (negb l, ((), 1%Z))).
Proof.
  unfold field_rate, ex_two. cbn [fsum].
  assert (sums_to Z.add ((), 1%Z) ((), 1%Z) ((), 2%Z)) as H2 by done.
  rewrite (decide_True (P := sums_to Z.add ((), 1%Z) ((), 1%Z) ((), 2%Z))) by done.
  repeat (rewrite (decide_False (P := sums_to _ _ _ _)) by (intros [_ [=]])).
  cbn [snd]. unfold cZ. change (cre 1) with (1 : C_fld). ring.
Qed.
Lemma ex_two_nodup : NoDup ex_two.
Proof. apply (bool_decide_unpack _). vm_compute. exact Logic.I. Qed.
Lemma flow_refuted_lem : exists ts, crystal_terms Z.add Z.sub ex_items 1 (ex_keys ex_two) (ex_keys ex_two) = Ok ts /\
  ex_order ≡ₚ elements (pks_grab (terms_dict ts)) /\
  let y := flow (crystal_ode 1 ex_order ts) (fun _ => 1) in ~ conj_fields ex_two y.
Proof.
  pose proof ex_two_nodup as Hnd. pose proof (ex_both _ Hnd) as Hb.
  destruct (setup_lem Z.add Z.sub ex_items (fun q => q) 1 ex_two (ex_keys ex_two) (ex_keys ex_two) Hb Hb Hnd ltac:(done) Z.add_comm ex_sub) as (ts & Hts & Hr & Hw).
  exists ts. split; [done|].
  assert (takes_part Z.add ex_two ((), 1%Z) /\ takes_part Z.add ex_two ((), 2%Z)) as [T1 T2].
  { assert (((), 1%Z) ∈ ex_two /\ ((), 2%Z) ∈ ex_two) as [M1 M2] by (split; repeat constructor).
    split; exists ((), 1%Z), ((), 1%Z), ((), 2%Z); split_and!; try done; auto. }
  split.
  - apply NoDup_Permutation; [apply (bool_decide_unpack _); vm_compute; exact Logic.I|apply NoDup_elements|]. intros [l s].
    destruct (Hw 1%nat (elements (pks_grab (terms_dict ts))) ltac:(done)) as [_ Hk]. rewrite Hk. split.
    + unfold ex_order. rewrite !elem_of_cons. intros [[= -> ->]|[[= -> ->]|[[= -> ->]|[[= -> ->]|Hx]]]]; [done..|by apply not_elem_of_nil in Hx].
    + intros (s1 & s2 & s3 & H1 & H2 & H3 & _ & Hs). assert (s ∈ ex_two) as Hm by (destruct Hs as [->|[->| ->]]; done).
      unfold ex_two in Hm. rewrite !elem_of_cons in Hm. unfold ex_order. rewrite !elem_of_cons. destruct Hm as [->|[->|Hx]]; [destruct l; tauto..|by apply not_elem_of_nil in Hx].
  - intros y Hy. specialize (Hy ((), 1%Z) ltac:(repeat constructor)).
    set (f := fun k => default [] (terms_dict ts !! k)) in *.
    assert (1 / ofnat' 1 = 1 :> C_fld) as Eh.
    { cbn [ofnat']. field. intros [= E]. lra. }
    assert (y = sweep 1 f ex_order (fun _ => 1)) as Ey.
    { unfold y, flow, integrate. cbn [crystal_ode od_N od_pks od_dLt]. unfold Nat.iter. cbn [nat_rect]. by rewrite Eh. }
    set (l1 := (true, ((), 1%Z)) : @nkey unit Z) in *. set (u1 := (false, ((), 1%Z)) : @nkey unit Z) in *.
    set (l2 := (true, ((), 2%Z)) : @nkey unit Z) in *. set (u2 := (false, ((), 2%Z)) : @nkey unit Z) in *.
    set (x1 := advance 1 f (fun _ => 1) l1). set (x2 := advance 1 f x1 l2). set (x3 := advance 1 f x2 u1).
    assert (y = advance 1 f x3 u2) as Ey' by exact Ey.
    assert (x2 l1 = 1 + ci) as V1.
    { transitivity (x1 l1); [by apply advance_ne|]. etransitivity; [apply advance_eq|]. unfold f. rewrite (Hr _ true ((), 1%Z)) by repeat constructor. rewrite ex_rate. ring. }
    assert (x2 u1 = 1) as V2.
    { transitivity (x1 u1); [by apply advance_ne|]. by apply (advance_ne _ _ (fun _ => 1)). }
    assert (x2 u2 = 1) as V3.
    { transitivity (x1 u2); [by apply advance_ne|]. by apply (advance_ne _ _ (fun _ => 1)). }
    assert (y l1 = 1 + ci) as W1.
    { rewrite Ey'. transitivity (x3 l1); [by apply advance_ne|]. transitivity (x2 l1); [by apply advance_ne|done]. }
    assert (y u1 = 1 - ci * (1 + ci)) as W2.
    { rewrite Ey'. transitivity (x3 u1); [by apply advance_ne|]. etransitivity; [apply advance_eq|]. rewrite V2. unfold f. rewrite (Hr _ false ((), 1%Z)) by repeat constructor.
      rewrite ex_rate. cbn [negb]. fold l1 u2. rewrite V1, V3. ring. }
    rewrite W1, W2, cconj_add, cconj_1, cconj_ci in Hy. injection Hy as Hy _. cbn in Hy. lra.
Qed.
