(** Elimination as a relation between networks: [reduces V0 e0 V e] says that
    the network [e] on [V] is what remains of [e0] on [V0] once the equations of
    the nodes [V0 ∖ V] have been solved. *)
From Verif Require Import Fld LinSpec LinAlg.
Local Open Scope fld_scope.

Section reduce.
  Context {K : fld} {N : Type} `{Countable N}.
  Add Field FF : (f_theory K).
  Implicit Types V : gset N.

  Definition gsum (f : N -> K) V : K := fsum f (elements V).

  Lemma gsum_ext f g V : (forall n, n ∈ V -> f n = g n) -> gsum f V = gsum g V.
  Proof. intros Hfg. apply fsum_ext. intros a Ha. apply Hfg. set_solver. Qed.
  Lemma gsum_0 f V : (forall n, n ∈ V -> f n = 0) -> gsum f V = 0.
  Proof. intros Hfg. apply fsum_0. intros a Ha. apply Hfg. set_solver. Qed.
  Lemma elements_difference_singleton V n :
    elements (V ∖ {[n]}) ≡ₚ filter (.≠ n) (elements V).
  Proof.
    apply NoDup_Permutation; [apply NoDup_elements|apply NoDup_filter, NoDup_elements|].
    intros m. rewrite elem_of_list_filter, !elem_of_elements. set_solver.
  Qed.
  Lemma gsum_split f V n : n ∈ V -> gsum f V = f n + gsum f (V ∖ {[n]}).
  Proof.
    intros Hn. unfold gsum. rewrite (fsum_split_elem n);
      [|apply NoDup_elements|by rewrite elem_of_elements].
    f_equal. symmetry. apply fsum_perm, elements_difference_singleton.
  Qed.
  Lemma gsum_subset f V V' : V ⊆ V' -> (forall n, n ∈ V' -> n ∉ V -> f n = 0) -> gsum f V = gsum f V'.
  Proof.
    intros Hs Hz. apply (fsum_sub_list _ _ _); try apply NoDup_elements;
      intros a; rewrite !elem_of_elements; auto.
  Qed.
  Lemma gsum_list f (l : list N) : NoDup l -> gsum f (list_to_set l) = fsum f l.
  Proof. intros Hl. apply fsum_perm. by apply elements_list_to_set. Qed.

  Definition flow V (e : N -> N -> K) (x : N -> K) (s : N) : K := gsum (fun r => e r s * x r) V.

  Definition reduces V0 e0 V e : Prop :=
    V ⊆ V0 /\
    (forall X, (forall s, s ∈ V0 -> s ∉ V -> X s = flow V0 e0 X s) ->
       forall s, s ∈ V -> flow V0 e0 X s = flow V e X s) /\
    (forall x, exists X, (forall s, s ∈ V -> X s = x s) /\
       (forall s, s ∈ V0 -> s ∉ V -> X s = flow V0 e0 X s)).

  Lemma flow_ext V e x y s : (forall r, r ∈ V -> x r = y r) -> flow V e x s = flow V e y s.
  Proof. intros Hx. apply gsum_ext. intros r Hr. by rewrite (Hx r). Qed.

  Lemma reduces_refl V e : reduces V e V e.
  Proof. split_and!; [done|done|]. intros x. exists x. split; [done|]. set_solver. Qed.

  Lemma reduces_trans V0 e0 V1 e1 V2 e2 :
    reduces V0 e0 V1 e1 -> reduces V1 e1 V2 e2 -> reduces V0 e0 V2 e2.
  Proof.
    intros (Hs1 & Ha1 & Hb1) (Hs2 & Ha2 & Hb2). split_and!.
    - set_solver.
    - intros X HX s Hs.
      assert (forall s, s ∈ V1 -> flow V0 e0 X s = flow V1 e1 X s) as H1.
      { apply Ha1. intros s' Hs' Hn. apply HX; set_solver. }
      rewrite H1 by set_solver. apply Ha2; [|done].
      intros s' Hs' Hn. rewrite <- H1 by done. apply HX; set_solver.
    - intros x. destruct (Hb2 x) as (x1 & Hx1 & Hx1').
      destruct (Hb1 x1) as (X & HX & HX'). exists X. split.
      + intros s Hs. rewrite HX by set_solver. by apply Hx1.
      + intros s Hs Hn. destruct (decide (s ∈ V1)).
        * rewrite HX by done. rewrite Hx1' by done.
          rewrite (Ha1 X) by done. apply flow_ext. intros r Hr. symmetry. by apply HX.
        * by apply HX'.
  Qed.

  Lemma reduces_step V e e' n :
    n ∈ V -> 1 - e n n <> 0 ->
    (forall r s, r ∈ V ∖ {[n]} -> s ∈ V ∖ {[n]} -> e' r s = s_elim n e r s) ->
    reduces V e (V ∖ {[n]}) e'.
  Proof.
    intros Hn Hp He. split_and!; [set_solver| |].
    - intros X HX s Hs.
      assert (X n = flow V e X n) as Hxn by (apply HX; set_solver).
      unfold flow in *. rewrite (gsum_split _ V n) in Hxn by done.
      rewrite (gsum_split _ V n) by done.
      set (t := gsum (fun r => e r n * X r) (V ∖ {[n]})) in *.
      assert (X n = 1 / (1 - e n n) * t) as ->.
      { assert (t = (1 - e n n) * X n) as ->.
        { apply fsub_0_eq. transitivity ((e n n * X n + t) - X n); [ring|].
          rewrite <- Hxn. ring. }
        field. done. }
      rewrite (gsum_ext (fun r => e' r s * X r)
        (fun r => e r s * X r + e n s * (1 / (1 - e n n)) * (e r n * X r))).
      + unfold gsum. rewrite fsum_add, fsum_mul_l. fold (gsum (fun r => e r n * X r) (V ∖ {[n]})).
        fold t. unfold gsum. ring.
      + intros r Hr. rewrite He by done. unfold s_elim. ring.
    - intros x. set (t := gsum (fun r => e r n * x r) (V ∖ {[n]})).
      exists (upd x n (1 / (1 - e n n) * t)). split.
      + intros s Hs. apply upd_ne. set_solver.
      + intros s Hs Hsn. destruct (decide (s = n)) as [->|]; [|set_solver]. unfold flow.
        rewrite (gsum_split _ V n) by done. rewrite upd_eq.
        rewrite (gsum_ext _ (fun r => e r n * x r)); [fold t; field; done|].
        intros r Hr. rewrite upd_ne; [done|set_solver].
  Qed.

  Lemma reduces_ext V e e' : (forall r s, r ∈ V -> s ∈ V -> e' r s = e r s) -> reduces V e V e'.
  Proof.
    intros He. split_and!; [done| |].
    - intros X _ s Hs. apply gsum_ext. intros r Hr. by rewrite He.
    - intros x. exists x. set_solver.
  Qed.

  (** two reductions to the same nodes give the same network *)
  Lemma reduces_unique V0 e0 V e1 e2 r s :
    reduces V0 e0 V e1 -> reduces V0 e0 V e2 -> r ∈ V -> s ∈ V -> e1 r s = e2 r s.
  Proof.
    intros (Hsub & Ha1 & Hb1) (_ & Ha2 & _) Hr Hs.
    destruct (Hb1 (fun m => if decide (m = r) then 1 else 0)) as (X & HX & HX').
    pose proof (Ha1 X HX' s Hs) as H1. rewrite (Ha2 X HX' s Hs) in H1.
    assert (forall e, flow V e X s = e r s) as Hd.
    { intros e. unfold flow. rewrite (gsum_split _ V r) by done.
      rewrite (HX r), decide_True by done. rewrite gsum_0; [ring|].
      intros m Hm. rewrite (HX m), decide_False by set_solver. ring. }
    rewrite !Hd in H1. done.
  Qed.
End reduce.
