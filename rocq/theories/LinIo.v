(** Input/output equivalence of linear systems: unknowns on [V], inputs on [A],
    outputs on [B]; one equation  sum_m e(m,n) X_m = 0  per unknown. *)
From Verif Require Import Fld LinSpec LinAlg LinReduce.
Local Open Scope fld_scope.

Section io.
  Context {K : fld} {N : Type} `{Countable N}.
  Add Field FF : (f_theory K).
  Implicit Types V A B : gset N.
  Implicit Types e : N -> N -> K.
  Implicit Types X : N -> K.

  Definition sol V A (e : N -> N -> K) (X : N -> K) : Prop :=
    forall n, n ∈ V -> flow (V ∪ A) e X n = 0.
  Definition nonsing V A (e : N -> N -> K) : Prop :=
    forall X, (forall a, a ∈ A -> X a = 0) -> sol V A e X -> forall n, n ∈ V -> X n = 0.

  Record io_equiv A B V e V' e' : Prop := {
    io_fwd : forall X, sol V A e X -> exists X', sol V' A e' X' /\ (forall a, a ∈ A -> X' a = X a) /\
               forall b, b ∈ B -> flow (V' ∪ A) e' X' b = flow (V ∪ A) e X b;
    io_bwd : forall X', sol V' A e' X' -> exists X, sol V A e X /\ (forall a, a ∈ A -> X a = X' a) /\
               forall b, b ∈ B -> flow (V ∪ A) e X b = flow (V' ∪ A) e' X' b;
    io_ns : nonsing V A e -> nonsing V' A e';
  }.

  Lemma io_refl A B V e : io_equiv A B V e V e.
  Proof. split; [intros X HX; exists X; done..|done]. Qed.
  Lemma io_trans A B V1 e1 V2 e2 V3 e3 :
    io_equiv A B V1 e1 V2 e2 -> io_equiv A B V2 e2 V3 e3 -> io_equiv A B V1 e1 V3 e3.
  Proof.
    intros [F1 G1 N1] [F2 G2 N2]. split.
    - intros X HX. destruct (F1 X HX) as (Y & HY & Ha & Hb). destruct (F2 Y HY) as (Z & HZ & Ha' & Hb').
      exists Z. split_and!; [done| |].
      + intros a Hin. by rewrite Ha', Ha.
      + intros b Hin. by rewrite Hb', Hb.
    - intros X HX. destruct (G2 X HX) as (Y & HY & Ha & Hb). destruct (G1 Y HY) as (Z & HZ & Ha' & Hb').
      exists Z. split_and!; [done| |].
      + intros a Hin. by rewrite Ha', Ha.
      + intros b Hin. by rewrite Hb', Hb.
    - auto.
  Qed.

  (** the relation a user sees *)
  Lemma io_equiv_rel A B V e V' e' u y :
    V ## A -> V' ## A ->
    io_equiv A B V e V' e' ->
    io_rel (elements V) (elements A) (elements B) e u y <->
    io_rel (elements V') (elements A) (elements B) e' u y.
  Proof.
    intros Hd Hd' [F G _].
    assert (forall V (e : N -> N -> K) (X : N -> K) n, V ## A -> fsum (fun r => e r n * X r) (elements V ++ elements A) = flow (V ∪ A) e X n) as Hf.
    { intros V0 e0 X n HdA. unfold flow, gsum. apply fsum_perm. symmetry.
      by rewrite elements_disj_union. }
    unfold io_rel. split.
    - intros (X & Ha & Hn & Hb). destruct (F X) as (X' & HX' & Ha' & Hb').
      + intros n Hin. rewrite <- Hf by done. apply Hn. by apply elem_of_elements.
      + exists X'. split_and!.
        * intros a Hin. rewrite Ha' by (by apply elem_of_elements). auto.
        * intros n Hin. rewrite Hf by done. apply HX'. by apply elem_of_elements.
        * intros b Hin. rewrite Hf, Hb', <- Hf by (done || by apply elem_of_elements). auto.
    - intros (X & Ha & Hn & Hb). destruct (G X) as (X' & HX' & Ha' & Hb').
      + intros n Hin. rewrite <- Hf by done. apply Hn. by apply elem_of_elements.
      + exists X'. split_and!.
        * intros a Hin. rewrite Ha' by (by apply elem_of_elements). auto.
        * intros n Hin. rewrite Hf by done. apply HX'. by apply elem_of_elements.
        * intros b Hin. rewrite Hf, Hb', <- Hf by (done || by apply elem_of_elements). auto.
  Qed.

  Lemma flow_ext_e V e e' (x : N -> K) s : (forall r, r ∈ V -> e r s = e' r s) -> flow V e x s = flow V e' x s.
  Proof. intros He. apply gsum_ext. intros r Hr. by rewrite He. Qed.

  Lemma io_ext A B V e e' :
    (forall m n, m ∈ V ∪ A -> n ∈ V ∪ B -> e' m n = e m n) -> io_equiv A B V e V e'.
  Proof.
    intros He.
    assert (forall X n, n ∈ V ∪ B -> flow (V ∪ A) e' X n = flow (V ∪ A) e X n) as Hf.
    { intros X n Hn. apply flow_ext_e. intros r Hr. by apply He. }
    assert (forall X, sol V A e' X <-> sol V A e X) as Hs.
    { intros X. split; intros HX n Hn; specialize (HX n Hn).
      - by rewrite <- Hf by set_solver.
      - by rewrite Hf by set_solver. }
    split.
    - intros X HX. exists X. split_and!; [by apply Hs|done|]. intros b Hb. apply Hf. set_solver.
    - intros X HX. exists X. split_and!; [by apply Hs|done|]. intros b Hb. symmetry. apply Hf. set_solver.
    - intros Hn X Ha HX. apply Hn; [done|]. by apply Hs.
  Qed.

  (** changes of unknowns *)
  Lemma io_cols A B V e e' (f : (N -> K) -> (N -> K)) :
    (forall X a, a ∈ A -> f X a = X a) ->
    (forall X n, n ∈ V ∪ B -> flow (V ∪ A) e' (f X) n = flow (V ∪ A) e X n) ->
    (forall X n, n ∈ V ∪ B -> flow (V ∪ A) e (f X) n = flow (V ∪ A) e' X n) ->
    (forall X, (forall n, n ∈ V -> f X n = 0) -> forall n, n ∈ V -> X n = 0) ->
    io_equiv A B V e V e'.
  Proof.
    intros Ha H1 H2 Hz. split.
    - intros X HX. exists (f X). split_and!; [|auto|].
      + intros n Hn. rewrite H1 by set_solver. by apply HX.
      + intros b Hb. apply H1. set_solver.
    - intros X HX. exists (f X). split_and!; [|auto|].
      + intros n Hn. rewrite H2 by set_solver. by apply HX.
      + intros b Hb. apply H2. set_solver.
    - intros Hns X Ha0 HX. apply Hz. apply Hns.
      + intros a Hin. rewrite Ha by done. auto.
      + intros n Hn. rewrite H2 by set_solver. by apply HX.
  Qed.

  (** changes of equations *)
  Lemma io_rows A B V e e' :
    (forall X, sol V A e X <-> sol V A e' X) ->
    (forall X b, b ∈ B -> flow (V ∪ A) e' X b = flow (V ∪ A) e X b) ->
    io_equiv A B V e V e'.
  Proof.
    intros Hs Hb. split.
    - intros X HX. exists X. split_and!; [by apply Hs|done|auto].
    - intros X HX. exists X. split_and!; [by apply Hs|done|]. intros b Hin. symmetry. auto.
    - intros Hns X Ha HX. apply Hns; [done|]. by apply Hs.
  Qed.

  (** eliminating an unknown *)
  Lemma io_elim A B V e e' v :
    v ∈ V -> V ## A -> e v v <> 0 ->
    (forall m n, m ∈ V ∪ A -> n ∈ V ∪ B -> m <> v -> n <> v ->
       e' m n = e m n - e v n * e m v / e v v) ->
    V ## B ->
    io_equiv A B V e (V ∖ {[v]}) e'.
  Proof.
    intros Hv HdA Hp He HdB.
    assert ((V ∖ {[v]}) ∪ A = (V ∪ A) ∖ {[v]}) as HVA by (apply set_eq; set_solver).
    assert (forall X n, n ∈ V ∪ B -> n <> v ->
      flow ((V ∖ {[v]}) ∪ A) e' X n = flow (V ∪ A) e X n - e v n / e v v * flow (V ∪ A) e X v) as Hf.
    { intros X n Hn Hnv. rewrite HVA. unfold flow.
      rewrite (gsum_split (fun r => e r n * X r) (V ∪ A) v) by set_solver.
      rewrite (gsum_split (fun r => e r v * X r) (V ∪ A) v) by set_solver.
      rewrite (gsum_ext (fun r => e' r n * X r)
        (fun r => e r n * X r - e v n / e v v * (e r v * X r))).
      - unfold gsum. rewrite fsum_sub, fsum_mul_l. field. done.
      - intros r Hr. rewrite He by set_solver. field. done. }
    assert (forall X X' : N -> K, (forall n, n ∈ (V ∖ {[v]}) ∪ A -> X n = X' n) -> forall n,
      flow ((V ∖ {[v]}) ∪ A) e' X n = flow ((V ∖ {[v]}) ∪ A) e' X' n) as Hfe.
    { intros X X' HX n. by apply flow_ext. }
    assert (forall X' : N -> K, exists X : N -> K, (forall n, n ∈ (V ∖ {[v]}) ∪ A -> X n = X' n) /\ flow (V ∪ A) e X v = 0) as Hex.
    { intros X'. exists (upd X' v (- gsum (fun r => e r v * X' r) ((V ∪ A) ∖ {[v]}) / e v v)). split.
      - intros n Hn. apply upd_ne. set_solver.
      - unfold flow. rewrite (gsum_split _ (V ∪ A) v) by set_solver. rewrite upd_eq.
        match goal with |- _ + ?G = 0 => assert (G = gsum (fun r => e r v * X' r) ((V ∪ A) ∖ {[v]})) as -> end.
        { apply gsum_ext. intros r Hr. rewrite upd_ne by set_solver. done. }
        field. done. }
    split.
    - intros X HX. exists X. split_and!; [|done|].
      + intros n Hn. rewrite Hf by set_solver. rewrite (HX n), (HX v) by set_solver. field. done.
      + intros b Hb. rewrite Hf by set_solver. rewrite (HX v) by done. field. done.
    - intros X' HX'. destruct (Hex X') as (X & HX & Hxv). exists X. split_and!.
      + intros n Hn. destruct (decide (n = v)) as [->|]; [done|].
        assert (flow ((V ∖ {[v]}) ∪ A) e' X n = 0) as H0.
        { rewrite (Hfe _ _ HX). apply HX'. set_solver. }
        rewrite Hf, Hxv in H0 by set_solver. rewrite <- H0. field. done.
      + intros a Ha. apply HX. set_solver.
      + intros b Hb. rewrite <- (Hfe _ _ HX). rewrite Hf, Hxv by set_solver. field. done.
    - intros Hns X' Ha HX' n Hn. destruct (Hex X') as (X & HX & Hxv).
      rewrite <- HX by set_solver. apply Hns; [| |set_solver].
      + intros a Hin. rewrite HX by set_solver. auto.
      + intros m Hm. destruct (decide (m = v)) as [->|]; [done|].
        assert (flow ((V ∖ {[v]}) ∪ A) e' X m = 0) as H0.
        { rewrite (Hfe _ _ HX). apply HX'. set_solver. }
        rewrite Hf, Hxv in H0 by set_solver. rewrite <- H0. field. done.
  Qed.

  (** exchanging two unknowns *)
  Lemma swap_swap (a b n : N) : swap a b (swap a b n) = n.
  Proof. unfold swap. repeat destruct (decide _); congruence. Qed.
  Lemma swap_l (a b : N) : swap a b a = b.
  Proof. unfold swap. repeat destruct (decide _); congruence. Qed.
  Lemma swap_r (a b : N) : swap a b b = a.
  Proof. unfold swap. repeat destruct (decide _); congruence. Qed.
  Lemma swap_ne (a b n : N) : n <> a -> n <> b -> swap a b n = n.
  Proof. intros. unfold swap. by rewrite !decide_False. Qed.
  Lemma gsum_swap V a b (f : N -> K) : a ∈ V -> b ∈ V -> gsum (fun n => f (swap a b n)) V = gsum f V.
  Proof.
    intros Ha Hb. destruct (decide (a = b)) as [->|Hab].
    { apply gsum_ext. intros n _. f_equal. unfold swap. repeat destruct (decide _); congruence. }
    rewrite !(gsum_split _ V a), !(gsum_split _ (V ∖ {[a]}) b) by set_solver.
    rewrite (gsum_ext (fun n => f (swap a b n)) f (V ∖ {[a]} ∖ {[b]})).
    - rewrite swap_l, swap_r. ring.
    - intros n Hn. f_equal. unfold swap. rewrite !decide_False by set_solver. done.
  Qed.
  Lemma io_swap_cols A B V e e' a b :
    a ∈ V -> b ∈ V -> V ## A ->
    (forall m n, m ∈ V ∪ A -> n ∈ V ∪ B -> e' m n = e (swap a b m) n) ->
    io_equiv A B V e V e'.
  Proof.
    intros Ha Hb Hd He.
    assert (forall m, m ∈ V ∪ A -> swap a b m ∈ V ∪ A) as Hin.
    { intros m Hm. unfold swap. repeat destruct (decide _); set_solver. }
    apply (io_cols _ _ _ _ _ (fun X n => X (swap a b n))).
    - intros X c Hc. cbv beta. rewrite swap_ne; [done|intros ->; exact (proj1 (elem_of_disjoint V A) Hd _ Ha Hc)|intros ->; exact (proj1 (elem_of_disjoint V A) Hd _ Hb Hc)].
    - intros X n Hn. unfold flow.
      rewrite <- (gsum_swap (V ∪ A) a b (fun r => e r n * X r)) by set_solver.
      apply gsum_ext. intros m Hm. by rewrite He.
    - intros X n Hn. unfold flow.
      rewrite <- (gsum_swap (V ∪ A) a b (fun r => e' r n * X r)) by set_solver.
      apply gsum_ext. intros m Hm. rewrite He by auto. by rewrite swap_swap.
    - intros X HX n Hn. rewrite <- (swap_swap a b n). apply HX.
      unfold swap. repeat destruct (decide _); set_solver.
  Qed.
  Lemma io_swap_rows A B V e e' a b :
    a ∈ V -> b ∈ V -> V ## B ->
    (forall m n, m ∈ V ∪ A -> n ∈ V ∪ B -> e' m n = e m (swap a b n)) ->
    io_equiv A B V e V e'.
  Proof.
    intros Ha Hb Hd He.
    assert (forall X n, n ∈ V ∪ B -> flow (V ∪ A) e' X n = flow (V ∪ A) e X (swap a b n)) as Hf.
    { intros X n Hn. apply gsum_ext. intros m Hm. by rewrite He. }
    assert (forall m, m ∈ V -> swap a b m ∈ V) as Hin.
    { intros m Hm. unfold swap. repeat destruct (decide _); set_solver. }
    apply io_rows.
    - intros X. split; intros HX n Hn.
      + rewrite Hf by set_solver. auto.
      + rewrite <- (swap_swap a b n). rewrite <- Hf by set_solver. auto.
    - intros X c Hc. rewrite Hf by set_solver. rewrite swap_ne; [done|intros ->; exact (proj1 (elem_of_disjoint V B) Hd _ Ha Hc)|intros ->; exact (proj1 (elem_of_disjoint V B) Hd _ Hb Hc)].
  Qed.

  (** reflecting the unknowns / the equations with a unit vector *)
  Lemma io_reflect_cols A B V e e' (u w g : N -> K) :
    V ## A ->
    gsum (fun k => u k * w k) V = 1 ->
    (forall n, n ∈ V ∪ B -> g n = gsum (fun j => w j * e j n) V) ->
    (forall m n, m ∈ V -> n ∈ V ∪ B -> e' m n = e m n - (1 + 1) * u m * g n) ->
    (forall m n, m ∈ A -> n ∈ V ∪ B -> e' m n = e m n) ->
    io_equiv A B V e V e'.
  Proof.
    intros Hd Hu Hg He HeA.
    set (s (X : N -> K) := gsum (fun k => u k * X k) V).
    set (f (X : N -> K) n := if decide (n ∈ V) then X n - (1 + 1) * w n * s X else X n).
    assert (forall V1 V2 (F : N -> K), V1 ## V2 -> gsum F (V1 ∪ V2) = gsum F V1 + gsum F V2) as Hun.
    { intros V1 V2 F HV. unfold gsum. rewrite <- fsum_app. apply fsum_perm.
      by rewrite elements_disj_union. }
    assert (forall X n, n ∈ V ∪ B -> flow (V ∪ A) e' X n = flow (V ∪ A) e X n - (1 + 1) * s X * g n) as He'.
    { intros X n Hn. unfold flow. rewrite !Hun by done.
      rewrite (gsum_ext (fun r => e' r n * X r) (fun r => e r n * X r) A) by (intros; by rewrite HeA).
      rewrite (gsum_ext (fun r => e' r n * X r)
        (fun r => e r n * X r - (1 + 1) * g n * (u r * X r)) V) by (intros; rewrite He by done; ring).
      unfold gsum. rewrite fsum_sub, fsum_mul_l. unfold s, gsum. ring. }
    assert (forall X n, n ∈ V ∪ B -> flow (V ∪ A) e (f X) n = flow (V ∪ A) e X n - (1 + 1) * s X * g n) as Hf.
    { intros X n Hn. unfold flow. rewrite !Hun by done.
      rewrite (gsum_ext (fun r => e r n * f X r) (fun r => e r n * X r) A).
      2: { intros r Hr. unfold f. rewrite decide_False; [done|set_solver]. }
      rewrite (gsum_ext (fun r => e r n * f X r)
        (fun r => e r n * X r - (1 + 1) * s X * (w r * e r n)) V).
      2: { intros r Hr. unfold f. rewrite decide_True by done. ring. }
      rewrite Hg by done. unfold gsum. rewrite fsum_sub, fsum_mul_l. ring. }
    assert (forall X, s (f X) = - s X) as Hs.
    { intros X. unfold s at 1. rewrite (gsum_ext _ (fun k => u k * X k - (1 + 1) * s X * (u k * w k))).
      - unfold gsum in *. rewrite fsum_sub, fsum_mul_l, Hu. unfold s, gsum. ring.
      - intros k Hk. unfold f. rewrite decide_True by done. ring. }
    assert (forall X n, n ∈ V -> f (f X) n = X n) as Hff.
    { intros X n Hn. unfold f at 1. rewrite decide_True by done. rewrite Hs. unfold f.
      rewrite decide_True by done. ring. }
    apply (io_cols _ _ _ _ _ f).
    - intros X a Ha. unfold f. rewrite decide_False; [done|set_solver].
    - intros X n Hn. rewrite He', Hf, Hs by done. ring.
    - intros X n Hn. by rewrite Hf, He' by done.
    - intros X HX n Hn. rewrite <- Hff by done. unfold f at 1. rewrite decide_True by done.
      rewrite HX by done. assert (s (f X) = 0) as ->; [|ring].
      unfold s. apply gsum_0. intros k Hk. rewrite HX by done. ring.
  Qed.
  Lemma io_reflect_rows A B V e e' (u w g : N -> K) :
    V ## B ->
    gsum (fun k => u k * w k) V = 1 ->
    (forall m, m ∈ V ∪ A -> g m = gsum (fun j => w j * e m j) V) ->
    (forall m n, m ∈ V ∪ A -> n ∈ V -> e' m n = e m n - (1 + 1) * u n * g m) ->
    (forall m n, m ∈ V ∪ A -> n ∈ B -> e' m n = e m n) ->
    io_equiv A B V e V e'.
  Proof.
    intros Hd Hu Hg He HeB.
    set (G (X : N -> K) := gsum (fun m => g m * X m) (V ∪ A)).
    assert (forall X n, n ∈ V -> flow (V ∪ A) e' X n = flow (V ∪ A) e X n - (1 + 1) * u n * G X) as He'.
    { intros X n Hn. unfold flow.
      rewrite (gsum_ext (fun r => e' r n * X r)
        (fun r => e r n * X r - (1 + 1) * u n * (g r * X r))) by (intros; rewrite He by done; ring).
      unfold gsum. rewrite fsum_sub, fsum_mul_l. unfold G, gsum. ring. }
    assert (forall X, G X = gsum (fun n => w n * flow (V ∪ A) e X n) V) as HG.
    { intros X. unfold G. rewrite (gsum_ext _ (fun m => gsum (fun j => w j * e m j * X m) V)).
      - unfold gsum. rewrite fsum_swap. apply fsum_ext. intros j _. unfold flow, gsum.
        rewrite <- fsum_mul_l. apply fsum_ext. intros m _. ring.
      - intros m Hm. rewrite Hg by done. unfold gsum. rewrite <- fsum_mul_r. apply fsum_ext. intros; ring. }
    apply io_rows.
    - intros X. split; intros HX n Hn.
      + rewrite He' by done. rewrite HX by done. rewrite HG, gsum_0; [ring|].
        intros m Hm. rewrite HX by done. ring.
      + assert (G X = 0) as HG0.
        { (* sum of w n * flow e' = G - 2 G *)
          assert (gsum (fun n => w n * flow (V ∪ A) e' X n) V = 0) as H0.
          { apply gsum_0. intros m Hm. rewrite HX by done. ring. }
          rewrite (gsum_ext _ (fun n => w n * flow (V ∪ A) e X n - (1 + 1) * G X * (u n * w n))) in H0.
          - unfold gsum in H0, Hu. rewrite fsum_sub, fsum_mul_l, Hu in H0.
            fold (gsum (fun n => w n * flow (V ∪ A) e X n) V) in H0. rewrite <- HG in H0.
            transitivity (- (G X - (1 + 1) * G X * 1)); [ring|]. rewrite H0. ring.
          - intros m Hm. rewrite He' by done. ring. }
        specialize (HX n Hn). rewrite He', HG0 in HX by done. rewrite <- HX. ring.
    - intros X b Hb. apply flow_ext_e. intros r Hr. by apply HeB.
  Qed.

  (** nonsingular systems have no zero rows or columns *)
  Lemma nonsing_inj V A e : V ## A -> nonsing V A e <-> injective_sys (elements V) e.
  Proof.
    intros Hd.
    assert (forall X n, (forall a, a ∈ A -> X a = 0) ->
      flow (V ∪ A) e X n = fsum (fun m => e m n * X m) (elements V)) as Hf.
    { intros X n Ha. unfold flow. fold (gsum (fun m => e m n * X m) V). symmetry. apply gsum_subset; [set_solver|].
      intros m Hm Hn. rewrite Ha by set_solver. ring. }
    split.
    - intros Hns x Hx n Hn. apply elem_of_elements in Hn.
      set (X m := if decide (m ∈ V) then x m else 0).
      assert (forall a, a ∈ A -> X a = 0) as HXA.
      { intros a Ha. unfold X. rewrite decide_False; [done|set_solver]. }
      assert (X n = 0) as H0.
      { apply Hns; [done| |done]. intros m Hm. rewrite Hf by done.
        rewrite <- (Hx m) by (by apply elem_of_elements). apply fsum_ext. intros k Hk%elem_of_elements.
        unfold X. by rewrite decide_True. }
      unfold X in H0. by rewrite decide_True in H0.
    - intros Hi X Ha HX n Hn. apply Hi; [|by apply elem_of_elements].
      intros m Hm%elem_of_elements. rewrite <- Hf by done. auto.
  Qed.
  Lemma nonsing_row V A e n : V ## A -> nonsing V A e -> n ∈ V -> exists m, m ∈ V /\ e m n <> 0.
  Proof.
    intros Hd Hns Hn. apply nonsing_inj in Hns; [|done].
    destruct (decide (Exists (fun m => e m n <> 0) (elements V))) as [He|He].
    - apply Exists_exists in He as (m & Hm & He). exists m. split; [by apply elem_of_elements|done].
    - exfalso. apply injective_surjective in Hns; [|apply NoDup_elements].
      destruct (Hns (fun _ => 1)) as (x & Hx).
      apply (@f1_neq_0 K). rewrite <- (Hx n) by (by apply elem_of_elements).
      apply fsum_0. intros m Hm.
      destruct (decide (e m n = 0)) as [->|Hne]; [ring|]. exfalso. apply He, Exists_exists. eauto.
  Qed.
  Lemma nonsing_col V A e m : V ## A -> nonsing V A e -> m ∈ V -> exists n, n ∈ V /\ e m n <> 0.
  Proof.
    intros Hd Hns Hm.
    destruct (decide (Exists (fun n => e m n <> 0) (elements V))) as [He|He].
    - apply Exists_exists in He as (n & Hn & He). exists n. split; [by apply elem_of_elements|done].
    - exfalso. apply (@f1_neq_0 K).
      set (X0 := fun k => if decide (k = m) then 1 else 0 : K).
      assert (X0 m = 0) as H0.
      { apply (Hns X0); [| |done]; unfold X0.
        - intros a Ha. rewrite decide_False; [done|set_solver].
        - intros n Hn. unfold flow. apply gsum_0. intros k Hk. destruct (decide (k = m)) as [->|]; [|ring].
          destruct (decide (e m n = 0)) as [->|Hne]; [ring|]. exfalso. apply He, Exists_exists.
          exists n. split; [by apply elem_of_elements|done]. }
      unfold X0 in H0. by rewrite decide_True in H0.
  Qed.
End io.
