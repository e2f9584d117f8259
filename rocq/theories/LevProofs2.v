(** Proofs about levers and strings: energy, inertia, strings, the broken driver. *)
From Coq Require Import Reals Lra.
From stdpp Require Import base tactics list numbers.
From Verif Require Import Py Fld Herm ElecModel ElecSpec ElecProofs LevModel LevSpec LevProofs SigModel.

Section proofs.
  Context {K : fld}.
  Local Open Scope fld_scope.
  Add Field FL2 : (f_theory K).
  Notation two := (1 + 1 : K).

  (** a converter joins two lines: same displacement, opposite forces *)
  Lemma zconverter_lem (Z0 s tiny mob : K) (w : nd pAB -> K) :
    let Y1 := zY1 Z0 s tiny in let Y2 := zY2 s tiny mob in
    Y1 <> 0 -> Y2 <> 0 -> Y1 + Y2 <> 0 ->
    (obeys [AA; BB] (zconverter Z0 s tiny mob) [] w <->
     volt w AA = volt w BB /\ Y1 * (w (I AA) - w (O AA)) + Y2 * (w (I BB) - w (O BB)) = 0).
  Proof.
    intros Y1 Y2 H1 H2 H3. rewrite obeys2. unfold zconverter, smatrix2. fold Y1 Y2. emits_simpl.
    unfold volt. clearbody Y1 Y2. generalize (w (I AA)) (w (I BB)) (w (O AA)) (w (O BB)). intros a b a' b'.
    split.
    - intros [-> ->]. split; by field.
    - intros [E1 E2]. assert (b' = a + a' - b) as -> by (rewrite E1; ring).
      assert (a' = (Y1 - Y2) / (Y1 + Y2) * a + two * Y2 / (Y1 + Y2) * b) as ->; [|split; by field].
      apply fsub_0_eq. transitivity (- (Y1 * (a - a') + Y2 * (b - (a + a' - b))) / (Y1 + Y2)); [by field|].
      rewrite E2. by field.
  Qed.
  Lemma string_lem (Z0 s tiny mob ph xA fA xB fB : K) :
    Z0 <> 0 -> two <> 0 -> ph <> 0 -> zY1 Z0 s tiny <> 0 -> zY2 s tiny mob <> 0 -> zY1 Z0 s tiny + zY2 s tiny mob <> 0 ->
    ((exists wA wC wB, string_obeys Z0 s tiny mob ph wA wC wB /\
        volt wA AA = xA /\ curr Z0 wA AA = fA /\ volt wB AA = xB /\ curr Z0 wB AA = fB) <->
     line_law (zY2 s tiny mob / zY1 Z0 s tiny / Z0) ph xA fA xB fB).
  Proof.
    intros HZ H2 Hp HY1 HY2 HY. unfold string_obeys, bonded, cable. setoid_rewrite zconverter_lem; [|done..].
    setoid_rewrite obeys2.
    generalize dependent (zY1 Z0 s tiny). intros Y1 HY1 HY. generalize dependent (zY2 s tiny mob). intros Y2 HY2 HY.
    split.
    - intros (wA & wC & wB & ([A1 A2] & [A3 A4] & [A5 A6] & (B1 & B2) & (B3 & B4)) & <- & <- & <- & <-).
      revert A3 A4. emits_simpl. intros A3 A4. unfold line_law. rewrite A1, A5. unfold volt, curr.
      revert A2 A3 A4 A6 B1 B2 B3 B4. clear A1 A5.
      generalize (wA (I AA)) (wA (O AA)) (wA (I BB)) (wA (O BB)) (wC (I AA)) (wC (O AA)) (wC (I BB)) (wC (O BB))
        (wB (I AA)) (wB (O AA)) (wB (I BB)) (wB (O BB)).
      intros a a' q p p' q' t r b b' r' t' A2 A3 A4 A6 B1 B2 B3 B4. subst q' r. subst p' q. subst t r'.
      assert (a - a' = - Y2 / Y1 * (ph * t' - p)) as ->.
      { apply fsub_0_eq. transitivity ((Y1 * (a - a') + Y2 * (0 + (ph * t' + 0) + 0 - p)) / Y1); [by field|]. rewrite A2. by field. }
      assert (b - b' = - Y2 / Y1 * (ph * p - t')) as ->.
      { apply fsub_0_eq. transitivity ((Y1 * (b - b') + Y2 * (ph * p + (0 + 0) + 0 - t')) / Y1); [by field|]. rewrite A6. by field. }
      split; by field.
    - intros [E1 E2]. set (Y := Y2 / Y1 / Z0) in *.
      assert (Y <> 0) as HYn.
      { intros E. apply HY2. transitivity (Y * Y1 * Z0); [unfold Y; by field|]. rewrite E. ring. }
      assert (Y2 = Y * Y1 * Z0) as HYe by (unfold Y; by field). clearbody Y.
      pose proof (fmul_neq_0 two two H2 H2) as H4.
      set (p := (xA + fA / Y) / two). set (q := (xA - fA / Y) / two).
      set (t := (xB + fB / Y) / two). set (r := (xB - fB / Y) / two).
      assert (r = ph * p) as Er.
      { apply fsub_0_eq. transitivity (- (two * ph * (Y * xA) + two * ph * fA - two * Y * xB + two * fB) / (two * two * Y)); [unfold r, p; field; split_and!; first [exact H2|exact H4|done]|].
        rewrite E1, E2. field; split_and!; first [exact H2|exact H4|done]. }
      assert (q = ph * t) as Eq.
      { apply fsub_0_eq. transitivity ((two * ph * (Y * xA) - two * ph * fA - two * ph * ph * (Y * xB + fB)) / (two * two * ph * Y)); [unfold q, t; field; split_and!; first [exact H2|exact H4|done]|].
        rewrite E1, E2. field; split_and!; first [exact H2|exact H4|done]. }
      exists (fun n => match n with
         | I AA => (xA + Z0 * fA) / two | O AA => (xA - Z0 * fA) / two
         | I BB => q | O BB => p | Sg _ => 0 end).
      exists (fun n => match n with
         | I AA => p | O AA => q | I BB => t | O BB => r | Sg _ => 0 end).
      exists (fun n => match n with
         | I AA => (xB + Z0 * fB) / two | O AA => (xB - Z0 * fB) / two
         | I BB => r | O BB => t | Sg _ => 0 end).
      split; [|unfold volt, curr; split_and!; by field].
      split_and!; try done; unfold volt.
      + unfold p, q. by field.
      + unfold p, q. rewrite HYe. by field.
      + emits_simpl. rewrite Eq. ring.
      + emits_simpl. rewrite Er. ring.
      + unfold t, r. by field.
      + unfold t, r. rewrite HYe. by field.
  Qed.

  (** what a port takes up, from displacement and force *)
  Lemma two_taken {P} (h : herm K) (w : nd P -> K) p :
    two * taken h w p = volt w p * h_conj h (w (I p) - w (O p)) + h_conj h (volt w p) * (w (I p) - w (O p)).
  Proof. unfold taken, power, volt. rewrite (h_conj_add _ h), (conj_sub h). ring. Qed.
  Lemma curr_J {P} (Z0 : K) (w : nd P -> K) p : Z0 <> 0 -> w (I p) - w (O p) = Z0 * curr Z0 w p.
  Proof. intros. unfold curr. by field. Qed.
  Lemma lever1_lossless_lem (h : herm K) (d : K) (w : nd pABL -> K) : two <> 0 -> d * d + two <> 0 -> h_conj h d = d ->
    obeys [LA; LB; LL] (lever1 d) [] w -> taken h w LA + taken h w LB + taken h w LL = 0.
  Proof.
    intros H2 Hd Hc H. assert ((1 : K) <> 0) as H1 by (intros E; apply H2; rewrite E; ring).
    apply (lever1_lem d 1 w H1 H2 Hd) in H as (E1 & E2 & E3).
    apply (eq_scale two); [done|].
    transitivity (two * taken h w LA + two * taken h w LB + two * taken h w LL); [ring|].
    rewrite !two_taken, !(curr_J 1) by done.
    assert (curr 1 w LB = - curr 1 w LA) as -> by (apply fsub_0_eq; rewrite <- E2; ring).
    assert (curr 1 w LL = - (d * curr 1 w LA)) as -> by (apply fsub_0_eq; rewrite <- E3; ring).
    assert (volt w LA = volt w LB + d * volt w LL) as -> by (rewrite <- E1; ring).
    rewrite !(h_conj_mul _ h), !(h_conj_add _ h), !(conj_opp h), !(h_conj_mul _ h), Hc. ring.
  Qed.
  Lemma lever3_lossless_gen (h : herm K) (d : K) (dv : axis -> K) (w : nd port3 -> K) :
    d * d = dot dv dv -> d <> 0 -> d * d + two <> 0 -> two <> 0 -> (forall i, h_conj h (dv i) = dv i) ->
    obeys all3 (lever3 d dv) [] w -> fsum (taken h w) all3 = 0.
  Proof.
    intros Hdd Hd Hden H2 Hc H. assert ((1 : K) <> 0) as H1 by (intros E; apply H2; rewrite E; ring).
    apply (lever3_gen d dv Hdd Hd Hden H2 1 w H1) in H. unfold rigid_rod, disp, force in H.
    apply (eq_scale two); [done|].
    transitivity (fsum (fun p => two * taken h w p) all3).
    { unfold all3, ports3, axes. cbn [map app fsum]. ring. }
    unfold all3, ports3, axes. cbn [map app fsum].
    rewrite !two_taken, !(curr_J 1) by done.
    assert (forall i, curr 1 w (LB, i) = - curr 1 w (LA, i)) as EB.
    { intros i. destruct (H i) as (_ & E & _). apply fsub_0_eq. rewrite <- E. ring. }
    assert (forall i, curr 1 w (LL, i) = cross dv (fun i => curr 1 w (LA, i)) i) as EL.
    { intros i. destruct (H i) as (_ & _ & E). apply fsub_0_eq. rewrite <- E. destruct i; cbn [cross]; rewrite !EB; ring. }
    assert (forall i, volt w (LB, i) = volt w (LA, i) + cross (fun i => volt w (LL, i)) dv i) as EV.
    { intros i. by destruct (H i) as (E & _ & _). }
    rewrite !EB, !EL, !EV. cbn [cross].
    rewrite !(h_conj_mul _ h), !(h_conj_add _ h), !(conj_opp h), !(conj_sub h), !(h_conj_mul _ h), !Hc. ring.
  Qed.
  (** a mass at A, B held: the moment of inertia *)
  Lemma inertia_gen (d : K) (dv : axis -> K) (Z0 s m : K) (w : nd port3 -> K) :
    d * d = dot dv dv -> d <> 0 -> d * d + two <> 0 -> two <> 0 -> Z0 <> 0 ->
    obeys all3 (lever3 d dv) [] w ->
    (forall i, disp w LB i = 0) -> (forall i, force Z0 w LA i = - (m * (s * (s * disp w LA i)))) ->
    forall i, force Z0 w LL i = m * (dot dv dv * (s * (s * disp w LL i)) - dot dv (disp w LL) * (s * (s * dv i))).
  Proof.
    intros Hdd Hd Hden H2 HZ H HB HA. apply (lever3_gen d dv Hdd Hd Hden H2 Z0 w HZ) in H.
    assert (forall i, force Z0 w LB i = m * (s * (s * disp w LA i))) as EB.
    { intros i. destruct (H i) as (_ & E & _). rewrite HA in E. apply fsub_0_eq. rewrite <- E. ring. }
    assert (forall i, disp w LA i = - cross (disp w LL) dv i) as EA.
    { intros i. destruct (H i) as (E & _ & _). rewrite HB in E. apply fsub_0_eq. symmetry. rewrite E. ring. }
    intros i. destruct (H i) as (_ & _ & E).
    assert (force Z0 w LL i = - cross dv (force Z0 w LB) i) as -> by (apply fsub_0_eq; rewrite <- E; ring).
    destruct i; cbn [cross]; rewrite !EB, !EA; unfold dot; cbn [cross]; ring.
  Qed.
End proofs.

(** ** MomentDriver *)
Lemma mfor_err {S A} (body : S -> A -> res S) l1 a l2 s e :
  (forall s, mfor body l1 s = Ok s) -> (forall s, body s a = Err e) -> mfor body (l1 ++ a :: l2) s = Err e.
Proof. intros H1 H2. rewrite mfor_app, H1. simpl. by rewrite H2. Qed.
Lemma mfor_unit {A} (body : unit -> A -> res unit) l : (exists a, a ∈ l /\ exists e, body tt a = Err e) ->
  exists e, mfor body l tt = Err e.
Proof.
  intros (a & Ha & He). induction l as [|b l IH]; [by apply elem_of_nil in Ha|]. simpl.
  destruct (body tt b) as [[]|e'] eqn:E; [|eauto].
  apply elem_of_cons in Ha as [->|Ha]; [rewrite E in He; destruct He; discriminate|]. by apply IH.
Qed.
Lemma mfor_only {A} (body : unit -> A -> res unit) l e0 e :
  (forall a e, body tt a = Err e -> e = e0) -> mfor body l tt = Err e -> e = e0.
Proof.
  intros H. induction l as [|b l IH]; [discriminate|]. simpl. destruct (body tt b) as [[]|e'] eqn:E; [done|].
  intros [= <-]. eauto.
Qed.
Lemma np_index2_err sh i j e : np_index2 sh i j = Err e -> e = IndexError.
Proof. destruct sh as [|n [|m [|]]]; simpl; try congruence. destruct (decide _); congruence. Qed.
Lemma inject_shape_err keys p1 p2 sh e : inject_shape keys p1 p2 sh = Err e -> e = IndexError.
Proof.
  unfold inject_shape. apply mfor_only. intros ip e'. apply mfor_only. intros jq e''. apply mfor_only. intros _ e3. apply np_index2_err.
Qed.
Lemma inject_shape_bad keys p1 p2 sh i p j q : p1 !! i = Some p -> p2 !! j = Some q -> 0 < keys p ->
  np_index2 sh i j = Err IndexError -> inject_shape keys p1 p2 sh = Err IndexError.
Proof.
  intros Hp Hq Hk E.
  assert (exists e, inject_shape keys p1 p2 sh = Err e) as [e He]; [|rewrite He; f_equal; by eapply inject_shape_err].
  unfold inject_shape. apply mfor_unit. exists (i, p). split.
  { apply elem_of_lookup_imap. eauto. }
  apply mfor_unit. exists (j, q). split.
  { apply elem_of_lookup_imap. eauto. }
  apply mfor_unit. exists 0. split; [apply elem_of_seq; simpl; lia|]. simpl. eauto.
Qed.
Lemma res_bind_err {A B} (m : res A) (f : A -> res B) e :
  (forall e', m = Err e' -> e' = e) -> (forall a, f a = Err e) -> m ≫= f = Err e.
Proof. intros H1 H2. destruct m; simpl; [apply H2|]. f_equal. by apply H1. Qed.
Lemma moment_driver_lem keys : 0 < keys MA \/ 0 < keys (MB AxY) \/ 0 < keys (MB AxZ) -> moment_driver keys = Err IndexError.
Proof.
  intros H. unfold moment_driver.
  do 5 (apply res_bind_err; [apply inject_shape_err|intros []]).
  destruct H as [H|[H|H]].
  - do 2 (apply res_bind_err; [apply inject_shape_err|intros []]).
    by rewrite (inject_shape_bad keys [MA] _ _ 0 MA 0 (MB AxX)).
  - by rewrite (inject_shape_bad keys (map MB axes) (map ML axes) _ 1 (MB AxY) 0 (ML AxX)).
  - by rewrite (inject_shape_bad keys (map MB axes) (map ML axes) _ 2 (MB AxZ) 0 (ML AxX)).
Qed.
