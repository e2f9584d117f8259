(** Finite-dimensional linear algebra over an arbitrary field, on systems
    indexed by lists: a homogeneous system with more unknowns than equations has
    a non-trivial solution; for as many unknowns as equations, uniqueness and
    solvability are equivalent; elimination preserves solutions. *)
From stdpp Require Import base tactics list numbers.
From Verif Require Import Fld LinSpec.
Local Open Scope fld_scope.

Section linalg.
  Context {K : fld}.
  Add Field FF : (f_theory K).

  Definition upd {N} `{EqDecision N} (x : N -> K) (n : N) (v : K) : N -> K :=
    fun m => if decide (m = n) then v else x m.
  Lemma upd_eq {N} `{EqDecision N} (x : N -> K) n v : upd x n v n = v.
  Proof. unfold upd. by rewrite decide_True. Qed.
  Lemma upd_ne {N} `{EqDecision N} (x : N -> K) n v m : m <> n -> upd x n v m = x m.
  Proof. intros. unfold upd. by rewrite decide_False. Qed.

  Lemma length_filter_ne {C} `{EqDecision C} (c : C) l :
    NoDup l -> c ∈ l -> length l = S (length (filter (.≠ c) l)).
  Proof.
    intros Hl Hc. destruct (elem_of_list_split _ _ Hc) as (l1 & l2 & ->).
    apply NoDup_app in Hl as (H1 & Hd & H2). apply NoDup_cons in H2 as (Hc2 & H2).
    assert (forall l : list C, c ∉ l -> filter (.≠ c) l = l) as Hf.
    { intros l. induction l as [|b l IH]; intros Hn; [done|].
      rewrite filter_cons, decide_True by set_solver. f_equal. apply IH. set_solver. }
    rewrite filter_app, filter_cons, decide_False by naive_solver.
    rewrite !Hf; [|done|set_solver].
    rewrite !app_length. simpl. lia.
  Qed.

  (** more unknowns than equations: a non-trivial kernel, by Gauss elimination *)
  Fixpoint kern {R C} `{EqDecision C} (rows : list R) (cols : list C) (a : R -> C -> K) : C -> K :=
    match rows with
    | [] => fun _ => 1
    | r :: rows =>
        match list_find (fun c => a r c <> 0) cols with
        | Some (_, c) =>
            let cols' := filter (.≠ c) cols in
            let y := kern rows cols' (fun r' c' => a r' c' - a r' c / a r c * a r c') in
            upd y c (- (fsum (fun c' => a r c' * y c') cols' / a r c))
        | None => kern rows cols a
        end
    end.
  Lemma kern_ok {R C} `{EqDecision C} (rows : list R) :
    forall (cols : list C) (a : R -> C -> K), NoDup cols -> length rows < length cols ->
    (exists c, c ∈ cols /\ kern rows cols a c <> 0) /\
    forall r, r ∈ rows -> fsum (fun c => a r c * kern rows cols a c) cols = 0.
  Proof.
    induction rows as [|r rows IH]; intros cols a Hnd Hlen; cbn [kern].
    - destruct cols as [|c cols]; [simpl in Hlen; lia|].
      split; [|set_solver].
      exists c. split; [set_solver|apply f1_neq_0].
    - destruct (list_find _ cols) as [[i c]|] eqn:Hf.
      + apply list_find_Some in Hf as (Hc & Hac & _). apply elem_of_list_lookup_2 in Hc.
        set (cols' := filter (.≠ c) cols). cbv zeta.
        destruct (IH cols' (fun r' c' => a r' c' - a r' c / a r c * a r c')) as ((c0 & Hc0 & Hy0) & Hy).
        { by apply NoDup_filter. }
        { rewrite (length_filter_ne c cols) in Hlen by done. simpl in Hlen.
          fold cols' in Hlen. lia. }
        set (y := kern rows cols' _) in *.
        set (s := fsum (fun c' => a r c' * y c') cols').
        split.
        { exists c0. apply elem_of_list_filter in Hc0 as [Hc0n Hc0i].
          split; [done|]. by rewrite upd_ne. }
        assert (forall r', fsum (fun c' => a r' c' * upd y c (- (s / a r c)) c') cols
                = fsum (fun c' => a r' c' * y c') cols' - a r' c * (s / a r c)) as Hsplit.
        { intros r'. rewrite (fsum_split_elem c) by done. fold cols'. rewrite upd_eq.
          rewrite (fsum_ext _ (fun c' => a r' c' * y c')).
          - ring.
          - intros c' Hc'. apply elem_of_list_filter in Hc' as [? _]. by rewrite upd_ne. }
        intros r' Hr'. rewrite Hsplit. apply elem_of_cons in Hr' as [->|Hr'].
        * fold s. field. done.
        * specialize (Hy r' Hr'). cbv beta in Hy.
          rewrite (fsum_ext _ (fun c' => a r' c' * y c' - (a r' c / a r c) * (a r c' * y c'))) in Hy
            by (intros; field; done).
          rewrite fsum_sub, fsum_mul_l in Hy. fold s in Hy.
          transitivity (fsum (fun c' => a r' c' * y c') cols' - a r' c / a r c * s); [field; done|done].
      + apply list_find_None in Hf. rewrite Forall_forall in Hf.
        destruct (IH cols a) as (Hy0 & Hy); [done|simpl in Hlen; lia|].
        split; [done|]. intros r' Hr'. apply elem_of_cons in Hr' as [->|Hr']; [|auto].
        apply fsum_0. intros c Hc.
        assert (a r c = 0) as ->; [|ring].
        destruct (decide (a r c = 0)); [done|]. exfalso. by apply (Hf c).
  Qed.
  Lemma kernel_nontrivial {R C} `{EqDecision C} (rows : list R) (cols : list C) (a : R -> C -> K) :
    NoDup cols -> length rows < length cols ->
    exists x, (exists c, c ∈ cols /\ x c <> 0) /\
              forall r, r ∈ rows -> fsum (fun c => a r c * x c) cols = 0.
  Proof. intros H1 H2. exists (kern rows cols a). by apply kern_ok. Qed.

  Definition surjective_sys {N} (V : list N) (a : N -> N -> K) : Prop :=
    forall b, exists x, forall n, n ∈ V -> fsum (fun m => a m n * x m) V = b n.

  (** the solution of a uniquely solvable system *)
  Definition lsolve {N} `{EqDecision N} (V : list N) (a : N -> N -> K) (b : N -> K) : N -> K :=
    let x := kern V (None :: (Some <$> V)) (fun n mc => match mc with Some m => a m n | None => b n end) in
    fun m => - (x (Some m) / x None).
  Lemma lsolve_ok {N} `{EqDecision N} (V : list N) (a : N -> N -> K) b :
    NoDup V -> injective_sys V a -> forall n, n ∈ V -> fsum (fun m => a m n * lsolve V a b m) V = b n.
  Proof.
    intros Hnd Hinj. unfold lsolve.
    destruct (kern_ok V (None :: (Some <$> V))
                (fun n mc => match mc with Some m => a m n | None => b n end))
      as ((c & Hc & Hxc) & Hx).
    { apply NoDup_cons. split; [|by apply NoDup_fmap; [intros ???; congruence|]].
      rewrite elem_of_list_fmap. naive_solver. }
    { simpl. rewrite fmap_length. lia. }
    set (x := kern V _ _) in *. cbv zeta.
    assert (forall n, n ∈ V -> b n * x None + fsum (fun m => a m n * x (Some m)) V = 0) as Hx'.
    { intros n Hn. specialize (Hx n Hn). simpl in Hx. by rewrite fsum_map in Hx. }
    destruct (decide (x None = 0)) as [H0|Hn0].
    - exfalso. assert (forall m, m ∈ V -> x (Some m) = 0) as Hz.
      { apply Hinj. intros n Hn. specialize (Hx' n Hn). rewrite H0 in Hx'.
        rewrite <- Hx'. ring. }
      apply elem_of_cons in Hc as [->|Hc]; [done|].
      apply elem_of_list_fmap in Hc as (m & -> & Hm). auto.
    - intros n Hn.
      rewrite (fsum_ext _ (fun m => - (1 / x None) * (a m n * x (Some m)))) by (intros; field; done).
      rewrite fsum_mul_l. specialize (Hx' n Hn).
      assert (fsum (fun m => a m n * x (Some m)) V = - (b n * x None)) as ->.
      { apply fsub_0_eq. rewrite <- Hx'. ring. }
      field. done.
  Qed.
  Lemma injective_surjective {N} `{EqDecision N} (V : list N) (a : N -> N -> K) :
    NoDup V -> injective_sys V a -> surjective_sys V a.
  Proof. intros Hnd Hinj b. exists (lsolve V a b). by apply lsolve_ok. Qed.

  Lemma surjective_injective {N} `{EqDecision N} (V : list N) (a : N -> N -> K) :
    NoDup V -> surjective_sys V a -> injective_sys V a.
  Proof.
    intros Hnd Hsur z Hz c Hc. destruct (decide (z c = 0)) as [|Hzc]; [done|exfalso].
    set (V' := filter (.≠ c) V).
    (* every right-hand side already has a solution with x c = 0 *)
    assert (forall b, exists x, forall n, n ∈ V -> fsum (fun m => a m n * x m) V' = b n) as Hsur'.
    { intros b. destruct (Hsur b) as (x & Hx).
      exists (fun m => x m - x c / z c * z m). intros n Hn.
      rewrite <- (Hx n Hn). specialize (Hz n Hn).
      rewrite (fsum_split_elem c) in Hz by done. rewrite (fsum_split_elem c (fun m => a m n * x m)) by done.
      fold V' in Hz |- *.
      rewrite (fsum_ext _ (fun m => a m n * x m - x c / z c * (a m n * z m))) by (intros; field; done).
      rewrite fsum_sub, fsum_mul_l.
      assert (fsum (fun m => a m n * z m) V' = - (a c n * z c)) as ->.
      { apply fsub_0_eq. rewrite <- Hz. ring. }
      field. done. }
    (* choose a right inverse on the listed nodes *)
    assert (forall l : list N, exists g : N -> N -> K, forall r, r ∈ l -> forall n, n ∈ V ->
              fsum (fun m => a m n * g r m) V' = if decide (r = n) then 1 else 0) as Hg.
    { induction l as [|r l [g IHg]].
      - exists (fun _ _ => 0). set_solver.
      - destruct (Hsur' (fun n => if decide (r = n) then 1 else 0)) as (x & Hx).
        exists (fun r' => if decide (r' = r) then x else g r').
        intros r' Hr' n Hn. destruct (decide (r' = r)) as [->|Hne]; [by apply Hx|].
        apply IHg; set_solver. }
    destruct (Hg V) as (g & Hgi).
    destruct (kernel_nontrivial V' V (fun m r => g r m)) as (al & (r0 & Hr0 & Hal) & Hk); [done| |].
    { rewrite (length_filter_ne c V) by done. fold V'. lia. }
    apply Hal.
    assert (fsum (fun m => a m r0 * fsum (fun r => g r m * al r) V) V' = 0) as Hz0.
    { apply fsum_0. intros m Hm. rewrite (Hk m Hm). ring. }
    rewrite (fsum_ext _ (fun m => fsum (fun r => a m r0 * (g r m * al r)) V)) in Hz0
      by (intros; by rewrite fsum_mul_l).
    rewrite fsum_swap in Hz0.
    rewrite (fsum_ext _ (fun r => if decide (r = r0) then al r else 0)) in Hz0.
    - rewrite fsum_delta in Hz0 by done. by rewrite decide_True in Hz0.
    - intros r Hr. rewrite (fsum_ext _ (fun m => (a m r0 * g r m) * al r)) by (intros; ring).
      rewrite fsum_mul_r, (Hgi r Hr r0 Hr0). destruct (decide (r = r0)); ring.
  Qed.

  (** A part of a uniquely solvable system that nothing outside feeds is itself
      uniquely solvable. *)
  Lemma injective_block {N} `{EqDecision N} (V P : list N) (a : N -> N -> K) :
    NoDup V -> NoDup P -> (forall p, p ∈ P -> p ∈ V) ->
    (forall m p, m ∈ V -> p ∈ P -> m ∉ P -> a m p = 0) ->
    injective_sys V a -> injective_sys P a.
  Proof.
    intros HV HP Hsub Hz Hinj. apply surjective_injective; [done|].
    apply injective_surjective in Hinj; [|done]. intros b.
    destruct (Hinj b) as (x & Hx). exists x. intros n Hn.
    rewrite <- (Hx n) by auto.
    apply (fsum_sub_list _ P V); [done|done|done|].
    intros m Hm Hmp. rewrite (Hz m n) by done. ring.
  Qed.

  (** ** One elimination step, scattering form: x_s = sum_r e(r,s) x_r for the
      nodes [D]. *)
  Definition ssol {N} (V : list N) (D : N -> Prop) (e : N -> N -> K) (x : N -> K) : Prop :=
    forall s, s ∈ V -> D s -> x s = fsum (fun r => e r s * x r) V.
  Definition s_elim {N} (n : N) (e : N -> N -> K) : N -> N -> K :=
    fun r s => e r s + e n s * (1 / (1 - e n n)) * e r n.

  Lemma elim_value {N} `{EqDecision N} V (D : N -> Prop) (e : N -> N -> K) x n :
    NoDup V -> n ∈ V -> D n -> 1 - e n n <> 0 -> ssol V D e x ->
    x n = 1 / (1 - e n n) * fsum (fun r => e r n * x r) (filter (.≠ n) V).
  Proof.
    intros Hnd Hn HD Hp Hs. pose proof (Hs n Hn HD) as H.
    rewrite (fsum_split_elem n) in H by done.
    set (t := fsum _ _) in *.
    assert (t = (1 - e n n) * x n) as ->.
    { apply fsub_0_eq. transitivity ((e n n * x n + t) - x n); [ring|]. rewrite <- H. ring. }
    field. done.
  Qed.
  Lemma elim_sound {N} `{EqDecision N} V (D : N -> Prop) (e : N -> N -> K) x n :
    NoDup V -> n ∈ V -> D n -> 1 - e n n <> 0 -> ssol V D e x ->
    ssol (filter (.≠ n) V) D (s_elim n e) x.
  Proof.
    intros Hnd Hn HD Hp Hs s Hsin HDs. apply elem_of_list_filter in Hsin as [Hsn Hsin].
    rewrite (Hs s Hsin HDs). rewrite (fsum_split_elem n) by done.
    rewrite (elim_value V D e x n) by done.
    unfold s_elim.
    rewrite (fsum_ext (fun r => (e r s + e n s * (1 / (1 - e n n)) * e r n) * x r)
       (fun r => e r s * x r + e n s * (1 / (1 - e n n)) * (e r n * x r))) by (intros; ring).
    rewrite fsum_add, fsum_mul_l. ring.
  Qed.
  Lemma elim_complete {N} `{EqDecision N} V (D : N -> Prop) (e : N -> N -> K) x n :
    NoDup V -> n ∈ V -> 1 - e n n <> 0 ->
    ssol (filter (.≠ n) V) D (s_elim n e) x ->
    ssol V D e (upd x n (1 / (1 - e n n) * fsum (fun r => e r n * x r) (filter (.≠ n) V))).
  Proof.
    intros Hnd Hn Hp Hs s Hsin HDs. set (t := fsum (fun r => e r n * x r) (filter (.≠ n) V)).
    set (X := upd x n (1 / (1 - e n n) * t)).
    assert (forall s', fsum (fun r => e r s' * X r) V
              = e n s' * (1 / (1 - e n n) * t) + fsum (fun r => e r s' * x r) (filter (.≠ n) V)) as Hsum.
    { intros s'. rewrite (fsum_split_elem n) by done. unfold X at 1. rewrite upd_eq. f_equal.
      apply fsum_ext. intros r Hr. apply elem_of_list_filter in Hr as [Hr _].
      unfold X. by rewrite upd_ne. }
    rewrite Hsum. destruct (decide (s = n)) as [->|Hne].
    - unfold X. rewrite upd_eq. fold t. field. done.
    - unfold X. rewrite upd_ne by done.
      rewrite (Hs s) by (try apply elem_of_list_filter; done).
      unfold s_elim.
      rewrite (fsum_ext (fun r => (e r s + e n s * (1 / (1 - e n n)) * e r n) * x r)
         (fun r => e r s * x r + e n s * (1 / (1 - e n n)) * (e r n * x r))) by (intros; ring).
      rewrite fsum_add, fsum_mul_l. fold t. ring.
  Qed.
End linalg.
