From Coq Require Import Reals Lra.
From Verif Require Import Fld Py LinSpec LinAlg LinReduce LinIo Herm GraphModel GraphSpec GraphProofs GraphPurge GraphSolve GraphMain GraphFinal.
From Verif Require Import DagModel DagSpec DagElim DagLoops DagPurge DagSolve DagFinal.
Local Open Scope fld_scope.

(** ** the large-entry test over the complex numbers *)
Definition C_big (n : nat) (normr e : C_car) : bool :=
  if Rle_dec (1 / R_sqrt.sqrt (INR n)) (R_sqrt.sqrt (C_sq (C_div e normr))) then true else false.

Lemma C_sq_mul x y : C_sq (C_mul x y) = (C_sq x * C_sq y)%R.
Proof. destruct x, y. unfold C_sq, C_mul. simpl. ring. Qed.
Lemma C_sq_div x y : y <> (0, 0)%R -> C_sq (C_div x y) = (C_sq x / C_sq y)%R.
Proof.
  intros Hy. apply C_sq_pos in Hy. unfold C_div. rewrite C_sq_mul. destruct y as [a b]. unfold C_inv, C_sq in *. simpl in *.
  field. lra.
Qed.
Lemma C_norm_sq (l : list C_car) :
  fsum (K := C_fld) (fun x => C_mul (C_abs x) (C_abs x)) l = (fsum (K := R_fld) C_sq l, 0%R).
Proof.
  induction l as [|x l IH]; [done|]. cbn [fsum]. rewrite IH. unfold C_abs, C_mul, fadd, C_fld, R_fld, C_add. simpl.
  rewrite sqrt_sqrt by apply C_sq_nn. f_equal; ring.
Qed.
Lemma fsum_C_sq_bound (c : R) (l : list C_car) :
  l <> [] -> (forall x, x ∈ l -> C_sq x < c)%R -> (fsum (K := R_fld) C_sq l < INR (length l) * c)%R.
Proof.
  intros Hl Hx. destruct l as [|a l]; [done|]. clear Hl. revert a Hx. induction l as [|b l IH]; intros a Hx.
  - cbn [fsum length]. unfold fadd, f0, R_fld. simpl. specialize (Hx a ltac:(left)). lra.
  - change (fsum (K := R_fld) C_sq (a :: b :: l)) with (C_sq a + fsum (K := R_fld) C_sq (b :: l))%R.
    change (length (a :: b :: l)) with (S (length (b :: l))). rewrite S_INR.
    specialize (IH b (fun x Hx' => Hx x ltac:(by right))). pose proof (Hx a ltac:(left)). lra.
Qed.
Lemma C_big_ok : big_ok C_herm C_big.
Proof.
  split.
  - intros n r e Hn Hr. unfold C_big. destruct (Rle_dec _ _) as [Hle|]; [|done]. intros _ ->.
    assert (C_sq (C_div (0, 0)%R r) = 0)%R as Hz.
    { rewrite C_sq_div by exact Hr. unfold C_sq at 1. simpl. unfold Rdiv. ring. }
    change (@f0 C_fld) with ((0, 0)%R : C_car) in Hle. rewrite Hz, sqrt_0 in Hle.
    assert (0 < 1 / R_sqrt.sqrt (INR n))%R; [|lra]. apply Rdiv_lt_0_compat; [lra|].
    apply sqrt_lt_R0. by apply lt_0_INR.
  - intros l Hnz.
    destruct (decide (Exists (fun x => C_big (length l) (norm_of C_herm l) x = true) l)) as [He|He].
    + apply Exists_exists in He as (x & Hx & He). eauto.
    + exfalso. rename He into He'. assert (forall x, x ∈ l -> C_big (length l) (norm_of C_herm l) x = true -> False) as He.
      { intros x Hx Hb. apply He', Exists_exists. eauto. }
      set (T := fsum (K := R_fld) C_sq l).
      assert (norm_of C_herm l = (R_sqrt.sqrt T, 0%R)) as Hno.
      { unfold norm_of. change (h_abs C_herm) with C_abs. change (@fmul C_fld) with C_mul. rewrite C_norm_sq. done. }
      assert (0 <= T)%R as HT.
      { unfold T. clear. induction l as [|x l IH]; [cbn [fsum]; unfold f0, R_fld; simpl; lra|].
        change (fsum (K := R_fld) C_sq (x :: l)) with (C_sq x + fsum (K := R_fld) C_sq l)%R. pose proof (C_sq_nn x). lra. }
      assert (C_sq (norm_of C_herm l) = T) as Hsq.
      { rewrite Hno. unfold C_sq. simpl. rewrite sqrt_sqrt by done. ring. }
      assert (0 < T)%R as HTp.
      { rewrite <- Hsq. by apply C_sq_pos. }
      assert (l <> []) as Hl.
      { intros ->. unfold T in HTp. cbn [fsum] in HTp. unfold f0, R_fld in HTp. simpl in HTp. lra. }
      assert (0 < INR (length l))%R as Hlen.
      { apply lt_0_INR. destruct l; [done|]. simpl. lia. }
      assert (T < INR (length l) * (T / INR (length l)))%R as Hlt.
      { apply fsum_C_sq_bound; [done|]. intros x Hx.
        assert (~ (1 / R_sqrt.sqrt (INR (length l)) <= R_sqrt.sqrt (C_sq (C_div x (norm_of C_herm l))))%R) as Hnb.
        { intros Hb. apply (He x Hx). unfold C_big. by destruct (Rle_dec _ _). }
        apply Rnot_le_lt in Hnb. rewrite C_sq_div in Hnb by exact Hnz. rewrite Hsq in Hnb.
        assert (0 <= C_sq x / T)%R as Hq0.
        { apply Rmult_le_pos; [apply C_sq_nn|]. left. by apply Rinv_0_lt_compat. }
        assert (C_sq x / T < / INR (length l))%R as Hq.
        { rewrite <- (sqrt_sqrt (C_sq x / T)) by done.
          assert (/ INR (length l) = (1 / R_sqrt.sqrt (INR (length l))) * (1 / R_sqrt.sqrt (INR (length l))))%R as ->.
          { rewrite <- (sqrt_sqrt (INR (length l))) at 1 by lra. field. apply Rgt_not_eq, sqrt_lt_R0. done. }
          apply Rmult_le_0_lt_compat; try done; apply sqrt_pos. }
        apply (Rmult_lt_compat_r T) in Hq; [|done].
        replace (C_sq x / T * T)%R with (C_sq x) in Hq by (field; lra).
        replace (T / INR (length l))%R with (/ INR (length l) * T)%R by (field; lra). done. }
      assert (INR (length l) * (T / INR (length l)) = T)%R as HE by (field; lra).
      rewrite HE in Hlt. exact (Rlt_irrefl _ Hlt).
Qed.

(** ** an executable choice of everything Python leaves open *)
Section rt.
  Context {N : Type} `{Countable N}.
  Definition C_rt : dag_runtime C_fld N :=
    DagRuntime (K := C_fld) elements (fun X => head (elements X)) (fun s => elements (dom (q_seq s)))
      (fun s n => bool_decide (ds_get (q_ra s) n <> ∅))
      (fun _ s n => Z.of_nat (size (ds_get (q_seq s) n) * size (ds_get (q_req s) n)))
      (fun a b => bool_decide (a <> b))
      (fun l => match l with [] => None | x :: l => Some (x, l) end) C_big.
  Lemma C_rt_ok : dag_runtime_ok C_herm C_rt.
  Proof.
    split; simpl; try done.
    - intros X n Hn. destruct (elements X) as [|x l] eqn:He; [done|]. injection Hn as <-.
      apply elem_of_elements. rewrite He. left.
    - intros X Hn. destruct (elements X) as [|x l] eqn:He; [|done]. by apply elements_empty_inv, leibniz_equiv in He.
    - intros c. apply bool_decide_eq_false. tauto.
    - intros l x l'. destruct l; [done|]. by intros [= -> ->].
    - by intros [|].
    - apply C_big_ok.
  Qed.
End rt.

(** a two-node feedback loop with loop gain 1/2 *)
Definition exC_half : C_fld := (/ 2, 0)%R.
Definition exC_g : graph C_fld (wnode nat) := mk_graph [((1, 2)%nat, Some (1 : C_fld)); ((2, 1)%nat, Some exC_half)].
Add Field CF : (f_theory C_fld).
Lemma exC_ok : scattering_input [1; 2]%nat exC_g /\ all_keyed [1; 2]%nat exC_g /\ self_valued exC_g /\
  request_ok (K := C_fld) [1; 2]%nat [1]%nat [2]%nat (Some [(1%nat, 1)]) /\ nonsingular [1; 2]%nat (S_of exC_g).
Proof.
  assert (scattering_input [1; 2]%nat exC_g) as Hsi.
  { apply mk_graph_input; [vm_decide|]. intros a b v Hin.
    repeat (apply elem_of_cons in Hin as [[= -> -> ->]|Hin]; [split; vm_decide|]). by apply elem_of_nil in Hin. }
  assert (S_of exC_g 1%nat 1%nat = 0 /\ S_of exC_g 1%nat 2%nat = 1 /\ S_of exC_g 2%nat 1%nat = exC_half /\ S_of exC_g 2%nat 2%nat = 0) as (E1 & E2 & E3 & E4) by done.
  split_and!.
  - done.
  - intros w. assert (dom (g_seq exC_g) = {[Nd 1%nat; Nd 2%nat]} /\ dom (g_req exC_g) = {[Nd 1%nat; Nd 2%nat]}) as [-> ->].
    { split; vm_decide. }
    rewrite !elem_of_union, !elem_of_singleton. split.
    + intros [[->| ->]|[->| ->]]; eexists; (split; [reflexivity|]); vm_decide.
    + intros (n & -> & Hn). repeat (apply elem_of_cons in Hn as [->|Hn]; [tauto|]). by apply elem_of_nil in Hn.
  - intros w Hw. pose proof (si_nodes _ _ Hsi _ _ Hw) as (a & _ & -> & _ & Ha & _).
    exfalso. revert Hw. apply elem_of_cons in Ha as [->|Ha].
    { apply (bool_decide_unpack (~ _)). vm_compute. done. }
    apply elem_of_list_singleton in Ha as ->. apply (bool_decide_unpack (~ _)). vm_compute. done.
  - split; simpl; try vm_decide; intros i Hi; repeat (apply elem_of_cons in Hi as [->|Hi]; [vm_decide|]); by apply elem_of_nil in Hi.
  - intros x Hx n Hn. pose proof (Hx 1%nat ltac:(vm_decide)) as H1. pose proof (Hx 2%nat ltac:(vm_decide)) as H2.
    cbn [fsum] in H1, H2. rewrite E1, E3 in H1. rewrite E2, E4 in H2.
    assert (x 1%nat = exC_half * x 2%nat) as F1 by (rewrite H1 at 1; ring).
    assert (x 2%nat = x 1%nat) as F2 by (rewrite H2 at 1; ring).
    assert (x 1%nat = 0) as F3.
    { rewrite F2 in F1. assert (exC_half * x 1%nat = 0) as Hh.
      { assert (exC_half + exC_half = 1) as Hhalf by (unfold exC_half, fadd, f1; simpl; unfold C_add; simpl; f_equal; field).
        transitivity (x 1%nat - exC_half * x 1%nat).
        - transitivity ((exC_half + exC_half) * x 1%nat - exC_half * x 1%nat); [ring|]. rewrite Hhalf. ring.
        - rewrite F1 at 1. ring. }
      rewrite F1. exact Hh. }
    rewrite F3 in F2. repeat (apply elem_of_cons in Hn as [->|Hn]; [done|]). by apply elem_of_nil in Hn.
Qed.

(** An isolated node that is neither a key of seq nor of req gets no response. *)
Lemma luq_keyless : exists sol,
  scattering_input [1]%nat (Graph ∅ ∅ ∅ : graph C_fld (wnode nat)) /\
  nonsingular [1]%nat (S_of (Graph ∅ ∅ ∅ : graph C_fld (wnode nat))) /\
  request_ok (K := C_fld) [1]%nat [1]%nat [1]%nat None /\
  loop_LUQ C_herm C_rt false (Graph ∅ ∅ ∅) [1]%nat [1]%nat None true true false true = Ok sol /\
  ~ is_response [1]%nat [1]%nat [1]%nat (steady_state [1]%nat (S_of (Graph ∅ ∅ ∅ : graph C_fld (wnode nat))))
      (fun i o => sgn false * R_of sol i o).
Proof.
  exists (Solution None ∅). split_and!.
  - split; simpl.
    + vm_decide.
    + intros r s. unfold ds_get. rewrite !lookup_empty. set_solver.
    + intros r s. unfold ds_get. rewrite !lookup_empty. set_solver.
    + intros r s. rewrite lookup_empty. by intros [].
  - intros x Hx n Hn. rewrite (Hx n Hn). cbn [fsum]. unfold S_of. cbn [g_em]. rewrite lookup_empty. cbn [from_option id]. ring.
  - split; simpl; try vm_decide; intros i Hi; try done; by apply elem_of_nil in Hi.
  - vm_compute. reflexivity.
  - intros [Hr _]. specialize (Hr (fun n => if decide (n = 1%nat) then 1 else 0) (fun n => if decide (n = 1%nat) then 1 else 0)).
    apply (@f1_neq_0 C_fld). etrans; [etrans; [|apply (Hr) with (o := 1%nat)]|].
    + by rewrite decide_True.
    + intros n Hn. rewrite decide_False; [done|]. intros ->. apply Hn. left.
    + intros s Hs. unfold S_of. cbn [g_em fsum]. rewrite lookup_empty. cbn [from_option id]. ring.
    + left.
    + cbn [fsum]. unfold R_of. cbn [sol_edge_map]. rewrite lookup_empty. cbn [from_option id]. ring.
Qed.

(** ** agreement with the fast solver, independence of all orders *)
Section unique.
  Context {K : fld} {N : Type} `{EqDecision N}.
  Add Field FF : (f_theory K).
  Lemma response_unique (V I O : list N)
      (sys : (N -> K) -> (N -> K) -> Prop) (R R' : N -> N -> K) i o :
    NoDup I -> is_response V I O sys R -> is_response V I O sys R' -> i ∈ I -> o ∈ O -> R i o = R' i o.
  Proof.
    intros Hnd [H1 H2] [H3 H4] Hi Ho. set (u := fun n => if decide (n = i) then 1 else 0 : K).
    assert (sourced_at I u) as Hu.
    { intros n Hn. unfold u. rewrite decide_False; [done|]. by intros ->. }
    destruct (H2 u Hu) as (x & Hx). pose proof (H1 u x Hu Hx o Ho) as E1. pose proof (H3 u x Hu Hx o Ho) as E2.
    assert (forall R : N -> N -> K, fsum (fun k => R k o * u k) I = R i o) as Hd.
    { intros R0. rewrite (fsum_ext _ (fun k => if decide (k = i) then R0 k o else 0)).
      - rewrite fsum_delta by done. by rewrite decide_True.
      - intros k _. unfold u. destruct (decide (k = i)); ring. }
    rewrite Hd in E1, E2. congruence.
  Qed.
End unique.
