(** Concrete networks and the remaining proofs about sensitivities and loop gains. *)
From Coq Require Import Reals Lra.
From stdpp Require Import base tactics list numbers.
From Verif Require Import Fld Herm Py LinSpec LinAlg GraphModel GraphSpec GraphPurge GraphFinal LoopModel LoopSpec LoopProofs.

Section noise.
  Context {K : fld} {N : Type} `{EqDecision N}.
  Local Open Scope fld_scope.
  Add Field FLf : (f_theory K).
  Lemma noise_limited_lem (h : herm K) (V I O : list N) (S R : N -> N -> K) drP drN nP psd c x :
    is_response V I O (steady_state V S) R -> NoDup I -> drP <> drN -> drP ∈ I -> drN ∈ I -> nP ∈ O ->
    h_nn h psd -> ac_sensitivity R drP drN nP <> 0 ->
    c * h_conj h c = ac_noise_limited R h psd drP drN nP * ac_noise_limited R h psd drP drN nP ->
    steady_state V S (both drP drN c) x -> x nP * h_conj h (x nP) = psd.
  Proof.
    intros HR HI Hn H1 H2 H3 Hp H0 Hc Hx.
    rewrite (sensitivity_lem V I O S R HR HI drP drN nP c x Hn H1 H2 H3 Hx).
    set (s := ac_sensitivity R drP drN nP) in *. rewrite h_conj_mul.
    transitivity (s * h_conj h s * (c * h_conj h c)); [ring|]. rewrite Hc. unfold ac_noise_limited. fold s.
    assert (h_abs h s <> 0) as Ha.
    { intros E. apply H0. apply (h_sq0 _ h). rewrite <- h_abs_sq, E. ring. }
    transitivity (h_abs h s * h_abs h s * (h_sqrt h psd * h_sqrt h psd / (h_abs h s * h_abs h s))).
    - rewrite h_abs_sq at 1. rewrite <- !h_abs_sq. by field.
    - rewrite (h_sqrt_sq _ h psd Hp). by field.
  Qed.
End noise.

Section sg.
  Context {K : fld}.
  Add Field FLsg : (f_theory K).
  Lemma sgn_false (a b : K) : (sgn false * a * b = a * b)%F.
  Proof. unfold sgn. ring. Qed.
End sg.

(** a loop of two nodes for each sign: from false to true with gain 2, back with gain 3 *)
Definition q (n : Z) : Qc_fld := Qcanon.Q2Qc (QArith_base.inject_Z n).
Definition loop2 (r s : bool * bool) : Qc_fld :=
  if decide (r.2 = s.2) then match r.1, s.1 with false, true => q 2 | true, false => q 3 | _, _ => 0%F end else 0%F.
Definition loop2_V : list (bool * bool) := [(false, true); (true, true); (false, false); (true, false)].
Definition loop2_R (i o : bool * bool) : Qc_fld :=
  if decide (i.2 = o.2) then
    (match i.1, o.1 with false, true => q (-2) | true, false => q (-3) | _, _ => q (-1) end / q 5)%F
  else 0%F.
(** positive and negative keys mixed: the negative one drives the positive one *)
Definition mix2 (r s : bool) : Qc_fld := if r then 0%F else if s then 1%F else 0%F.
Ltac bsimp := cbn [fsum fst snd];
  repeat match goal with
  | |- context [@decide (?a = ?a) _] => rewrite (decide_True (P := a = a)) by reflexivity
  | |- context [@decide (?a = ?b) _] => rewrite (decide_False (P := a = b)) by discriminate
  end.
Section ex.
  Local Open Scope fld_scope.
  Add Field FLq : (f_theory Qc_fld).
  Lemma q2 : q 2 = 1 + 1. Proof. vm_decide. Qed.
  Lemma q3 : q 3 = 1 + 1 + 1. Proof. vm_decide. Qed.
  Lemma q5 : q 5 = 1 + 1 + 1 + 1 + 1. Proof. vm_decide. Qed.
  Lemma qm1 : q (-1) = - (1). Proof. vm_decide. Qed.
  Lemma qm2 : q (-2) = - (1 + 1). Proof. vm_decide. Qed.
  Lemma qm3 : q (-3) = - (1 + 1 + 1). Proof. vm_decide. Qed.
  Lemma five_n0 : (1 + 1 + 1 + 1 + 1 : Qc_fld) <> 0.
  Proof. intros E. vm_compute in E. discriminate E. Qed.
  (** the solution of one sign *)
  Lemma loop_sol (ua ub a b : Qc_fld) : a = ua + q 3 * b -> b = ub + q 2 * a ->
    a = (q (-1) * ua + q (-3) * ub) / q 5 /\ b = (q (-2) * ua + q (-1) * ub) / q 5.
  Proof.
    rewrite q2, q3, q5, qm1, qm2, qm3. intros Ea Eb. pose proof five_n0 as H5.
    assert (a = (- (1) * ua + - (1 + 1 + 1) * ub) / (1 + 1 + 1 + 1 + 1)) as E.
    { apply fsub_0_eq. transitivity ((ua + (1 + 1 + 1) * (ub + (1 + 1) * a) - a) / (1 + 1 + 1 + 1 + 1)); [by field|].
      rewrite <- Eb, <- Ea. by field. }
    split; [done|]. rewrite Eb, E. by field.
  Qed.
  Lemma loop2_response : is_response loop2_V loop2_V loop2_V (steady_state loop2_V loop2) loop2_R.
  Proof.
    split.
    - intros u x _ Hx o Ho.
      assert (forall sg, x (false, sg) = u (false, sg) + q 3 * x (true, sg) /\ x (true, sg) = u (true, sg) + q 2 * x (false, sg)) as H.
      { intros sg. split; (etransitivity; [apply Hx; destruct sg; unfold loop2_V; set_solver|]);
          unfold loop2_V, loop2; destruct sg; bsimp; ring. }
      pose proof (loop_sol _ _ _ _ (proj1 (H true)) (proj2 (H true))) as [E1 E2].
      pose proof (loop_sol _ _ _ _ (proj1 (H false)) (proj2 (H false))) as [E3 E4].
      pose proof five_n0 as H5. rewrite <- q5 in H5.
      destruct o as [[] []]; rewrite ?E1, ?E2, ?E3, ?E4; unfold loop2_V, loop2_R; bsimp; by field.
    - intros u _. exists (fun n : bool * bool =>
        let sg := n.2 in let ua := u (false, sg) in let ub := u (true, sg) in
        if n.1 then (q (-2) * ua + q (-1) * ub) / q 5 else (q (-1) * ua + q (-3) * ub) / q 5).
      intros [[] []] _; unfold loop2_V, loop2; bsimp; rewrite ?q2, ?q3, ?q5, ?qm1, ?qm2, ?qm3; field; exact five_n0.
  Qed.
  Lemma plant_zero (a b : Qc_fld) : a * 0 + (0 * b + 0) = 0.
  Proof. ring. Qed.
  Lemma mix2_response : is_response [true; false] [true; false] [true; false] (steady_state [true; false] mix2)
    (fun i o => if i then if o then 1 else 0 else 1).
  Proof.
    split.
    - intros u x _ Hx o _. pose proof (Hx true ltac:(set_solver)) as E1. pose proof (Hx false ltac:(set_solver)) as E2.
      unfold mix2 in E1, E2. cbn [fsum] in E1, E2.
      assert (x false = u false) as E3 by (rewrite E2; ring). rewrite E3 in E1.
      destruct o; cbn [fsum]; [rewrite E1|rewrite E3]; ring.
    - intros u _. exists (fun n : bool => if n then u true + u false else u false).
      intros [] _; unfold mix2; cbn [fsum]; ring.
  Qed.
End ex.

Lemma solver_loop_lem {K : fld} {N : Type} `{Countable N} (rt : runtime) (V I O : list N)
    (g : graph K (wnode N)) (purge_in purge_out : bool) sol pos pP pN u :
  runtime_ok rt -> scattering_input V g -> request_ok (K := K) V I O None -> nonsingular V (S_of g) ->
  loop_fast_unstable rt g O I None purge_in purge_out false = Ok sol ->
  unmixed (S_of g) pos -> pos pP = true -> pos pN = false -> pP ∈ I -> pN ∈ I -> pP ∈ O -> held_at V (S_of g) pP u ->
  (clg (R_of sol) pP pN = 1 / (1 - arriving V (S_of g) u pP) /\ olg (R_of sol) pP pN = - arriving V (S_of g) u pP)%F.
Proof.
  intros Hrt Hg Hq Hn Hs Hm H1 H2 HI HN HO Hu.
  pose proof (fast_response rt V I O None g purge_in purge_out false sol Hrt Hg Hq Hn Hs) as HR.
  assert (is_response V I O (steady_state V (S_of g)) (R_of sol)) as HR'.
  { destruct HR as [A B]. split; [|done]. intros u' x' Hu' Hx' o Ho. rewrite (A u' x' Hu' Hx' o Ho).
    apply fsum_ext. intros i _. apply sgn_false. }
  destruct Hq. apply (loop_gain_lem V I O (S_of g) (R_of sol) HR' rq_I pos pP pN u); auto.
Qed.
