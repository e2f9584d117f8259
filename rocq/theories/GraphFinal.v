(** The statements of GraphProps, assembled. *)
From Verif Require Import Fld Py LinSpec LinAlg LinReduce GraphModel GraphSpec GraphProofs GraphPurge
  GraphSolve GraphMain.
Local Open Scope fld_scope.

Section final.
  Context {K : fld} {N : Type} `{Countable N}.
  Add Field FF : (f_theory K).
  Notation W := (wnode N).

  Lemma sgn_sq b : @sgn K b * sgn b = 1.
  Proof. unfold sgn. destruct b; ring. Qed.

  Lemma nonsingular_solvable V (S : N -> N -> K) : NoDup V -> nonsingular V S ->
    forall u, exists x, steady_state V S u x.
  Proof.
    intros Hnd Hns u.
    assert (forall x s, s ∈ V ->
      fsum (fun m => ((if decide (m = s) then 1 else 0) - S m s) * x m) V
      = x s - fsum (fun r => S r s * x r) V) as Hs.
    { intros x s Hsv. rewrite (fsum_ext _ (fun m => (if decide (m = s) then x m else 0) - S m s * x m)).
      - rewrite fsum_sub, fsum_delta by done. by rewrite decide_True.
      - intros m _. destruct (decide _); ring. }
    destruct (injective_surjective V (fun m s => (if decide (m = s) then 1 else 0) - S m s) Hnd) with (b := u)
      as (x & Hx).
    - intros x Hx. apply Hns. intros s Hsv. specialize (Hx s Hsv). rewrite Hs in Hx by done.
      apply fsub_0_eq in Hx. rewrite Hx. ring.
    - exists x. intros s Hsv. specialize (Hx s Hsv). rewrite Hs in Hx by done. rewrite <- Hx. ring.
  Qed.

  Context (rt : @runtime K N _ _) (V I O : list N) (om : option (list (N * K)))
          (g : graph K W) (pi po negative : bool) (sol : solution (K := K) (N := N)).
  Context (Hrt : runtime_ok rt) (Hsi : scattering_input V g) (Hrq : request_ok V I O om).

  Lemma source_ext u : sourced_at I u -> forall s, source I om u 0 s = u s.
  Proof.
    intros Hu s. unfold source. destruct (decide (s ∈ I)); [ring|]. rewrite (Hu s) by done. ring.
  Qed.
  Lemma steady_ext (S : N -> N -> K) u u' x :
    (forall s, s ∈ V -> u s = u' s) -> steady_state V S u x -> steady_state V S u' x.
  Proof. intros Hu Hx s Hs. rewrite <- Hu by done. by apply Hx. Qed.

  Lemma fast_value x a t :
    nonsingular V (S_of g) \/ pi = false ->
    loop_fast_unstable rt g O I om pi po negative = Ok sol ->
    steady_state V (S_of g) (source I om a t) x -> (om = None -> t = 0) ->
    forall o, o ∈ O -> sgn negative * x o = fsum (fun i => R_of sol i o * a i) I + m_out sol o * t.
  Proof.
    intros Hns Hsol Hss Ht o Ho. destruct Hrt, Hrq.
    eapply (solve_response (rt_enum rt)) with (O := O) (cost := rt_cost rt) (purge_out := po); eassumption.
  Qed.
  Lemma fast_value' u x :
    nonsingular V (S_of g) \/ pi = false ->
    loop_fast_unstable rt g O I om pi po negative = Ok sol ->
    sourced_at I u -> steady_state V (S_of g) u x ->
    forall o, o ∈ O -> x o = fsum (fun i => sgn negative * R_of sol i o * u i) I.
  Proof.
    intros Hns Hsol Hu Hss o Ho.
    assert (sgn negative * x o = fsum (fun i => R_of sol i o * u i) I + m_out sol o * 0) as Hv.
    { apply (fast_value x u 0); try done. eapply steady_ext; [|exact Hss].
      intros s _. symmetry. by apply source_ext. }
    transitivity (sgn negative * (sgn negative * x o)).
    - transitivity (sgn negative * sgn negative * x o); [rewrite sgn_sq; ring|ring].
    - rewrite Hv, (fsum_ext (fun i => sgn negative * R_of sol i o * u i)
                 (fun i => sgn negative * (R_of sol i o * u i))) by (intros; ring).
      rewrite fsum_mul_l. ring.
  Qed.
End final.

Section stmts.
  Context {K : fld} {N : Type} `{Countable N}.
  Add Field FF2 : (f_theory K).
  Notation W := (wnode N).

  Lemma fast_response (rt : @runtime K N _ _) V I O om (g : graph K W) pi po negative sol :
    runtime_ok rt -> scattering_input V g -> request_ok V I O om -> nonsingular V (S_of g) ->
    loop_fast_unstable rt g O I om pi po negative = Ok sol ->
    is_response V I O (steady_state V (S_of g)) (fun i o => sgn negative * R_of sol i o).
  Proof.
    intros Hrt Hsi Hrq Hns Hsol. split.
    - intros u x Hu Hx o Ho. eapply (fast_value' rt V I O om g pi po negative sol); eauto.
    - intros u _. apply nonsingular_solvable; [apply Hsi|done].
  Qed.

  Lemma fast_outputs_map (rt : @runtime K N _ _) V I O l (g : graph K W) pi po negative sol x :
    runtime_ok rt -> scattering_input V g -> request_ok V I O (Some l) -> nonsingular V (S_of g) ->
    loop_fast_unstable rt g O I (Some l) pi po negative = Ok sol ->
    steady_state V (S_of g) (m_of (Some l)) x ->
    forall o, o ∈ O -> x o = sgn negative * m_out sol o.
  Proof.
    intros Hrt Hsi Hrq Hns Hsol Hx o Ho.
    assert (sgn negative * x o = fsum (fun i => R_of sol i o * 0) I + m_out sol o * 1) as Hv.
    { eapply (fast_value rt V I O (Some l) g pi po negative sol Hrt Hsi Hrq x (fun _ => 0) 1); try done.
      - by left.
      - eapply steady_ext; [|exact Hx]. intros s _. unfold source. destruct (decide _); ring. }
    transitivity (sgn negative * (sgn negative * x o)).
    - transitivity (sgn negative * sgn negative * x o); [rewrite sgn_sq; ring|ring].
    - rewrite Hv, fsum_0 by (intros; ring). ring.
  Qed.

  Lemma fast_response_unpurged (rt : @runtime K N _ _) V I O om (g : graph K W) negative sol :
    runtime_ok rt -> scattering_input V g -> request_ok V I O om ->
    loop_fast_unstable rt g O I om false false negative = Ok sol ->
    is_response V I O (steady_state V (S_of g)) (fun i o => sgn negative * R_of sol i o).
  Proof.
    intros Hrt Hsi Hrq Hsol. split.
    - intros u x Hu Hx o Ho. eapply (fast_value' rt V I O om g false false negative sol); eauto.
    - intros u Hu. pose proof Hrt as Hrt'. destruct Hrt', Hrq.
      destruct (solve_exists (rt_enum rt) rt_enum_ok (rt_pick rt) rt_pick_ok rt_pick_none (rt_one rt) rt_one_ok
        (rt_cost rt) (rt_pop rt) rt_pop_ok rt_pop_none V I O om negative false false g Hsi
        rq_I rq_O rq_om rq_IV rq_OV rq_mV sol u 0 Hsol eq_refl eq_refl) as (x & Hx).
      exists x. eapply steady_ext; [|exact Hx]. intros s _. by apply source_ext.
  Qed.

  Lemma fast_failures (rt : @runtime K N _ _) V I O om (g : graph K W) pi po negative e :
    runtime_ok rt -> scattering_input V g -> request_ok V I O om ->
    loop_fast_unstable rt g O I om pi po negative = Err e ->
    (e = ZeroDivisionError /\ self_sustained V (S_of g)) \/
    (e = AssertionError /\ ~ (pi = true /\ po = true)).
  Proof.
    intros Hrt Hsi Hrq Hsol. destruct Hrt, Hrq.
    eapply (solve_errors (rt_enum rt) rt_enum_ok (rt_pick rt) rt_pick_ok rt_pick_none (rt_one rt) rt_one_ok
        (rt_cost rt) (rt_pop rt) rt_pop_ok rt_pop_none V I O om negative pi po g Hsi
        rq_I rq_O rq_om rq_IV rq_OV rq_mV e Hsol).
  Qed.

  Lemma fast_order_independent (rt rt' : @runtime K N _ _) V I O om (g : graph K W)
      pi po pi' po' negative sol sol' :
    runtime_ok rt -> runtime_ok rt' -> scattering_input V g -> request_ok V I O om ->
    nonsingular V (S_of g) ->
    loop_fast_unstable rt g O I om pi po negative = Ok sol ->
    loop_fast_unstable rt' g O I om pi' po' negative = Ok sol' ->
    (forall i o, i ∈ I -> o ∈ O -> R_of sol i o = R_of sol' i o) /\
    (forall o, o ∈ O -> m_out sol o = m_out sol' o).
  Proof.
    intros Hrt Hrt' Hsi Hrq Hns Hs1 Hs2. pose proof (si_nodup _ _ Hsi) as HV. split.
    - intros i o Hi Ho.
      set (u := fun n => if decide (n = i) then 1 else 0 : K).
      destruct (nonsingular_solvable V (S_of g) HV Hns (source I om u 0)) as (x & Hx).
      assert (forall R, fsum (fun k => R k * u k) I = R i) as Hd.
      { intros R. rewrite (fsum_ext _ (fun k => if decide (k = i) then R k else 0)).
        - rewrite fsum_delta by apply Hrq. by rewrite decide_True.
        - intros k _. unfold u. destruct (decide _); ring. }
      pose proof (fast_value rt V I O om g pi po negative sol Hrt Hsi Hrq x u 0 (or_introl Hns) Hs1 Hx
        (fun _ => eq_refl) o Ho) as H1.
      rewrite (fast_value rt' V I O om g pi' po' negative sol' Hrt' Hsi Hrq x u 0 (or_introl Hns) Hs2 Hx
        (fun _ => eq_refl) o Ho) in H1.
      rewrite !(Hd (fun k => R_of _ k o)) in H1.
      transitivity (R_of sol i o + m_out sol o * 0); [ring|]. rewrite <- H1. ring.
    - intros o Ho. destruct om as [l|] eqn:Hom.
      + destruct (nonsingular_solvable V (S_of g) HV Hns (m_of (Some l))) as (x & Hx).
        pose proof (fast_outputs_map rt V I O l g pi po negative sol x Hrt Hsi Hrq Hns Hs1 Hx o Ho) as H1.
        pose proof (fast_outputs_map rt' V I O l g pi' po' negative sol' x Hrt' Hsi Hrq Hns Hs2 Hx o Ho) as H2.
        rewrite H1 in H2. pose proof (@sgn_sq K negative) as Hsq.
        transitivity (sgn negative * sgn negative * m_out sol o); [rewrite Hsq; ring|].
        transitivity (sgn negative * (sgn negative * m_out sol o)); [ring|]. rewrite H2.
        transitivity (sgn negative * sgn negative * m_out sol' o); [ring|]. rewrite Hsq. ring.
      + assert (forall rt pi po (s : solution (K := K) (N := N)),
          loop_fast_unstable rt g O I None pi po negative = Ok s -> sol_outputs_map s = None) as Hnone.
        { intros rt0 p1 p2 s. unfold loop_fast_unstable, fast_inverse_solve, unwrap. simpl.
          destruct (if p1 then _ else _); simpl; [|done].
          destruct (if p2 then _ else _); simpl; [|done].
          destruct (fast_simplify _ _ _ _ _); simpl; [|done].
          destruct (mfor _ _ _); simpl; [|done]. by intros [= <-]. }
        unfold m_out. by rewrite (Hnone _ _ _ _ Hs1), (Hnone _ _ _ _ Hs2).
  Qed.
End stmts.

Section purge.
  Context {K : fld} {N : Type} `{Countable N}.

  Lemma purge_reqless_exact (enum : gset N -> list N)
    (pick : gset N -> option N) (start : gset N) (g : graph K N) :
  (forall X, enum X ≡ₚ elements X) ->
  (forall X n, pick X = Some n -> n ∈ X) -> (forall X, pick X = None -> X = ∅) ->
  (forall r s, s ∈ ds_get (g_seq g) r <-> r ∈ ds_get (g_req g) s) ->
  exists g', purge_reqless enum pick start g = Ok g' /\
    (forall r s, s ∈ ds_get (g_seq g') r <->
                 s ∈ ds_get (g_seq g) r /\ reachable (g_seq g) start r) /\
    (forall r s, r ∈ ds_get (g_req g') s <-> s ∈ ds_get (g_seq g') r) /\
    (forall r s, reachable (g_seq g) start r -> g_em g' !! (r, s) = g_em g !! (r, s)).
  Proof.
    intros Henum Hp1 Hp2 Hmir.
    destruct (purge_reqless_ok enum Henum pick Hp1 Hp2 start g Hmir)
      as (A & g' & Hp & HA & Hs & Hr & He & _).
    exists g'. split; [done|]. split_and!.
    - intros r s. specialize (Hs r s). unfold seqs in Hs. rewrite Hs, HA. done.
    - apply Hr.
    - intros r s Hre. apply He. by apply HA.
  Qed.

  Lemma purge_seqless_exact (enum : gset N -> list N)
    (pick : gset N -> option N) (start : gset N) (g : graph K N) :
  (forall X, enum X ≡ₚ elements X) ->
  (forall X n, pick X = Some n -> n ∈ X) -> (forall X, pick X = None -> X = ∅) ->
  (forall r s, s ∈ ds_get (g_seq g) r <-> r ∈ ds_get (g_req g) s) ->
  (forall r s, s ∈ ds_get (g_seq g) r -> s ∈ dom (g_seq g)) ->
  exists g', purge_seqless enum pick start g = Ok g' /\
    (forall r s, s ∈ ds_get (g_seq g') r <->
                 s ∈ ds_get (g_seq g) r /\ reachable (g_req g) start s) /\
    (forall r s, r ∈ ds_get (g_req g') s <-> s ∈ ds_get (g_seq g') r) /\
    (forall r s, reachable (g_req g) start r -> g_em g' !! (r, s) = g_em g !! (r, s)).
  Proof.
    intros Henum Hp1 Hp2 Hmir Hkey.
    destruct (purge_seqless_ok enum Henum pick Hp1 Hp2 start g Hmir)
      as (A & g' & Hp & HA & Hs & Hr & He & _).
    exists g'. split; [done|]. split_and!.
    - intros r s. specialize (Hs r s). unfold seqs in Hs. rewrite Hs. rewrite <- (HA s : _ <-> reachable _ _ _).
      split.
      + intros (Hl & HrA & [?|Hn]); [done|]. exfalso. by apply Hn, (Hkey r).
      + intros (Hl & HsA). split; [done|]. split; [|by left]. apply HA.
        eapply reach_from_closed; [by apply HA|]. by apply Hmir.
    - apply Hr.
    - intros r s Hre. apply He. left. by apply HA.
  Qed.

  Lemma pre_purge_exact (g : graph K N) :
    (forall r s, s ∈ ds_get (g_seq (pre_purge g)) r <->
                 s ∈ ds_get (g_seq g) r /\ is_Some (g_em g !! (r, s))) /\
    (forall r s, r ∈ ds_get (g_req (pre_purge g)) s <->
                 r ∈ ds_get (g_req g) s /\ is_Some (g_em g !! (r, s))) /\
    g_em (pre_purge g) = g_em g /\
    ((forall r s, s ∈ ds_get (g_seq g) r <-> r ∈ ds_get (g_req g) s) ->
     forall r s, s ∈ ds_get (g_seq (pre_purge g)) r <-> r ∈ ds_get (g_req (pre_purge g)) s).
  Proof.
    split_and!.
    - intros r s. exact (proj1 (pre_purge_ok g r s)).
    - intros r s. exact (proj2 (pre_purge_ok g r s)).
    - reflexivity.
    - intros Hmir r s. destruct (pre_purge_ok g r s) as [H1 H2]. unfold seqs, reqs in *.
      rewrite H1, H2, Hmir. done.
  Qed.
End purge.

(** ** concrete instances *)
Definition half : Qc_fld := 1 / (1 + 1).
Definition ex_rt : @runtime Qc_fld nat _ _ :=
  Runtime elements (fun X => head (elements X)) (fun x => bool_decide (x = 1)) (fun _ _ => 0%Z)
    (fun l => match l with [] => None | x :: l => Some (x, l) end).
Definition mk_graph {K : fld} (links : list ((nat * nat) * option K)) : graph K (wnode nat) :=
  fold_left (fun g l => Graph (ds_add (g_seq g) (Nd l.1.1) (Nd l.1.2)) (ds_add (g_req g) (Nd l.1.2) (Nd l.1.1))
                          (match l.2 with Some v => <[(Nd l.1.1, Nd l.1.2) := v]> (g_em g) | None => g_em g end))
            links (Graph ∅ ∅ ∅).
Definition ex_V : list nat := [1; 2; 3; 4]%nat.
Definition ex_g := mk_graph (K := Qc_fld) [((1, 2)%nat, Some 1); ((2, 1)%nat, Some half); ((2, 3)%nat, None); ((4, 2)%nat, Some half)].
Definition ex_bad := mk_graph (K := Qc_fld) [((1, 2)%nat, Some 1); ((2, 1)%nat, Some 1)].
Definition ex_m : list (nat * Qc_fld) := [(1%nat, 1)].

Lemma ex_rt_ok : runtime_ok ex_rt.
Proof.
  split; simpl.
  - done.
  - intros X n Hn. destruct (elements X) as [|a l] eqn:He; [done|]. simpl in Hn. injection Hn as <-.
    apply elem_of_elements. rewrite He. left.
  - intros X Hn. apply set_eq. intros n. rewrite <- elem_of_elements. destruct (elements X); [|done]. set_solver.
  - intros x Hx. by apply bool_decide_eq_true in Hx.
  - intros [|a l] x l'; [done|]. by intros [= <- <-].
  - by intros [|a l].
Qed.

Section mk.
  Context {K : fld}.
  Implicit Types links : list ((nat * nat) * option K).
  Lemma mk_graph_mirror links r s :
    s ∈ ds_get (g_seq (mk_graph links)) r <-> r ∈ ds_get (g_req (mk_graph links)) s.
  Proof.
    unfold mk_graph. assert (forall g0 : graph K (wnode nat),
      (s ∈ ds_get (g_seq g0) r <-> r ∈ ds_get (g_req g0) s) ->
      let g := fold_left (fun g l => Graph (ds_add (g_seq g) (Nd l.1.1) (Nd l.1.2)) (ds_add (g_req g) (Nd l.1.2) (Nd l.1.1))
                          (match l.2 with Some v => <[(Nd l.1.1, Nd l.1.2) := v]> (g_em g) | None => g_em g end))
            links g0 in s ∈ ds_get (g_seq g) r <-> r ∈ ds_get (g_req g) s) as G; [|by apply G].
    induction links as [|[[a b] v] links IH]; intros g0 Hg0; [done|]. simpl. apply IH. simpl.
    rewrite !ds_get_add. destruct (decide (r = Nd a)) as [->|], (decide (s = Nd b)) as [->|];
      rewrite ?elem_of_union, ?elem_of_singleton; naive_solver.
  Qed.
  Lemma mk_graph_links links r s :
    s ∈ ds_get (g_seq (mk_graph links)) r <-> exists a b v, r = Nd a /\ s = Nd b /\ ((a, b), v) ∈ links.
  Proof.
    unfold mk_graph. assert (forall g0 : graph K (wnode nat),
      let g := fold_left (fun g l => Graph (ds_add (g_seq g) (Nd l.1.1) (Nd l.1.2)) (ds_add (g_req g) (Nd l.1.2) (Nd l.1.1))
                          (match l.2 with Some v => <[(Nd l.1.1, Nd l.1.2) := v]> (g_em g) | None => g_em g end))
            links g0 in s ∈ ds_get (g_seq g) r <-> s ∈ ds_get (g_seq g0) r \/
              exists a b v, r = Nd a /\ s = Nd b /\ ((a, b), v) ∈ links) as G.
    { induction links as [|[[a b] v] links IH]; intros g0; simpl; [set_solver|]. rewrite IH. simpl.
      rewrite ds_get_add. destruct (decide (r = Nd a)) as [->|].
      - rewrite elem_of_union, elem_of_singleton. split.
        + intros [[->|?]|(a' & b' & v' & [= ->] & -> & ?)]; [right; eauto 10 using elem_of_list_here|tauto|].
          right. eauto 10 using elem_of_list_further.
        + intros [?|(a' & b' & v' & [= ->] & -> & Hin)]; [tauto|].
          apply elem_of_cons in Hin as [[= -> ->]|?]; [tauto|]. right. eauto 10.
      - split.
        + intros [?|(a' & b' & v' & -> & -> & ?)]; [tauto|]. right. eauto 10 using elem_of_list_further.
        + intros [?|(a' & b' & v' & -> & -> & Hin)]; [tauto|].
          apply elem_of_cons in Hin as [[= -> ->]|?]; [done|]. right. eauto 10. }
    rewrite G. simpl. unfold ds_get. rewrite lookup_empty. set_solver.
  Qed.
  Lemma mk_graph_em links r s : is_Some (g_em (mk_graph links) !! (r, s)) ->
    s ∈ ds_get (g_seq (mk_graph links)) r.
  Proof.
    unfold mk_graph. assert (forall g0 : graph K (wnode nat),
      (is_Some (g_em g0 !! (r, s)) -> s ∈ ds_get (g_seq g0) r) ->
      let g := fold_left (fun g l => Graph (ds_add (g_seq g) (Nd l.1.1) (Nd l.1.2)) (ds_add (g_req g) (Nd l.1.2) (Nd l.1.1))
                          (match l.2 with Some v => <[(Nd l.1.1, Nd l.1.2) := v]> (g_em g) | None => g_em g end))
            links g0 in is_Some (g_em g !! (r, s)) -> s ∈ ds_get (g_seq g) r) as G.
    { induction links as [|[[a b] v] links IH]; intros g0 Hg0; [done|]. simpl. apply IH. simpl.
      rewrite ds_get_add. intros Hs.
      assert ((r = Nd a /\ s = Nd b) \/ is_Some (g_em g0 !! (r, s))) as [[-> ->]|Hs'].
      { destruct v; [|tauto]. apply lookup_insert_is_Some in Hs as [[= <- <-]|[_ ?]]; tauto. }
      - rewrite decide_True by done. set_solver.
      - destruct (decide _) as [->|]; [set_solver|auto]. }
    apply G. simpl. rewrite lookup_empty. by intros [].
  Qed.
  Lemma mk_graph_input V links : NoDup V ->
    (forall a b v, ((a, b), v) ∈ links -> a ∈ V /\ b ∈ V) -> scattering_input V (mk_graph links).
  Proof.
    intros HV Hl. split; [done|apply mk_graph_mirror| |apply mk_graph_em].
    intros r s Hs. apply mk_graph_links in Hs as (a & b & v & -> & -> & Hin). apply Hl in Hin as [].
    eauto 10.
  Qed.
End mk.

Add Field QcF : (f_theory Qc_fld).

Lemma ex_ok : scattering_input ex_V ex_g /\ request_ok ex_V [1; 3]%nat [2; 3]%nat (Some ex_m)
  /\ nonsingular ex_V (S_of ex_g).
Proof.
  split_and!.
  - apply mk_graph_input; [vm_decide|]. intros a b v Hin.
    repeat (apply elem_of_cons in Hin as [[= -> -> ->]|Hin]; [split; vm_decide|]). set_solver.
  - split; simpl; try vm_decide; intros i Hi; unfold ex_V; set_solver.
  - intros x Hx n Hn.
    assert (forall r s, r ∈ ex_V -> s ∈ ex_V -> S_of ex_g r s =
      match r, s with 1%nat, 2%nat => 1 | 2%nat, 1%nat => half | 4%nat, 2%nat => half | _, _ => 0 end) as HS.
    { intros r s Hr Hs. unfold ex_V in Hr, Hs.
      repeat (apply elem_of_cons in Hr as [->|Hr];
        [repeat (apply elem_of_cons in Hs as [->|Hs]; [vm_decide|]); by apply elem_of_nil in Hs|]).
      by apply elem_of_nil in Hr. }
    pose proof (Hx 1%nat ltac:(vm_decide)) as H1. pose proof (Hx 2%nat ltac:(vm_decide)) as H2.
    pose proof (Hx 3%nat ltac:(vm_decide)) as H3. pose proof (Hx 4%nat ltac:(vm_decide)) as H4.
    unfold ex_V in H1, H2, H3, H4. cbn [fsum] in H1, H2, H3, H4. rewrite !HS in H1, H2, H3, H4 by vm_decide.
    assert (x 4%nat = 0) as E4 by (rewrite H4; ring).
    assert (x 3%nat = 0) as E3 by (rewrite H3; ring).
    rewrite E3, E4 in *. clear H3 H4.
    assert (x 1%nat = half * x 2%nat) as E1 by (rewrite H1 at 1; ring).
    assert (x 2%nat = x 1%nat) as E2 by (rewrite H2 at 1; ring).
    assert (x 2%nat = 0) as E2'.
    { rewrite E1 in E2. apply fsub_0_eq.
      assert (half * x 2%nat%nat = 0) as Hh; [|].
      { transitivity (x 2%nat - half * x 2%nat); [unfold half; field; vm_decide|]. rewrite E2 at 1. ring. }
      rewrite E2, Hh. ring. }
    rewrite E2' in E2. rewrite <- E2 in E1.
    repeat (apply elem_of_cons in Hn as [->|Hn]; [done|]). set_solver.
Qed.

Lemma ex_solve : exists sol,
  loop_fast_unstable ex_rt ex_g [2; 3]%nat [1; 3]%nat (Some ex_m) true true false = Ok sol /\
  R_of sol 1%nat 2%nat = (1 + 1 : Qc_fld) /\ m_out sol 2%nat = (1 + 1 : Qc_fld).
Proof.
  destruct (loop_fast_unstable ex_rt ex_g [2; 3]%nat [1; 3]%nat (Some ex_m) true true false) as [sol|e] eqn:He.
  - exists sol. split; [reflexivity|].
    assert (match loop_fast_unstable ex_rt ex_g [2; 3]%nat [1; 3]%nat (Some ex_m) true true false with
            | Ok sol => bool_decide (R_of sol 1%nat 2%nat = 1 + 1) && bool_decide (m_out sol 2%nat = 1 + 1)
            | Err _ => false end = true) as Hc by (vm_compute; reflexivity).
    rewrite He in Hc. apply andb_prop in Hc as [H1%bool_decide_eq_true H2%bool_decide_eq_true]. split; assumption.
  - exfalso. assert (match loop_fast_unstable ex_rt ex_g [2; 3]%nat [1; 3]%nat (Some ex_m) true true false with
            | Ok sol => true | Err _ => false end = true) as Hc by (vm_compute; reflexivity).
    rewrite He in Hc. discriminate Hc.
Qed.

Lemma ex_fail : scattering_input ex_V ex_bad /\
  loop_fast_unstable ex_rt ex_bad [2; 3]%nat [1; 3]%nat None true true false = Err ZeroDivisionError.
Proof.
  split.
  - apply mk_graph_input; [vm_decide|]. intros a b v Hin.
    repeat (apply elem_of_cons in Hin as [[= -> -> ->]|Hin]; [split; vm_decide|]). set_solver.
  - vm_compute. reflexivity.
Qed.

Definition dead_g : graph Qc_fld nat := Graph {[1%nat := {[2%nat]}]} {[2%nat := {[1%nat]}]} ∅.
Lemma purge_seqless_keyless :
  exists (g g' : graph Qc_fld nat) (start : gset nat) (r s : nat),
    (forall r s, s ∈ ds_get (g_seq g) r <-> r ∈ ds_get (g_req g) s) /\
    purge_seqless elements (fun X => head (elements X)) start g = Ok g' /\
    s ∈ ds_get (g_seq g') r /\ ~ reachable (g_req g) start s.
Proof.
  destruct (purge_seqless elements (fun X => head (elements X)) {[1%nat]} dead_g) as [g'|] eqn:Hp.
  - exists dead_g, g', {[1%nat]}, 1%nat, 2%nat. split_and!.
    + intros r s. unfold dead_g, ds_get. simpl.
      destruct (decide (r = 1%nat)) as [->|], (decide (s = 2%nat)) as [->|];
        rewrite ?lookup_singleton, ?lookup_singleton_ne by done; simpl; set_solver.
    + done.
    + assert (match purge_seqless elements (fun X => head (elements X)) {[1%nat]} dead_g with
              | Ok g' => bool_decide (2%nat ∈ ds_get (g_seq g') 1%nat) | Err _ => false end = true) as Hc
        by (vm_compute; reflexivity).
      rewrite Hp in Hc. by apply bool_decide_eq_true in Hc.
    + intros (a & ->%elem_of_singleton & Hr). inversion Hr as [|? b ? Hb]; subst.
      unfold dead_g, ds_get in Hb. simpl in Hb. rewrite lookup_singleton_ne in Hb by done. set_solver.
  - exfalso. assert (match purge_seqless elements (fun X => head (elements X)) {[1%nat]} dead_g with
              | Ok g' => true | Err _ => false end = true) as Hc by (vm_compute; reflexivity).
    rewrite Hp in Hc. discriminate Hc.
Qed.
