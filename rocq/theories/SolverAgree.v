(** Agreement of the three solvers. *)
From Verif Require Import Fld Py LinSpec LinAlg LinReduce LinIo Herm GraphModel GraphSpec GraphFinal.
From Coq Require Import Reals Lra.
From Verif Require Import DagModel DagSpec DagElim DagPivot DagHouse DagLoops DagPurge DagSolve DagFinal DagExamples SparseModel SparseSpec SparseFinal.
Local Open Scope fld_scope.

Section agree.
  Context {K : fld} {N : Type} `{Countable N}.
  Add Field FF : (f_theory K).
  Notation wgraph := (graph K (wnode N)).
  Context (V I O : list N) (om : option (list (N * K))) (Hrq : request_ok V I O om).

  (** two solutions that predict the same signals *)
  Definition sgn_cancel (neg : bool) (a b : K) : sgn neg * a = sgn neg * b -> a = b.
  Proof.
    intros E. transitivity (sgn neg * (sgn neg * a)).
    - transitivity (sgn neg * sgn neg * a); [rewrite sgn_sq; ring|ring].
    - rewrite E. transitivity (sgn neg * sgn neg * b); [ring|rewrite sgn_sq; ring].
  Qed.
  Lemma spec_agree (sys : (N -> K) -> (N -> K) -> Prop) neg (sol sol' : solution (K := K) (N := N)) :
    (exists x, sys (m_of om) x) ->
    is_response V I O sys (fun i o => sgn neg * R_of sol i o) /\
    (om <> None -> forall x, sys (m_of om) x -> forall o, o ∈ O -> x o = sgn neg * m_out sol o) ->
    is_response V I O sys (fun i o => sgn neg * R_of sol' i o) /\
    (om <> None -> forall x, sys (m_of om) x -> forall o, o ∈ O -> x o = sgn neg * m_out sol' o) ->
    same_answers I O om sol sol'.
  Proof using Hrq.
    intros (x & Hx) [H1 H2] [H3 H4]. split.
    - intros i o Hi Ho. apply (sgn_cancel neg).
      exact (response_unique V I O sys _ _ i o (rq_I _ _ _ _ Hrq) H1 H3 Hi Ho).
    - intros Hom o Ho. apply (sgn_cancel neg). rewrite <- (H2 Hom x Hx o Ho). by apply H4.
  Qed.
  Lemma scattering_agree (S : N -> N -> K) neg sol sol' :
    NoDup V -> nonsingular V S -> scattering_spec V I O om S neg sol -> scattering_spec V I O om S neg sol' ->
    same_answers I O om sol sol'.
  Proof using Hrq.
    intros HV Hns. apply spec_agree. exact (nonsingular_solvable V S HV Hns (m_of om)).
  Qed.
  Lemma plain_agree (S : N -> N -> K) neg sol sol' :
    NoDup V -> injective_sys V S -> plain_spec V I O om S neg sol -> plain_spec V I O om S neg sol' ->
    same_answers I O om sol sol'.
  Proof using Hrq.
    intros HV Hns. apply spec_agree. exact (injective_surjective V S HV Hns (m_of om)).
  Qed.
  Lemma fast_spec (rt : runtime) (g : wgraph) pi po neg sol :
    runtime_ok rt -> scattering_input V g -> nonsingular V (S_of g) ->
    loop_fast_unstable rt g O I om pi po neg = Ok sol -> scattering_spec V I O om (S_of g) neg sol.
  Proof using Hrq.
    intros Hrt Hsi Hns Hs. split.
    - exact (fast_response rt V I O om g pi po neg sol Hrt Hsi Hrq Hns Hs).
    - intros Hom x Hx o Ho. destruct om as [l|]; [|done].
      exact (fast_outputs_map rt V I O l g pi po neg sol x Hrt Hsi Hrq Hns Hs Hx o Ho).
  Qed.

  Context (h : herm K).
  Lemma fast_luq_agree (rt : runtime) (drt : dag_runtime K N) (g : wgraph) sorted pi po pi' po' neg sol sol' :
    runtime_ok rt -> dag_runtime_ok h drt ->
    scattering_input V g -> all_keyed V g -> self_valued g -> nonsingular V (S_of g) ->
    loop_fast_unstable rt g O I om pi po neg = Ok sol ->
    loop_LUQ h drt sorted g O I om pi' po' neg true = Ok sol' -> same_answers I O om sol sol'.
  Proof using Hrq.
    intros Hrt Hdrt Hsi Hk Hsv Hns Hs Hs'.
    apply (scattering_agree (S_of g) neg); [apply Hsi|done|by eapply fast_spec|].
    destruct (luq_scattering h drt Hdrt V I O om Hrq sorted g pi' po' neg Hsi Hk Hsv Hns) as [_ Hl]. auto.
  Qed.
  Lemma fast_sparse_agree (rt : runtime) (srt : sparse_runtime K N) (g : wgraph) pi po pi' po' neg sol sol' :
    runtime_ok rt -> sparse_runtime_ok srt ->
    scattering_input V g -> all_mentioned V I O om g -> self_valued g -> nonsingular V (S_of g) ->
    loop_fast_unstable rt g O I om pi po neg = Ok sol ->
    scisparse srt g O I om pi' po' neg true = Ok sol' -> same_answers I O om sol sol'.
  Proof using Hrq.
    intros Hrt Hdrt Hsi Hk Hsv Hns Hs Hs'.
    apply (scattering_agree (S_of g) neg); [apply Hsi|done|by eapply fast_spec|].
    destruct (sp_scattering srt Hdrt V I O om Hrq g pi' po' neg Hsi Hk Hsv Hns) as [_ Hl]. auto.
  Qed.
  Lemma luq_sparse_plain_agree (drt : dag_runtime K N) (srt : sparse_runtime K N) (g : wgraph) sorted pi po pi' po' neg sol sol' :
    dag_runtime_ok h drt -> sparse_runtime_ok srt ->
    scattering_input V g ->
    (forall w, w ∈ dom (g_seq g) \/ w ∈ dom (g_req g) -> exists n, w = Nd n /\ n ∈ V) ->
    injective_sys V (S_of g) ->
    loop_LUQ h drt sorted g O I om pi po neg false = Ok sol ->
    scisparse srt g O I om pi' po' neg false = Ok sol' -> same_answers I O om sol sol'.
  Proof using Hrq.
    intros Hrt Hdrt Hsi Hk Hns Hs Hs'.
    apply (plain_agree (S_of g) neg); [apply Hsi|done|..].
    - destruct (luq_plain h drt Hrt V I O om Hrq sorted g pi po neg Hsi Hk Hns) as [_ Hl]. auto.
    - destruct (sp_plain srt Hdrt V I O om Hrq g pi' po' neg Hsi Hk Hns) as [_ Hl]. auto.
  Qed.
  Lemma luq_order_independent (drt drt' : dag_runtime K N) (g : wgraph) sorted sorted' pi po pi' po' neg sol sol' :
    dag_runtime_ok h drt -> dag_runtime_ok h drt' ->
    scattering_input V g -> all_keyed V g -> self_valued g -> nonsingular V (S_of g) ->
    loop_LUQ h drt sorted g O I om pi po neg true = Ok sol ->
    loop_LUQ h drt' sorted' g O I om pi' po' neg true = Ok sol' -> same_answers I O om sol sol'.
  Proof using Hrq.
    intros Hrt Hdrt Hsi Hk Hsv Hns Hs Hs'.
    apply (scattering_agree (S_of g) neg); [apply Hsi|done|..].
    - destruct (luq_scattering h drt Hrt V I O om Hrq sorted g pi po neg Hsi Hk Hsv Hns) as [_ Hl]. auto.
    - destruct (luq_scattering h drt' Hdrt V I O om Hrq sorted' g pi' po' neg Hsi Hk Hsv Hns) as [_ Hl]. auto.
  Qed.
End agree.

(** ** the operations as changes of input/output behaviour *)
Section ops.
  Context {K : fld} {N : Type} `{Countable N}.
  Notation srabe := (srabe K N).
  Context (enum : gset N -> list N) (Henum : forall X, enum X ≡ₚ elements X).
  Implicit Types V A B : gset N.
  Lemma io_same A B V (s : srabe) V' (s' : srabe) : V ## A -> V' ## A ->
    io_equiv A B V (qe s) V' (qe s') -> same_io A B V s V' s'.
  Proof using Type. intros H1 H2 Hio u y. by apply io_equiv_rel. Qed.

  Lemma lu_same V A B (s : srabe) inv v :
    dinv V A B s -> v ∈ V -> is_Some (q_em s !! (v, v)) -> qe s v v <> 0 ->
    exists s' inv', reduce_lu enum v (s, inv) = Ok (s', inv') /\ dinv (V ∖ {[v]}) A B s' /\
      same_io A B V s (V ∖ {[v]}) s'.
  Proof using Henum.
    intros Hd Hv Hs Hnz. destruct (lu_io enum Henum V A B s inv v Hd Hv Hs Hnz) as (s' & inv' & He & Hd' & Hio & _).
    exists s', inv'. split_and!; [done|done|]. apply io_same; [apply Hd|apply Hd'|done].
  Qed.
  Lemma lu_same' V A B (s : srabe) inv v st :
    dinv V A B s -> reduce_lu enum v (s, inv) = Ok st ->
    v ∈ V /\ qe s v v <> 0 /\ dinv (V ∖ {[v]}) A B st.1 /\ same_io A B V s (V ∖ {[v]}) st.1.
  Proof using Henum.
    intros Hd He. destruct (lu_io' enum Henum V A B s inv v st Hd He) as (Hv & Hd' & Hio).
    split_and!; [done| |done|].
    - unfold reduce_lu in He. unfold qe, d_get in *. cbn [fst] in He. destruct (q_em s !! (v, v)) as [e|]; [|done].
      cbn [mbind res_bind from_option id] in *. by destruct (decide (e = 0)).
    - apply io_same; [apply Hd|apply Hd'|done].
  Qed.
  Lemma pivot_same V A B (s : srabe) inv a b :
    dinv V A B s -> a ∈ V -> b ∈ V -> a <> b ->
    (exists s' inv', pivot_col enum a b (s, inv) = Ok (s', inv') /\ dinv V A B s' /\ same_io A B V s V s' /\
       forall m n, m ∈ V ∪ A -> n ∈ V ∪ B -> qe s' m n = qe s (swap a b m) n) /\
    (exists s' inv', pivot_row enum a b (s, inv) = Ok (s', inv') /\ dinv V A B s' /\ same_io A B V s V s' /\
       forall m n, m ∈ V ∪ A -> n ∈ V ∪ B -> qe s' m n = qe s m (swap a b n)).
  Proof using Henum.
    intros Hd Ha Hb Hab. split.
    - destruct (pivot_io enum Henum V A B s inv a b Hd Ha Hb Hab) as (s' & inv' & He & Hd' & Hio & _ & Hem).
      exists s', inv'. split_and!; [done|done| |].
      + apply io_same; [apply Hd|apply Hd|done].
      + intros m n Hm Hn. unfold qe. by rewrite Hem.
    - destruct (pivot_row_io enum Henum V A B s inv a b Hd Ha Hb Hab) as (s' & inv' & He & Hd' & Hio & Hem).
      exists s', inv'. split_and!; [done|done| |done]. apply io_same; [apply Hd|apply Hd|done].
  Qed.
  Lemma house_same (h : herm K) V A B (s : srabe) into from :
    dinv V A B s -> into ∈ V -> into ∉ from -> NoDup from ->
    is_Some (q_em s !! (into, into)) -> qe s into into <> 0 ->
    ((forall k, k ∈ from -> k ∈ V /\ is_Some (q_em s !! (k, into))) ->
     exists s', householder_row enum (h_conj h) (h_sqrt h) (h_abs h) into from s = Ok s' /\
       dinv V A B s' /\ same_io A B V s V s' /\ (forall k, k ∈ from -> qe s' k into = 0) /\ qe s' into into <> 0) /\
    ((forall k, k ∈ from -> k ∈ V /\ is_Some (q_em s !! (into, k))) ->
     exists s', householder_col enum (h_conj h) (h_sqrt h) (h_abs h) into from s = Ok s' /\
       dinv V A B s' /\ same_io A B V s V s' /\ (forall k, k ∈ from -> qe s' into k = 0) /\ qe s' into into <> 0).
  Proof using Henum.
    intros Hd Hi Hnf Hnd Hs Hnz. split; intros Hf.
    - destruct (house_io enum Henum h V A B s into from Hd Hi Hnf Hnd Hf Hs Hnz) as (s' & He & Hd' & Hio & Hz & _ & Hnz').
      exists s'. split_and!; try done; [apply io_same; [apply Hd|apply Hd|done]|].
      intros k Hk. unfold qe. by rewrite Hz.
    - destruct (house_col_io enum Henum h V A B s into from Hd Hi Hnf Hnd Hf Hs Hnz) as (s' & He & Hd' & Hio & Hz & _ & Hnz').
      exists s'. split_and!; try done; [apply io_same; [apply Hd|apply Hd|done]|].
      intros k Hk. unfold qe. by rewrite Hz.
  Qed.
End ops.

(** a consistent system with two live nodes, all four entries stored *)
Lemma exC_sys : exists (V A B : gset (wnode nat)) (s : srabe C_fld (wnode nat)),
  dinv V A B s /\ Nd 1%nat ∈ V /\ Nd 2%nat ∈ V /\ A <> ∅ /\ B <> ∅ /\
  is_Some (q_em s !! (Nd 1%nat, Nd 1%nat)) /\ qe s (Nd 1%nat) (Nd 1%nat) <> 0 /\
  is_Some (q_em s !! (Nd 2%nat, Nd 1%nat)) /\ is_Some (q_em s !! (Nd 1%nat, Nd 2%nat)).
Proof.
  destruct exC_ok as (Hsi & Hk & Hsv & Hrq & Hns).
  destruct (scatter_ok elements (fun X => reflexivity (elements X)) [1; 2]%nat exC_g Hsi Hk Hsv) as (g1 & Hg1 & Hpl & HS).
  pose proof (dress_fresh [1; 2]%nat [1]%nat [2]%nat (Some [(1%nat, 1)]) Hrq false g1 Hpl) as Hf.
  destruct (dress_spec [1; 2]%nat [1]%nat [2]%nat (Some [(1%nat, 1)]) Hrq false g1 Hpl) as (_ & _ & _ & _ & _ & _ & Hem & _).
  set (s := dag_dress (pre_purge g1) [2]%nat [1]%nat (Some [(1%nat, 1)]) false) in *.
  assert (forall r t, r ∈ [1; 2]%nat -> t ∈ [1; 2]%nat -> S_of g1 r t <> 0 -> is_Some (q_em s !! (Nd r, Nd t))) as Hsm.
  { intros r t _ _. rewrite Hem. unfold S_of. destruct (g_em g1 !! _); [eauto|done]. }
  assert (S_of g1 1%nat 1%nat = - (1) /\ S_of g1 2%nat 1%nat = exC_half /\ S_of g1 1%nat 2%nat = 1) as (E1 & E2 & E3).
  { rewrite !HS by vm_decide. rewrite decide_True, !decide_False by done.
    assert (S_of exC_g 1%nat 1%nat = 0 /\ S_of exC_g 1%nat 2%nat = 1 /\ S_of exC_g 2%nat 1%nat = exC_half) as (F1 & F2 & F3) by done.
    rewrite F1, F2, F3. split_and!; ring. }
  assert ((- (1) : C_fld) <> 0) as Hm1.
  { intros Hz. apply (@f1_neq_0 C_fld). transitivity (- - (1) : C_fld); [ring|]. rewrite Hz. ring. }
  assert (exC_half <> 0) as Hh.
  { unfold exC_half. intros [= Hz]. assert (/ 2 <> 0)%R; [apply Rinv_neq_0_compat; lra|done]. }
  exists (Vs [1; 2]%nat), (As [1]%nat), (Bs [2]%nat), s. split_and!.
  - apply Hf.
  - apply in_Vs. exists 1%nat. split; [done|]. vm_decide.
  - apply in_Vs. exists 2%nat. split; [done|]. vm_decide.
  - intros He. assert (WVac ∈ As [1]%nat) as Hx by (apply in_As; by left). rewrite He in Hx. by apply elem_of_empty in Hx.
  - intros He. assert (WOut 2%nat ∈ Bs [2]%nat) as Hx by (apply in_Bs; exists 2%nat; split; [done|left]). rewrite He in Hx. by apply elem_of_empty in Hx.
  - apply Hsm; [vm_decide..|]. by rewrite E1.
  - unfold qe. rewrite Hem. fold (S_of g1 1%nat 1%nat). by rewrite E1.
  - apply Hsm; [vm_decide..|]. by rewrite E2.
  - apply Hsm; [vm_decide..|]. rewrite E3. apply f1_neq_0.
Qed.
