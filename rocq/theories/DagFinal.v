(** Final lemmas about the LUQ solver: scattering mode, examples, agreement. *)
From Coq Require Import Reals Lra.
From Verif Require Import Fld Py LinSpec LinAlg LinReduce LinIo Herm GraphModel GraphSpec GraphProofs GraphPurge GraphSolve GraphMain GraphFinal.
From Verif Require Import DagModel DagSpec DagElim DagLoops DagPurge DagSolve.
Local Open Scope fld_scope.

Section scatter.
  Context {K : fld} {N : Type} `{Countable N}.
  Add Field FF : (f_theory K).
  Notation W := (wnode N).
  Notation wgraph := (graph K W).
  Context (enum : gset W -> list W) (Henum : forall X, enum X ≡ₚ elements X).

  Lemma dom_add_mem (m : gmap W (gset W)) n v : dom (ds_add m n v) = {[n]} ∪ dom m.
  Proof. unfold ds_add. by rewrite dom_insert_L. Qed.

  Lemma diag_ok (V : list N) (g : wgraph) (Ks : gset W) :
    scattering_input V g -> dom (g_seq g) ∪ dom (g_req g) ⊆ Ks -> Ks = Vs V -> self_valued g ->
    exists g1, mfor dag_diag (enum Ks) g = Ok g1 /\ plain_input V g1 /\
      forall r s, r ∈ V -> s ∈ V -> S_of g1 r s = S_of g r s - (if decide (r = s) then 1 else 0).
  Proof using Henum.
    intros [Hnd Hmir Hnodes Hem] HsubK HKs Hself.
    destruct (mfor_ind dag_diag (fun pre (g1 : wgraph) =>
      (forall r s, s ∈ seqs g1 r <-> s ∈ seqs g r \/ (r = s /\ r ∈ pre)) /\
      (forall r s, r ∈ reqs g1 s <-> r ∈ reqs g s \/ (r = s /\ r ∈ pre)) /\
      (forall r s, g_em g1 !! (r, s) = if decide (r = s /\ r ∈ pre) then Some (default 0 (g_em g !! (r, s)) - 1) else g_em g !! (r, s)) /\
      dom (g_seq g1) = dom (g_seq g) ∪ list_to_set pre /\
      dom (g_req g1) = dom (g_req g) ∪ list_to_set pre) (enum Ks) g) as (g1 & He & I1 & I2 & I3 & I4 & I5).
    - split_and!.
      + intros r s. split; [tauto|]. intros [?|[_ Hx]]; [done|by apply elem_of_nil in Hx].
      + intros r s. split; [tauto|]. intros [?|[_ Hx]]; [done|by apply elem_of_nil in Hx].
      + intros r s. rewrite decide_False; [done|]. intros [_ Hx]. by apply elem_of_nil in Hx.
      + by rewrite list_to_set_nil, union_empty_r_L.
      + by rewrite list_to_set_nil, union_empty_r_L.
    - intros pre a post g1 Hsp (I1 & I2 & I3 & I4 & I5).
      apply enum_split in Hsp as (Ha & Hap & _); [|done].
      assert (forall b, b ∈ pre ++ [a] <-> b ∈ pre \/ b = a) as Happ by (intros; by rewrite elem_of_app, elem_of_list_singleton).
      unfold dag_diag. fold (seqs g1 a). destruct (decide (a ∈ seqs g1 a)) as [Hs|Hs].
      + assert (a ∈ seqs g a) as Hsg by (apply I1 in Hs as [|[_ ?]]; done).
        destruct (Hself a Hsg) as [e He]. unfold d_get. rewrite I3, decide_False, He by tauto. cbn [mbind res_bind].
        eexists; split; [done|]. unfold seqs, reqs. cbn [g_seq g_req g_em]. fold (seqs g1).
        split_and!.
        * intros r s. rewrite (I1 r s), Happ. clear -Hsg. split; [tauto|]. intros [?|[-> [?| ->]]]; tauto.
        * intros r s. fold (reqs g1 s). rewrite (I2 r s), Happ. assert (a ∈ reqs g a) as Hr by (by apply Hmir).
          clear -Hr. split; [tauto|]. intros [?|[-> [?| ->]]]; tauto.
        * intros r s. destruct (decide (r = s /\ r ∈ pre ++ [a])) as [[-> Hr]|Hr].
          -- destruct (decide (s = a)) as [->|Hne].
             ++ rewrite lookup_insert, He. done.
             ++ rewrite lookup_insert_ne by congruence. rewrite I3, decide_True; [done|]. split; [done|].
                apply Happ in Hr as [?| ->]; done.
          -- rewrite Happ in Hr. rewrite lookup_insert_ne by (intros [= -> ->]; tauto). rewrite I3, decide_False; [done|tauto].
        * rewrite I4, list_to_set_app_L. cbn [list_to_set]. assert (a ∈ dom (g_seq g)) as Hd by (by apply (ds_get_dom _ _ a)).
          clear -Hd. set_solver.
        * rewrite I5, list_to_set_app_L. cbn [list_to_set].
          assert (a ∈ dom (g_req g)) as Hd by (apply (ds_get_dom _ _ a); by apply Hmir).
          clear -Hd. set_solver.
      + assert (a ∉ seqs g a) as Hsg by (intros Hx; apply Hs, I1; auto).
        assert (g_em g !! (a, a) = None) as He.
        { destruct (g_em g !! (a, a)) eqn:He; [|done]. exfalso. apply Hsg, Hem. eauto. }
        eexists; split; [done|]. unfold seqs, reqs. cbn [g_seq g_req g_em]. split_and!.
        * intros r s. rewrite ds_get_add, Happ. destruct (decide (r = a)) as [->|Hne].
          -- rewrite elem_of_union, elem_of_singleton. fold (seqs g1 a). rewrite I1. clear. naive_solver.
          -- fold (seqs g1 r). rewrite I1. clear -Hne. naive_solver.
        * intros r s. rewrite ds_get_add, Happ. destruct (decide (s = a)) as [->|Hne].
          -- rewrite elem_of_union, elem_of_singleton. fold (reqs g1 a). rewrite I2. clear. naive_solver.
          -- fold (reqs g1 s). rewrite I2. clear -Hne. naive_solver.
        * intros r s. destruct (decide (r = s /\ r ∈ pre ++ [a])) as [[-> Hr]|Hr].
          -- destruct (decide (s = a)) as [->|Hne].
             ++ rewrite lookup_insert, He. cbn [from_option id]. f_equal. ring.
             ++ rewrite lookup_insert_ne by congruence. rewrite I3, decide_True; [done|]. split; [done|].
                apply Happ in Hr as [?| ->]; done.
          -- rewrite Happ in Hr. rewrite lookup_insert_ne by (intros [= -> ->]; tauto). rewrite I3, decide_False; [done|tauto].
        * rewrite dom_add_mem, I4, list_to_set_app_L. cbn [list_to_set]. clear. set_solver.
        * rewrite dom_add_mem, I5, list_to_set_app_L. cbn [list_to_set]. clear. set_solver.
    - set (ks := enum Ks) in *.
      assert (forall w, w ∈ ks <-> exists n, w = Nd n /\ n ∈ V) as Hks.
      { intros w. unfold ks. rewrite (elem_of_enum enum Henum), HKs. apply in_Vs. }
      assert (forall w, w ∈ dom (g_seq g) \/ w ∈ dom (g_req g) -> w ∈ Vs V) as Hsub.
      { intros w Hw. rewrite <- HKs. apply HsubK. by apply elem_of_union. }
      assert (list_to_set ks = Vs V) as HksV.
      { apply set_eq. intros w. rewrite elem_of_list_to_set, Hks, in_Vs. done. }
      exists g1. split; [done|]. split.
      + split; [split|..].
        * done.
        * intros r s. fold (seqs g1 r) (reqs g1 s). rewrite I1, I2. unfold seqs, reqs. rewrite Hmir. done.
        * intros r s Hl. apply I1 in Hl as [Hl|[-> Hl]]; [by apply Hnodes|].
          apply Hks in Hl as (n & -> & Hn). eauto 10.
        * intros r s Hs. apply I1. rewrite I3 in Hs. destruct (decide _); [tauto|]. left. by apply Hem.
        * rewrite I4, HksV. apply set_eq. intros x. rewrite elem_of_union. split; [intros [?|?]; auto|auto].
        * rewrite I5, HksV. apply set_eq. intros x. rewrite elem_of_union. split; [intros [?|?]; auto|auto].
      + intros r s Hr Hs. unfold S_of. rewrite I3. destruct (decide (r = s)) as [->|Hne].
        * rewrite decide_True by (split; [done|]; apply Hks; eauto). done.
        * rewrite decide_False by (intros [[= ->] _]; done). ring.
  Qed.

  Lemma scatter_ok (V : list N) (g : wgraph) :
    scattering_input V g -> all_keyed V g -> self_valued g ->
    exists g1, dag_scatter enum g = Ok g1 /\ plain_input V g1 /\
      forall r s, r ∈ V -> s ∈ V -> S_of g1 r s = S_of g r s - (if decide (r = s) then 1 else 0).
  Proof using Henum.
    intros Hsi Hkey Hself. apply diag_ok; try done.
    apply set_eq. intros w. rewrite elem_of_union, in_Vs. apply Hkey.
  Qed.

  Lemma keyed_plain (V : list N) (g : wgraph) :
    scattering_input V g ->
    (forall w, w ∈ dom (g_seq g) \/ w ∈ dom (g_req g) -> exists n, w = Nd n /\ n ∈ V) ->
    injective_sys V (S_of g) -> plain_input V g.
  Proof using Type.
    intros Hsi Hk Hi. pose proof Hsi as [Hnd Hmir Hnodes Hem].
    assert (forall m n, S_of g m n <> 0 -> Nd n ∈ ds_get (g_seq g) (Nd m)) as Hlink.
    { intros m n Hnz. apply Hem. unfold S_of in Hnz. destruct (g_em g !! (Nd m, Nd n)); [eauto|done]. }
    split; [done|..]; apply set_eq; intros w; rewrite in_Vs; (split; [intros Hw; apply Hk; auto|]); intros (n & -> & Hn).
    - destruct (decide (Exists (fun m => S_of g n m <> 0) V)) as [He|He].
      + apply Exists_exists in He as (m & Hm & He). apply Hlink in He. by apply ds_get_dom in He.
      + exfalso. apply (@f1_neq_0 K).
        pose (X0 := fun k => if decide (k = n) then 1 else 0 : K).
        assert (X0 n = 0) as Hz; [|unfold X0 in Hz; by rewrite decide_True in Hz].
        apply (Hi X0); [|done]. unfold X0.
        intros k Hkk. apply fsum_0. intros j Hj. destruct (decide (j = n)) as [->|]; [|ring].
        destruct (decide (S_of g n k = 0)) as [->|Hne]; [ring|]. exfalso. apply He, Exists_exists. eauto.
    - destruct (decide (Exists (fun m => S_of g m n <> 0) V)) as [He|He].
      + apply Exists_exists in He as (m & Hm & He). apply Hlink, Hmir in He. by apply ds_get_dom in He.
      + exfalso. apply injective_surjective in Hi; [|done]. destruct (Hi (fun _ => 1)) as (x & Hx).
        apply (@f1_neq_0 K). rewrite <- (Hx n Hn). apply fsum_0. intros j Hj.
        destruct (decide (S_of g j n = 0)) as [->|Hne]; [ring|]. exfalso. apply He, Exists_exists. eauto.
  Qed.
End scatter.

(** from an answer of the reduced system to the user's view *)
Section answer.
  Context {K : fld} {N : Type} `{Countable N}.
  Add Field FF : (f_theory K).
  Notation W := (wnode N).
  Notation wgraph := (graph K W).
  Context (V I O : list N) (om : option (list (N * K))) (Hrq : request_ok V I O om).

  Lemma source_a (u : N -> K) n : sourced_at I u -> source I om u 0 n = u n.
  Proof using Type.
    intros Hu. unfold source. destruct (decide (n ∈ I)); [ring|]. rewrite (Hu n) by done. ring.
  Qed.
  Lemma fsum_sgn (v : K) (R u : N -> K) : fsum (fun i => v * R i * u i) I = v * fsum (fun i => R i * u i) I.
  Proof using Type. rewrite <- fsum_mul_l. apply fsum_ext. intros; ring. Qed.

  Lemma answer_plain (g : wgraph) (neg : bool) sol :
    NoDup V -> injective_sys V (S_of g) -> dag_answer V I O om (S_of g) (if neg then 1 else - (1)) sol ->
    plain_spec V I O om (S_of g) neg sol.
  Proof using Type.
    intros Hnd Hi Hsol.
    assert (forall u x a t, (om = None -> t = 0) -> (forall n, n ∈ V -> source I om a t n = u n) -> solves V (S_of g) u x ->
      forall o, o ∈ O -> x o = sgn neg * (fsum (fun i => R_of sol i o * a i) I + m_out sol o * t)) as Hx.
    { intros u x a t Ht Hu Hx o Ho. specialize (Hsol (fun n => - x n) a t Ht).
      rewrite <- Hsol; [unfold sgn; destruct neg; ring| |done].
      intros n Hn. rewrite Hu by done. rewrite <- (Hx n Hn).
      rewrite (fsum_ext _ (fun m => - (S_of g m n * x m))) by (intros; ring). rewrite fsum_opp. ring. }
    split; [split|].
    - intros u x Hu Hs o Ho. rewrite (Hx u x u 0); try done.
      + rewrite fsum_sgn. ring.
      + intros n Hn. by apply source_a.
    - intros u _. apply injective_surjective in Hi; [|done]. destruct (Hi u) as (x & Hxx). exists x. exact Hxx.
    - intros Hom x Hs o Ho. rewrite (Hx (m_of om) x (fun _ => 0) 1); try done.
      + rewrite fsum_0 by (intros; ring). ring.
      + intros n Hn. unfold source. destruct (decide _); ring.
  Qed.

  Section scat.
    Context (S1 S : N -> N -> K) (HS : forall r s, r ∈ V -> s ∈ V -> S1 r s = S r s - (if decide (r = s) then 1 else 0)).
    Context (Hnd : NoDup V).
    Lemma scat_sum x n : n ∈ V -> fsum (fun m => S1 m n * x m) V = fsum (fun m => S m n * x m) V - x n.
    Proof using HS Hnd.
      intros Hn. rewrite (fsum_ext _ (fun m => S m n * x m - (if decide (m = n) then x m else 0))).
      - rewrite fsum_sub, fsum_delta by done. by rewrite decide_True.
      - intros m Hm. rewrite HS by done. destruct (decide _); ring.
    Qed.
    Lemma scat_inj : nonsingular V S -> injective_sys V S1.
    Proof using HS Hnd.
      intros Hns x Hx. apply Hns. intros n Hn. specialize (Hx n Hn). rewrite scat_sum in Hx by done.
      apply fsub_0_eq in Hx. rewrite <- Hx. ring.
    Qed.
    Lemma answer_scattering (neg : bool) sol :
      nonsingular V S -> dag_answer V I O om S1 (if negb neg then 1 else - (1)) sol ->
      scattering_spec V I O om S neg sol.
    Proof using HS Hnd.
      intros Hns Hsol. pose proof (scat_inj Hns) as Hi.
      assert (forall u x a t, (om = None -> t = 0) -> (forall n, n ∈ V -> source I om a t n = u n) -> steady_state V S u x ->
        forall o, o ∈ O -> x o = sgn neg * (fsum (fun i => R_of sol i o * a i) I + m_out sol o * t)) as Hx.
      { intros u x a t Ht Hu Hx o Ho. specialize (Hsol x a t Ht).
        rewrite <- Hsol; [unfold sgn; destruct neg; simpl; ring| |done].
        intros n Hn. rewrite Hu by done. rewrite scat_sum by done. rewrite (Hx n Hn) at 1. ring. }
      split; [split|].
      - intros u x Hu Hs o Ho. rewrite (Hx u x u 0); try done.
        + rewrite fsum_sgn. ring.
        + intros n Hn. by apply source_a.
      - intros u _. apply injective_surjective in Hi; [|done]. destruct (Hi (fun n => - u n)) as (x & Hxx). exists x.
        intros n Hn. specialize (Hxx n Hn). rewrite scat_sum in Hxx by done.
        transitivity (- (fsum (fun m => S m n * x m) V - x n) + fsum (fun m => S m n * x m) V); [ring|].
        rewrite Hxx. ring.
      - intros Hom x Hs o Ho. rewrite (Hx (m_of om) x (fun _ => 0) 1); try done.
        + rewrite fsum_0 by (intros; ring). ring.
        + intros n Hn. unfold source. destruct (decide _); ring.
    Qed.
  End scat.
End answer.

Section final.
  Context {K : fld} {N : Type} `{Countable N} (h : herm K).
  Notation W := (wnode N).
  Notation wgraph := (graph K W).
  Context (rt : dag_runtime K N) (Hrt : dag_runtime_ok h rt).
  Context (V I O : list N) (om : option (list (N * K))) (Hrq : request_ok V I O om).

  Lemma luq_plain sorted (g : wgraph) pi po neg :
    scattering_input V g ->
    (forall w, w ∈ dom (g_seq g) \/ w ∈ dom (g_req g) -> exists n, w = Nd n /\ n ∈ V) ->
    injective_sys V (S_of g) ->
    (sorted = false -> exists sol, loop_LUQ h rt sorted g O I om pi po neg false = Ok sol) /\
    (forall sol, loop_LUQ h rt sorted g O I om pi po neg false = Ok sol -> plain_spec V I O om (S_of g) neg sol).
  Proof using Hrt Hrq.
    intros Hsi Hk Hi. pose proof (keyed_plain V g Hsi Hk Hi) as Hpl.
    destruct (dag_plain_core h rt Hrt V I O om Hrq sorted g pi po neg Hpl Hi) as [Hex Hsol].
    split; [done|]. intros sol Hs. apply answer_plain; [apply Hsi|done|auto].
  Qed.

  Lemma luq_scatter_unfold sorted g g1 pi po neg :
    dag_scatter (dr_enum rt) g = Ok g1 ->
    loop_LUQ h rt sorted g O I om pi po neg true = loop_LUQ h rt sorted g1 O I om pi po (negb neg) false.
  Proof using Type. intros He. unfold loop_LUQ, dag_inverse_solve. rewrite He. done. Qed.

  Lemma luq_scattering sorted (g : wgraph) pi po neg :
    scattering_input V g -> all_keyed V g -> self_valued g -> nonsingular V (S_of g) ->
    (sorted = false -> exists sol, loop_LUQ h rt sorted g O I om pi po neg true = Ok sol) /\
    (forall sol, loop_LUQ h rt sorted g O I om pi po neg true = Ok sol -> scattering_spec V I O om (S_of g) neg sol).
  Proof using Hrt Hrq.
    intros Hsi Hk Hsv Hns.
    destruct (scatter_ok (dr_enum rt) (dr_enum_ok _ _ Hrt) V g Hsi Hk Hsv) as (g1 & Hg1 & Hpl & HS).
    assert (NoDup V) as Hnd by apply Hsi.
    pose proof (scat_inj V _ _ HS Hnd Hns) as Hi.
    destruct (dag_plain_core h rt Hrt V I O om Hrq sorted g1 pi po (negb neg) Hpl Hi) as [Hex Hsol].
    rewrite (luq_scatter_unfold _ _ _ _ _ _ Hg1). split; [done|]. intros sol Hs.
    apply (answer_scattering V I O om (S_of g1)); [done|done|done|auto].
  Qed.
End final.
