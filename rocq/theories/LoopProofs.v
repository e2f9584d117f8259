(** Proofs about sensitivities and loop gains. *)
From stdpp Require Import base tactics list numbers.
From Verif Require Import Fld Herm LinSpec LoopModel LoopSpec.

Section proofs.
  Context {K : fld} {N : Type} `{EqDecision N}.
  Local Open Scope fld_scope.
  Add Field FLo : (f_theory K).
  Context (V I O : list N) (S : N -> N -> K) (R : N -> N -> K).
  Context (HR : is_response V I O (steady_state V S) R) (HI : NoDup I).

  Definition unit_at (i : N) (c : K) (n : N) : K := if decide (n = i) then c else 0.
  Lemma unit_sourced i (c : K) : i ∈ I -> sourced_at I (unit_at i c).
  Proof. intros Hi n Hn. unfold unit_at. destruct (decide _) as [->|]; done. Qed.
  Lemma fsum_unit (f : N -> K) i c : i ∈ I -> fsum (fun n => f n * unit_at i c n) I = f i * c.
  Proof using HI.
    intros Hi. unfold unit_at.
    transitivity (fsum (fun n => if decide (n = i) then f n * c else 0) I).
    { apply fsum_ext. intros n _. destruct (decide _); ring. }
    rewrite (fsum_delta i (fun n => f n * c) I HI). by rewrite decide_True.
  Qed.
  (** the response is what a unit source gives *)
  Lemma resp_unit i o x : i ∈ I -> o ∈ O -> steady_state V S (unit_at i 1) x -> R i o = x o.
  Proof using All.
    intros Hi Ho Hx. destruct HR as [H1 _]. rewrite (H1 _ _ (unit_sourced i 1 Hi) Hx o Ho).
    rewrite (fsum_unit (fun n => R n o)) by done. ring.
  Qed.
  Lemma unit_exists i c : i ∈ I -> exists x, steady_state V S (unit_at i c) x.
  Proof using HR. intros Hi. destruct HR as [_ H2]. apply H2. by apply unit_sourced. Qed.

  Lemma both_unit a b (c : K) n : a <> b -> both a b c n = unit_at a c n + unit_at b c n.
  Proof.
    intros Hab. unfold both, unit_at. destruct (decide (n = a)) as [->|H1].
    - rewrite decide_True by by left. rewrite decide_False by done. ring.
    - destruct (decide (n = b)) as [->|H2]; [rewrite decide_True by (by right); ring|].
      rewrite decide_False by naive_solver. ring.
  Qed.
  Lemma both_sourced a b (c : K) : a ∈ I -> b ∈ I -> sourced_at I (both a b c).
  Proof. intros Ha Hb n Hn. unfold both. rewrite decide_False; [done|]. intros [->| ->]; done. Qed.
  Lemma sensitivity_lem drP drN nP c x : drP <> drN -> drP ∈ I -> drN ∈ I -> nP ∈ O ->
    steady_state V S (both drP drN c) x -> x nP = ac_sensitivity R drP drN nP * c.
  Proof using All.
    intros Hn H1 H2 H3 Hx. destruct HR as [HR1 _].
    rewrite (HR1 _ _ (both_sourced drP drN c H1 H2) Hx nP H3).
    transitivity (fsum (fun i => R i nP * unit_at drP c i + R i nP * unit_at drN c i) I).
    { apply fsum_ext. intros i _. rewrite both_unit by done. ring. }
    rewrite fsum_add, !(fsum_unit (fun i => R i nP)) by done. unfold ac_sensitivity. ring.
  Qed.
  Lemma ratio_lem drP drN dP nP c x : drP <> drN -> drP ∈ I -> drN ∈ I -> nP ∈ O -> dP ∈ O ->
    steady_state V S (both drP drN c) x -> x dP <> 0 -> ac_sensitivityOL R drP drN dP nP = x nP / x dP.
  Proof using All.
    intros Hn H1 H2 H3 H4 Hx H0.
    pose proof (sensitivity_lem drP drN nP c x Hn H1 H2 H3 Hx) as E1.
    pose proof (sensitivity_lem drP drN dP c x Hn H1 H2 H4 Hx) as E2.
    unfold ac_sensitivityOL. fold (ac_sensitivity R drP drN nP) (ac_sensitivity R drP drN dP).
    rewrite E1, E2. rewrite E2 in H0.
    assert (c <> 0) as Hc by (intros ->; apply H0; ring).
    assert (ac_sensitivity R drP drN dP <> 0) as Hs by (intros E; apply H0; rewrite E; ring).
    by field.
  Qed.

  (** without mixing, negative frequencies do not reach positive ones *)
  Lemma unmixed_resp pos i o : unmixed S pos -> i ∈ I -> o ∈ O -> pos i = false -> pos o = true -> R i o = 0.
  Proof using All.
    intros Hm Hi Ho Hpi Hpo. destruct (unit_exists i 1 Hi) as [x Hx].
    set (x' := fun n => if pos n then 0 else x n).
    rewrite (resp_unit i o x' Hi Ho); [unfold x'; by rewrite Hpo|].
    intros s Hs. unfold x' at 1. destruct (pos s) eqn:Ep.
    - unfold unit_at. rewrite decide_False by congruence.
      rewrite fsum_0; [ring|]. intros r _. unfold x'. destruct (pos r) eqn:Er; [ring|].
      destruct (decide (S r s = 0)) as [->|Hne]; [ring|]. apply Hm in Hne. congruence.
    - rewrite (Hx s Hs). f_equal. apply fsum_ext. intros r _. unfold x'. destruct (pos r) eqn:Er; [|done].
      destruct (decide (S r s = 0)) as [->|Hne]; [ring|]. apply Hm in Hne. congruence.
  Qed.
  (** cutting the loops at a node: the response is the held state, divided by one minus what returns *)
  Lemma cut_lem p u : p ∈ V -> p ∈ I -> p ∈ O -> held_at V S p u ->
    1 - arriving V S u p <> 0 /\ forall o, o ∈ O -> R p o = u o / (1 - arriving V S u p).
  Proof using All.
    intros HpV HpI HpO [Hu1 Hu]. set (L := arriving V S u p).
    assert (1 - L <> 0) as HL.
    { intros E. apply (f1_neq_0 (K := K)). rewrite <- Hu1.
      destruct HR as [HR1 _]. rewrite (HR1 (unit_at p 0) u).
      - rewrite (fsum_unit (fun i => R i p)) by done. ring.
      - by apply unit_sourced.
      - intros s Hs. fold (arriving V S u s). unfold unit_at. destruct (decide (s = p)) as [->|Hn].
        + rewrite Hu1. fold L. apply fsub_0_eq. transitivity (1 - L); [ring|done].
        + rewrite (Hu s Hs Hn). ring.
      - done. }
    split; [done|]. intros o Ho.
    rewrite (resp_unit p o (fun n => u n / (1 - L)) HpI Ho); [done|].
    intros s Hs. transitivity (unit_at p 1 s + arriving V S u s / (1 - L)).
    - unfold unit_at. destruct (decide (s = p)) as [->|Hn].
      + rewrite Hu1. fold L. by field.
      + rewrite (Hu s Hs Hn). by field.
    - f_equal. unfold arriving. transitivity (fsum (fun r => S r s * u r) V * (1 / (1 - L))); [by field|].
      rewrite <- fsum_mul_r. apply fsum_ext. intros r _. by field.
  Qed.
  Lemma loop_gain_lem pos pP pN u : unmixed S pos -> pos pP = true -> pos pN = false ->
    pP ∈ V -> pP ∈ I -> pN ∈ I -> pP ∈ O -> held_at V S pP u ->
    clg R pP pN = 1 / (1 - arriving V S u pP) /\ olg R pP pN = - arriving V S u pP.
  Proof using All.
    intros Hm H1 H2 HV HP HN HO Hu. destruct (cut_lem pP u HV HP HO Hu) as [HL HR'].
    assert (clg R pP pN = 1 / (1 - arriving V S u pP)) as E.
    { unfold clg. rewrite (HR' pP HO), (unmixed_resp pos pN pP) by done. destruct Hu as [-> _]. by field. }
    split; [done|]. unfold olg. rewrite E. field. split; [done|apply f1_neq_0].
  Qed.
  Lemma open_loop_lem pos dP dN nP u : unmixed S pos -> pos dP = true -> pos dN = false -> pos nP = true ->
    dP ∈ V -> dP ∈ I -> dN ∈ I -> dP ∈ O -> nP ∈ O -> held_at V S dP u ->
    ac_sensitivityOL R dP dN dP nP = u nP.
  Proof using All.
    intros Hm H1 H2 H3 HV HP HN HO HO' Hu. destruct (cut_lem dP u HV HP HO Hu) as [HL HR'].
    unfold ac_sensitivityOL. rewrite (HR' dP HO), (HR' nP HO'), !(unmixed_resp pos dN) by done.
    destruct Hu as [-> _]. field. split; [done|apply f1_neq_0].
  Qed.
  Lemma plant_lem U drP actP senseP u : NoDup V -> enters_through S U actP -> U drP = false -> U senseP = true ->
    drP ∈ I -> actP ∈ V -> actP ∈ O -> senseP ∈ V -> senseP ∈ O ->
    (forall z, plant_state V S U actP 0 z -> forall s, s ∈ V -> U s = true -> z s = 0) ->
    plant_state V S U actP 1 u -> R drP actP <> 0 -> gplant R drP actP senseP = u senseP.
  Proof using All.
    intros HV [Ha Hin] Hd Hs HdI HaV HaO HsV HsO Huniq Hu H0.
    destruct (unit_exists drP 1 HdI) as [x Hx]. unfold gplant.
    rewrite (resp_unit drP senseP x HdI HsO Hx) in *. rewrite (resp_unit drP actP x HdI HaO Hx) in *.
    assert (plant_state V S U actP (x actP) x) as Hp.
    { intros s HsV' HUs. rewrite (Hx s HsV') at 1. unfold unit_at. rewrite decide_False by congruence.
      rewrite (fsum_split_elem actP) by done. transitivity (S actP s * x actP + fsum (fun r => S r s * x r) (filter (.≠ actP) V)); [ring|].
      f_equal. symmetry. apply fsum_sub_list; [apply _|..].
      - by apply NoDup_filter.
      - by apply NoDup_filter.
      - intros r. rewrite !elem_of_list_filter. intros [E ?]. split; [|done]. intros ->. congruence.
      - intros r. rewrite !elem_of_list_filter. intros [E Hr] Hnu.
        destruct (decide (S r s = 0)) as [->|Hne]; [ring|]. destruct (Hin r s HUs Hne) as [?| ->]; naive_solver. }
    assert (x senseP - x actP * u senseP = 0) as E.
    { apply (Huniq (fun n => x n - x actP * u n)); [|done..].
      intros s HsV' HUs. rewrite (Hp s HsV' HUs), (Hu s HsV' HUs).
      transitivity (fsum (fun r => S r s * x r) (filter (fun r => U r = true) V) - x actP * fsum (fun r => S r s * u r) (filter (fun r => U r = true) V)); [ring|].
      rewrite <- fsum_mul_l, <- fsum_sub.
      transitivity (fsum (fun r => S r s * (x r - x actP * u r)) (filter (fun r => U r = true) V)); [|ring].
      apply fsum_ext. intros r _. ring. }
    apply fsub_0_eq. transitivity ((x senseP - x actP * u senseP) / x actP); [by field|]. rewrite E. by field.
  Qed.
End proofs.
