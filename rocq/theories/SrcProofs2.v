(** Proofs about sources: vacuum fluctuations at a photodiode. *)
From Coq Require Import Reals Lra.
From stdpp Require Import base tactics numbers gmap.
From Verif Require Import Fld Py Herm ElecModel ElecProofs InjModel InjSpec OptModel OptRot SigModel SigSpec SigProofs PdModel PdSpec PdProofs PdProofs2 PdProofs3 PdFinal NoiModel NoiSpec NoiFinal SrcModel SrcSpec SrcProofs.
From stdpp Require Import list.
Local Open Scope fld_scope.

Add Field FSrc2 : (f_theory C_fld).
Section shot.
  Context {P A Q : Type} `{Countable P} `{Countable A} `{Countable Q}.
  Context (qadd : Q -> Q -> Q) (qneg : Q -> Q) (q0 : Q) (Hz : Q -> R) (HF : frequencies qadd qneg q0 Hz).
  Context (reject : Q -> bool).
  Notation mode := (A * Q)%type.
  Notation node := (P * key A Q)%type.
  Implicit Types (ms : list mode) (x : gmap node C_fld) (d : node -> C_fld).

  Lemma resp_lin (r : list (InjModel.inj C_fld P (key A Q))) x d1 d2 (a b : C_fld) n :
    response r x (fun k => a * d1 k + b * d2 k) n = a * response r x d1 n + b * response r x d2 n.
  Proof.
    unfold response. rewrite <- !fsum_mul_l, <- fsum_add. apply fsum_ext. intros j _. rewrite <- !fsum_mul_l, <- fsum_add. apply fsum_ext. intros e _.
    destruct (decide _); ring.
  Qed.
  Lemma resp_ext (r : list (InjModel.inj C_fld P (key A Q))) x d1 d2 n : (forall k, d1 k = d2 k) -> response r x d1 n = response r x d2 n.
  Proof. intros E. unfold response. apply fsum_ext. intros j _. apply fsum_ext. intros e _. by rewrite E. Qed.
  (** the response to light in one mode, of any amplitude with its conjugate *)
  Lemma resp_pair fr w ba x ms ks wks baks r (d : mode -> C_fld) F :
    shines (field x) fr ms -> (forall m, m ∉ ms -> d m = 0) -> (forall m, m ∈ ms -> reject m.2 = false) ->
    NoDup wks -> F ∈ wks -> F <> q0 -> both ms ks -> pd qadd qneg reject fr w ba ks wks baks = Ok r ->
    forall dd : node -> C_fld, (forall m, dd (fr, opt true m.1 m.2) = d m) -> (forall m, dd (fr, opt false m.1 m.2) = cconj (d m)) ->
    response r x dd (w, cls F) = D qadd ms (lower_at (field x) fr) d F + D qadd ms d (lower_at (field x) fr) F.
  Proof.
    intros [Hnd Helse Hconj] Hd Hr Hw HFw HF0 Hb E dd G1 G2. rewrite pd_fills in E. rewrite response_eq.
    rewrite (signal_at qadd qneg q0 Hz HF reject _ fr w _ ms ks wks None None 1 1 (fun _ => ci) (fun _ => - ci) 1 1 true (lower_at (field x) fr) d r F (res_signals x dd fr w F)); try done.
    - rewrite decide_True by done. unfold cF. rewrite decide_False by done. ring.
    - intros o f f'. cbn [negb]. rewrite (G1 (o, f') : dd (fr, opt true o f') = _). f_equal. exact (Hconj (o, f)).
    - intros o f f'. cbn [negb]. by rewrite (G2 (o, f') : dd (fr, opt false o f') = _).
  Qed.
  Definition dl (m m' : mode) : C_fld := if decide (m' = m) then 1 else 0.
  Lemma D_left ms a m F : NoDup ms -> m ∈ ms -> (forall m, m ∉ ms -> a m = 0) -> D qadd ms a (dl m) F = cconj (a (m.1, qadd m.2 (qneg F))).
  Proof.
    intros Hn Hm Ha. unfold D. transitivity (fsum (fun m' => if decide (m' = (m.1, qadd m.2 (qneg F))) then cconj (a m') else 0) ms).
    - apply fsum_ext. intros m' Hm'. unfold dl.
      transitivity (fsum (fun m'' => if decide (m'' = m) then if decide (m'' = (m'.1, qadd m'.2 F)) then cconj (a m') else 0 else 0) ms).
      { apply fsum_ext. intros m'' _. destruct (decide (m'' = (m'.1, _))), (decide (m'' = m)); ring. }
      rewrite fsum_delta, decide_True by done.
      destruct m as [o f], m' as [o' f']. cbn [fst snd]. destruct (decide ((o, f) = (o', qadd f' F))) as [E|N], (decide ((o', f') = (o, qadd f (qneg F)))) as [E'|N']; try done.
      + exfalso. apply N'. injection E as -> ->. by rewrite (fq_back _ _ _ _ HF).
      + exfalso. apply N. injection E' as -> ->. by rewrite (fq_forth _ _ _ _ HF).
    - rewrite fsum_delta by done. destruct (decide (_ ∈ ms)) as [|N]; [done|]. rewrite Ha by done. symmetry. exact (conj_0 C_herm).
  Qed.
  Lemma D_right ms a m F : NoDup ms -> m ∈ ms -> (forall m, m ∉ ms -> a m = 0) -> D qadd ms (dl m) a F = a (m.1, qadd m.2 F).
  Proof.
    intros Hn Hm Ha. unfold D.
    transitivity (fsum (fun m' => if decide (m' = m) then fsum (fun m'' => if decide (m'' = (m'.1, qadd m'.2 F)) then a m'' else 0) ms else 0) ms).
    - apply fsum_ext. intros m' _. unfold dl. destruct (decide (m' = m)).
      + apply fsum_ext. intros m'' _. rewrite cconj_1. destruct (decide _); ring.
      + apply fsum_0. intros m'' _. rewrite (conj_0 C_herm : cconj 0 = 0). destruct (decide _); ring.
    - rewrite fsum_delta, decide_True by done. rewrite fsum_delta by done. destruct (decide (_ ∈ ms)) as [|N]; [done|]. by rewrite Ha.
  Qed.
  Lemma D_scale ms (a d : mode -> C_fld) (c : C_fld) F : D qadd ms a (fun m => c * d m) F = c * D qadd ms a d F /\ D qadd ms (fun m => c * a m) d F = cconj c * D qadd ms a d F.
  Proof.
    unfold D. split; rewrite <- fsum_mul_l; apply fsum_ext; intros m _; rewrite <- fsum_mul_l; apply fsum_ext; intros m' _; destruct (decide _); rewrite ?cconj_mul; ring.
  Qed.
  Lemma resp_unit fr w ba x ms ks wks baks r m F :
    shines (field x) fr ms -> (forall m, m ∈ ms -> reject m.2 = false) -> m ∈ ms ->
    NoDup wks -> F ∈ wks -> F <> q0 -> both ms ks -> pd qadd qneg reject fr w ba ks wks baks = Ok r ->
    response r x (unit_at (fr, opt true m.1 m.2)) (w, cls F) = cconj (lower_at (field x) fr (m.1, qadd m.2 (qneg F))) /\
    response r x (unit_at (fr, opt false m.1 m.2)) (w, cls F) = lower_at (field x) fr (m.1, qadd m.2 F).
  Proof.
    intros Hs Hr Hm Hw HFw HF0 Hb E. pose proof (sh_modes _ _ _ Hs) as Hnd. pose proof (sh_else _ _ _ Hs) as Helse.
    set (L := unit_at (fr, opt true m.1 m.2)). set (U := unit_at (fr, opt false m.1 m.2)).
    assert (HL : forall l m', L (fr, opt l m'.1 m'.2) = if l then dl m m' else 0).
    { intros l [o f]. unfold L, unit_at, dl, opt. destruct m as [o' f']. cbn [fst snd]. destruct l; [|by rewrite decide_False by congruence].
      destruct (decide ((o, f) = (o', f'))) as [E'|N]; [injection E' as -> ->; by rewrite decide_True|rewrite decide_False by congruence; done]. }
    assert (HU : forall l m', U (fr, opt l m'.1 m'.2) = if l then 0 else dl m m').
    { intros l [o f]. unfold U, unit_at, dl, opt. destruct m as [o' f']. cbn [fst snd]. destruct l; [by rewrite decide_False by congruence|].
      destruct (decide ((o, f) = (o', f'))) as [E'|N]; [injection E' as -> ->; by rewrite decide_True|rewrite decide_False by congruence; done]. }
    assert (Hdl : forall m', cconj (dl m m') = dl m m') by (intros m'; unfold dl; destruct (decide _); [apply cconj_1|exact (conj_0 C_herm)]).
    assert (Hd0 : forall m', m' ∉ ms -> dl m m' = 0) by (intros m' N; unfold dl; rewrite decide_False by (by intros ->); done).
    set (a := lower_at (field x) fr) in *.
    assert (R1 : response r x L (w, cls F) + response r x U (w, cls F) = D qadd ms a (dl m) F + D qadd ms (dl m) a F).
    { refine (eq_trans _ (resp_pair fr w ba x ms ks wks baks r (dl m) F Hs Hd0 Hr Hw HFw HF0 Hb E (fun k => 1 * L k + 1 * U k) _ _)).
      - rewrite resp_lin. ring.
      - intros m'. rewrite HL, HU. ring.
      - intros m'. rewrite HL, HU, Hdl. ring. }
    assert (R2 : ci * response r x L (w, cls F) + - ci * response r x U (w, cls F) = ci * D qadd ms a (dl m) F + - ci * D qadd ms (dl m) a F).
    { destruct (D_scale ms a (dl m) ci F) as [S1 _]. destruct (D_scale ms (dl m) a ci F) as [_ S2]. rewrite cconj_ci in S2. rewrite <- S1, <- S2.
      assert (Hd1 : forall m', m' ∉ ms -> ci * dl m m' = 0) by (intros m' N; rewrite Hd0 by done; ring).
      refine (eq_trans _ (resp_pair fr w ba x ms ks wks baks r (fun m' => ci * dl m m') F Hs Hd1 Hr Hw HFw HF0 Hb E (fun k => ci * L k + - ci * U k) _ _)).
      - by rewrite resp_lin.
      - intros m'. rewrite HL, HU. ring.
      - intros m'. rewrite HL, HU, cconj_mul, cconj_ci, Hdl. ring. }
    rewrite (D_left ms a m F Hnd Hm Helse), (D_right ms a m F Hnd Hm Helse) in R1, R2.
    assert (Hc : ci * ci = - (1)) by apply ci_sq.
    assert (R3 : response r x L (w, cls F) - response r x U (w, cls F) = cconj (a (m.1, qadd m.2 (qneg F))) - a (m.1, qadd m.2 F)).
    { apply (f_equal (fun z => - ci * z)) in R2.
      transitivity (- (ci * ci) * (response r x L (w, cls F) - response r x U (w, cls F))); [rewrite Hc; ring|].
      transitivity (- (ci * ci) * (cconj (a (m.1, qadd m.2 (qneg F))) - a (m.1, qadd m.2 F))); [|rewrite Hc; ring].
      transitivity (- ci * (ci * response r x L (w, cls F) + - ci * response r x U (w, cls F))); [ring|]. rewrite R2. ring. }
    pose proof two_neq as Htw. split.
    - transitivity (1 / (1 + 1) * ((response r x L (w, cls F) + response r x U (w, cls F)) + (response r x L (w, cls F) - response r x U (w, cls F)))); [field; done|].
      rewrite R1, R3. field. done.
    - transitivity (1 / (1 + 1) * ((response r x L (w, cls F) + response r x U (w, cls F)) - (response r x L (w, cls F) - response r x U (w, cls F)))); [field; done|].
      rewrite R1, R3. field. done.
  Qed.
  (** moving a sum over the modes to the sidebands *)
  Lemma shift_sum ms (g : mode -> C_fld) F : NoDup ms -> (forall m, m ∉ ms -> g m = 0) -> (forall m, m ∈ ms -> g m = 0 \/ (m.1, qadd m.2 F) ∈ ms) ->
    fsum (fun m => g (m.1, qadd m.2 (qneg F))) ms = fsum g ms.
  Proof.
    intros Hn Hg Hs.
    transitivity (fsum (fun m => fsum (fun m' => if decide (m' = (m.1, qadd m.2 (qneg F))) then g m' else 0) ms) ms).
    { apply fsum_ext. intros m _. rewrite fsum_delta by done. destruct (decide _) as [|N]; [done|]. by apply Hg. }
    rewrite fsum_swap. apply fsum_ext. intros m' Hm'.
    transitivity (fsum (fun m => if decide (m = (m'.1, qadd m'.2 F)) then g m' else 0) ms).
    { apply fsum_ext. intros m _. destruct m as [o f], m' as [o' f']. cbn [fst snd].
      destruct (decide ((o', f') = (o, _))) as [E|N], (decide ((o, f) = (o', _))) as [E'|N']; try done.
      - exfalso. apply N'. injection E as -> ->. by rewrite (fq_forth _ _ _ _ HF).
      - exfalso. apply N. injection E' as -> ->. by rewrite (fq_back _ _ _ _ HF). }
    rewrite (fsum_delta _ (fun _ => g m')) by done. destruct (decide _) as [|N]; [done|]. destruct (Hs m' Hm') as [E|E]; done.
  Qed.
End shot.
