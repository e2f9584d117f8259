(** Proofs of the theorems of PdProps.v. *)
From stdpp Require Import base tactics numbers gmap sets list.
From Coq Require Import Reals Lra.
From Verif Require Import Fld Py Herm ElecModel InjModel InjSpec OptModel SigModel SigSpec SigProofs NoiProofs3 PdModel PdSpec PdProofs PdProofs2 PdProofs3.
Local Open Scope fld_scope.
Add Field FCPdF : (f_theory C_fld).

Lemma pd_fills {P A Q} `{Countable P} `{Countable A} `{Countable Q} (qadd : Q -> Q -> Q) qneg reject (fr wpd ba : P) (ks : list (bool * A * Q)) wks baks :
  pd qadd qneg reject fr wpd ba ks wks baks =
  each (fun k => modulations_fill qadd qneg reject fr k None None (Some (wpd, wks)) 1 1 ci (- ci) 1 1 true) ks.
Proof. reflexivity. Qed.
Lemma two_inv : (1 * 1 + 1 * 1) / two_c = (1 : C_fld).
Proof. unfold two_c. field. apply two_c_neq_0. Qed.

Lemma C74_power_lem {P A Q} `{Countable P} `{Countable A} `{Countable Q} qadd qneg q0 Hz reject x (fr wpd ba : P) (ms : list (A * Q)) os ks wks baks r t :
  frequencies qadd qneg q0 Hz -> shines x fr ms -> carriers os ms -> both ms ks -> (forall m, m ∈ ms -> reject m.2 = false) ->
  signal_keys qneg wks -> differences qadd qneg (dark x fr) (dark x fr) ms wks ->
  pd qadd qneg reject fr wpd ba ks wks baks = Ok r ->
  wave q0 Hz wks (fun F => arrives r x (wpd, cls F)) t = intensity Hz os ms (lower_at x fr) t.
Proof.
  intros HF Hs Hc Hb Hr [Hw _] Hd E. rewrite pd_fills in E.
  rewrite (out_wave qadd qneg q0 Hz HF reject x fr wpd ms os ks wks None None 1 1 (fun _ => ci) (fun _ => - ci) 1 1 true r t Hs Hc Hb Hr Hw Logic.I Hd E), two_inv. ring.
Qed.
Lemma C74_mean_lem {P A Q} `{Countable P} `{Countable A} `{Countable Q} qadd qneg q0 Hz reject x (fr wpd ba : P) (ms : list (A * Q)) ks wks baks r :
  frequencies qadd qneg q0 Hz -> shines x fr ms -> both ms ks -> (forall m, m ∈ ms -> reject m.2 = false) ->
  signal_keys qneg wks -> q0 ∈ wks ->
  pd qadd qneg reject fr wpd ba ks wks baks = Ok r ->
  arrives r x (wpd, cls q0) = fsum (fun m => lower_at x fr m * cconj (lower_at x fr m)) ms.
Proof.
  intros HF Hs Hb Hr [Hw _] Hd E. rewrite pd_fills in E.
  rewrite (out_mean qadd qneg q0 Hz HF reject x fr wpd ms ks wks None None 1 1 (fun _ => ci) (fun _ => - ci) 1 1 true r Hs Hb Hr Hw Logic.I Hd E), two_inv. ring.
Qed.
Lemma C74_spectrum_lem {P A Q} `{Countable P} `{Countable A} `{Countable Q} qadd qneg q0 Hz reject x (fr wpd ba : P) (ms : list (A * Q)) ks wks baks r F :
  frequencies qadd qneg q0 Hz -> shines x fr ms -> both ms ks -> (forall m, m ∈ ms -> reject m.2 = false) ->
  signal_keys qneg wks -> F ∈ wks -> pd qadd qneg reject fr wpd ba ks wks baks = Ok r ->
  arrives r x (wpd, cls F) = (if decide (F = q0) then 1 else 1 + 1) * beat_note qadd ms (lower_at x fr) F.
Proof.
  intros HF Hs Hb Hr [Hw _] Hd E. rewrite pd_fills in E.
  rewrite (out_note qadd qneg q0 Hz HF reject x fr wpd ms ks wks None None 1 1 (fun _ => ci) (fun _ => - ci) 1 1 true r F Hs Hb Hr Hw Logic.I Hd E), two_inv. unfold two_c. ring.
Qed.
Lemma C74_response_lem {P A Q} `{Countable P} `{Countable A} `{Countable Q} qadd qneg q0 Hz reject x d (fr wpd ba : P) (ms : list (A * Q)) os ks wks baks r t :
  frequencies qadd qneg q0 Hz -> shines (field x) fr ms -> shines d fr ms -> carriers os ms -> both ms ks -> (forall m, m ∈ ms -> reject m.2 = false) ->
  signal_keys qneg wks -> differences qadd qneg (dark (field x) fr) (dark d fr) ms wks ->
  (forall m, lower_at (field x) fr m = 0 \/ lower_at d fr m = 0) ->
  pd qadd qneg reject fr wpd ba ks wks baks = Ok r ->
  plain Hz wks (fun F => response r x d (wpd, cls F)) t =
  beat Hz os ms (lower_at d fr) (lower_at (field x) fr) t + beat Hz os ms (lower_at (field x) fr) (lower_at d fr) t.
Proof.
  intros HF Hs Hs' Hc Hb Hr Hk Hd Hdis E. rewrite pd_fills in E. pose proof (proj1 Hk) as Hw.
  rewrite (out_response qadd qneg q0 Hz HF reject x d fr wpd ms os ks wks None None 1 1 (fun _ => ci) (fun _ => - ci) 1 1 true r t Hs Hs' Hc Hb Hr Hw Logic.I Hk Hd Hdis E). ring.
Qed.
Lemma C74_total_lem {P A Q} `{Countable P} `{Countable A} `{Countable Q} qadd qneg q0 Hz reject (fr wpd ba : P) (ks : list (bool * A * Q)) wks baks :
  frequencies qadd qneg q0 Hz -> ks <> [] ->
  ((exists r, pd qadd qneg reject fr wpd ba ks wks baks = Ok r) <-> forall F, F ∈ wks -> qneg F ∈ wks) /\
  (~ (forall F, F ∈ wks -> qneg F ∈ wks) -> pd qadd qneg reject fr wpd ba ks wks baks = Err AssertionError).
Proof.
  intros HF Hk.
  assert ((forall F, F ∈ wks -> qneg F ∈ wks) -> exists r, pd qadd qneg reject fr wpd ba ks wks baks = Ok r) as H1'.
  { intros Hc. rewrite pd_fills. apply each_ok. intros k _. by apply (fill_ok qadd qneg reject). }
  assert (~ (forall F, F ∈ wks -> qneg F ∈ wks) -> pd qadd qneg reject fr wpd ba ks wks baks = Err AssertionError) as H2'.
  { intros Hn. rewrite pd_fills. apply each_err; [|done]. intros [[l o] f] _. unfold modulations_fill. cbn [mbind res_bind].
    destruct (decide (Forall (fun F => qneg F ∈ wks) wks)) as [Hall|Hall].
    - exfalso. apply Hn. by rewrite <- Forall_forall.
    - apply not_Forall_Exists in Hall; [|apply _]. apply Exists_exists in Hall as (F & HFw & HFn).
      rewrite (outs_err qneg _ wks wks ∅ F); [done|apply (fq_nn _ _ _ _ HF)|done|set_solver|set_solver|done|done]. }
  split; [|done]. split; [|done]. intros [r E] F HFw.
  destruct (decide (Forall (fun F => qneg F ∈ wks) wks)) as [Hall|Hall]; [by apply (proj1 (Forall_forall _ _) Hall)|].
  rewrite H2' in E; [done|]. intros Hc. apply Hall. by rewrite Forall_forall.
Qed.
Lemma C74_magic_lem {P A Q} `{Countable P} `{Countable A} `{Countable Q} qadd qneg q0 Hz reject x (fri fro bki bko wpd : P) (ms msb : list (A * Q)) os ks ksb wks r t o :
  frequencies qadd qneg q0 Hz -> shines x fri ms -> carriers os ms -> both ms ks -> (forall m, m ∈ ms -> reject m.2 = false) ->
  signal_keys qneg wks -> differences qadd qneg (dark x fri) (dark x fri) ms wks -> fro <> bko -> both msb ksb -> NoDup msb ->
  magic_pd qadd qneg reject fri fro bki bko wpd ks ksb wks = Ok r ->
  wave q0 Hz wks (fun F => arrives r x (wpd, cls F)) t = intensity Hz os ms (lower_at x fri) t /\
  light Hz ms (fun m => arrives r x (bko, opt true m.1 m.2)) o t = light Hz ms (lower_at x fri) o t /\
  light Hz msb (fun m => arrives r x (fro, opt true m.1 m.2)) o t = light Hz msb (lower_at x bki) o t.
Proof.
  intros HF Hs Hc Hb Hr [Hw _] Hd Hne Hbb Hnb E. unfold magic_pd in E. apply bind_ok in E as (a & Ea & E). injection E as <-.
  set (es := (fun '(l, o, f) => ConstantEdge (K := C_fld) (bki, opt l o f) (fro, opt l o f) 1) <$> ksb).
  assert (each (fun k => modulations_fill qadd qneg reject fri k (Some bko) (Some (bko, [])) (Some (wpd, wks)) 1 1 0 0 1 1 true) ks = Ok a) as Ea' by exact Ea.
  assert (forall n, arrives (a ++ es) x n = arrives a x n + fsum (Warr x n) es) as Ha.
  { intros n. rewrite !arrives_eq. apply fsum_app. }
  split_and!.
  - transitivity (wave q0 Hz wks (fun F => arrives a x (wpd, cls F)) t).
    + unfold wave. apply fsum_ext. intros F _. rewrite Ha. f_equal. f_equal.
      rewrite (fsum_0 _ es); [ring|]. intros j Hj. unfold es in Hj. apply elem_of_list_fmap in Hj as ([[l' o'] f'] & -> & _).
      unfold Warr. cbn [target]. by rewrite decide_False by done.
    + rewrite (out_wave qadd qneg q0 Hz HF reject x fri wpd ms os ks wks (Some bko) None 1 1 (fun _ => 0) (fun _ => 0) 1 1 true a t Hs Hc Hb Hr Hw Logic.I Hd Ea), two_inv. ring.
  - transitivity (light Hz ms (fun m => arrives a x (bko, opt true m.1 m.2)) o t).
    + unfold light. apply fsum_ext. intros m _. rewrite Ha. destruct (decide _); [|done]. f_equal.
      rewrite (fsum_0 _ es); [ring|]. intros j Hj. unfold es in Hj. apply elem_of_list_fmap in Hj as ([[l' o'] f'] & -> & _).
      unfold Warr. cbn [target]. by rewrite decide_False by congruence.
    + destruct Hs as [Hnd _ _].
      rewrite (drive_light qadd qneg q0 Hz HF reject x fri bko bko ms ms ks [] (Some (wpd, wks)) (fun _ => 1) (fun _ => 1) (fun _ => 0) (fun _ => 0) 1 1 true a t o);
        [|apply NoDup_nil_2|done|done|done|set_solver|done|exact Ea']. ring.
  - unfold light. apply fsum_ext. intros m Hm. destruct (decide _); [|done]. f_equal. rewrite Ha.
    assert (arrives a x (fro, opt true m.1 m.2) = 0) as ->.
    { rewrite arrives_eq.
      refine (eq_trans (each_sum (Warr x (fro, opt true m.1 m.2)) _ (fun _ => 0) ks a _ Ea) _); [|by apply fsum_0].
      intros [[l' o'] f'] r' _ Er. rewrite (fill_eq qadd qneg q0 Hz HF reject (Warr x (fro, opt true m.1 m.2)) fri (l', o', f') (Some bko) None (Some (wpd, wks)) 1 1 0 0 1 1 true r' Logic.I Hw Er).
      unfold fill_sum. cbn [fst snd]. unfold Warr at 1. cbn [target]. rewrite decide_False by congruence.
      rewrite fsum_0; [ring|]. intros F _. unfold o1. destruct (reject _); [done|]. unfold Warr. cbn [target]. by rewrite decide_False by done. }
    rewrite (fsum_perm _ es ((fun '(l, o, f) => ConstantEdge (K := C_fld) (bki, opt l o f) (fro, opt l o f) 1) <$> (((fun m => (true, m.1, m.2)) <$> msb) ++ ((fun m => (false, m.1, m.2)) <$> msb)))) by (unfold es; by apply fmap_Permutation).
    rewrite fmap_app, fsum_app, !fsum_map.
    rewrite (fsum_ext _ (fun m' => if decide (m' = m) then lower_at x bki m' else 0)).
    + rewrite fsum_delta by done. rewrite decide_True by done. rewrite fsum_0; [ring|]. intros m' _. unfold Warr. cbn [target].
      by rewrite decide_False by (unfold opt; congruence).
    + intros m' _. unfold Warr. cbn [target amount]. destruct (decide (m' = m)) as [->|Hn].
      * rewrite decide_True by done. unfold lower_at. ring.
      * rewrite decide_False; [done|]. intros E. apply Hn. destruct m, m'. unfold opt in E. cbn [fst snd] in E. congruence.
Qed.

Lemma half_two (c : C_fld) : c / two_c * two_c = c. Proof. field. apply two_c_neq_0. Qed.

Lemma C75_pm_lem {P A Q} `{Countable P} `{Countable A} `{Countable Q} qadd qneg q0 Hz reject x (fr bk drv ba : P) (ms ms' : list (A * Q)) ks ds bs c r t o :
  frequencies qadd qneg q0 Hz -> both ms ks -> signal_keys qneg ds -> signal_keys qneg bs -> sidebands qadd q0 reject (dark x fr) ms ms' ds ->
  alternating q0 x drv -> pm qadd qneg reject fr bk drv ba ks ds bs c = Ok r ->
  light Hz ms' (fun m => arrives r x (bk, opt true m.1 m.2)) o t =
  light Hz ms (lower_at x fr) o t * (1 + ci * wave q0 Hz ds (fun F => x (drv, cls F)) t).
Proof.
  intros HF Hb [Hd _] [Hbs _] [S1 S2 S3] Ha E.
  rewrite (drive_light qadd qneg q0 Hz HF reject x fr bk drv ms ms' ks ds (Some (ba, bs)) (fun _ => 1) (fun _ => 1) (fun _ => ci / two_c) (fun _ => - ci / two_c) (1 / c) (1 / c) true r t o); try done.
  rewrite (osc_wave q0 Hz) by done. cbn beta iota.
  transitivity (light Hz ms (lower_at x fr) o t * (1 + (ci / two_c * two_c) * wave q0 Hz ds (fun F => x (drv, cls F)) t)); [ring|]. by rewrite half_two.
Qed.
Lemma C75_am_lem {P A Q} `{Countable P} `{Countable A} `{Countable Q} qadd qneg q0 Hz reject x (fr bk drv ba : P) (ms ms' : list (A * Q)) ks ds bs c r t o :
  frequencies qadd qneg q0 Hz -> both ms ks -> signal_keys qneg ds -> signal_keys qneg bs -> sidebands qadd q0 reject (dark x fr) ms ms' ds ->
  alternating q0 x drv -> am qadd qneg reject fr bk drv ba ks ds bs c = Ok r ->
  light Hz ms' (fun m => arrives r x (bk, opt true m.1 m.2)) o t =
  light Hz ms (lower_at x fr) o t * (1 + wave q0 Hz ds (fun F => x (drv, cls F)) t).
Proof.
  intros HF Hb [Hd _] [Hbs _] [S1 S2 S3] Ha E.
  rewrite (drive_light qadd qneg q0 Hz HF reject x fr bk drv ms ms' ks ds (Some (ba, bs)) (fun _ => 1) (fun _ => 1) (fun _ => 1 / two_c) (fun _ => 1 / two_c) (ci / c) (- ci / c) true r t o); try done.
  rewrite (osc_wave q0 Hz) by done. cbn beta iota.
  transitivity (light Hz ms (lower_at x fr) o t * (1 + (1 / two_c * two_c) * wave q0 Hz ds (fun F => x (drv, cls F)) t)); [ring|]. rewrite half_two. ring.
Qed.
Lemma C75_ampm_lem {P A Q} `{Countable P} `{Countable A} `{Countable Q} qadd qneg q0 Hz reject x (fr bk drvA drvP : P) (ms ms' : list (A * Q)) ks das dps c r t o :
  frequencies qadd qneg q0 Hz -> both ms ks -> signal_keys qneg das -> signal_keys qneg dps ->
  sidebands qadd q0 reject (dark x fr) ms ms' das -> sidebands qadd q0 reject (dark x fr) ms ms' dps ->
  alternating q0 x drvA -> alternating q0 x drvP -> ampm qadd qneg reject fr bk drvA drvP ks das dps c = Ok r ->
  light Hz ms' (fun m => arrives r x (bk, opt true m.1 m.2)) o t =
  light Hz ms (lower_at x fr) o t *
  (1 + ci * wave q0 Hz dps (fun F => x (drvP, cls F)) t + wave q0 Hz das (fun F => x (drvA, cls F)) t).
Proof.
  intros HF Hb [Hda _] [Hdp _] [S1 S2 S3] [_ _ S4] Ha Hp E. unfold ampm in E. apply each_two in E as (ra & rb & Ea & Eb & HW).
  transitivity (light Hz ms' (fun m => arrives ra x (bk, opt true m.1 m.2)) o t + light Hz ms' (fun m => arrives rb x (bk, opt true m.1 m.2)) o t).
  { unfold light. rewrite <- fsum_add. apply fsum_ext. intros m _. rewrite !arrives_eq, HW. destruct (decide _); ring. }
  rewrite (drive_light qadd qneg q0 Hz HF reject x fr bk drvP ms ms' ks dps None (fun _ => 1) (fun _ => 1) (fun _ => ci / two_c) (fun _ => - ci / two_c) (1 / c) (1 / c) true ra t o); try done.
  rewrite (drive_light qadd qneg q0 Hz HF reject x fr bk drvA ms ms' ks das None (fun _ => 1) (fun _ => 1) (fun _ => 1 / two_c) (fun _ => 1 / two_c) (ci / c) (- ci / c) false rb t o); try done.
  rewrite !(osc_wave q0 Hz) by done. cbn beta iota.
  transitivity (light Hz ms (lower_at x fr) o t * (1 + (ci / two_c * two_c) * wave q0 Hz dps (fun F => x (drvP, cls F)) t + (1 / two_c * two_c) * wave q0 Hz das (fun F => x (drvA, cls F)) t)); [ring|].
  rewrite !half_two. ring.
Qed.
Lemma C75_pm_mode_lem {P A Q} `{Countable P} `{Countable A} `{Countable Q} qadd qneg q0 Hz reject x (fr bk drv ba : P) (ms : list (A * Q)) ks ds bs c r r' o f :
  frequencies qadd qneg q0 Hz -> shines x fr ms -> both ms ks -> signal_keys qneg ds -> signal_keys qneg bs -> reject f = false ->
  pm qadd qneg reject fr bk drv ba ks ds bs c = Ok r -> am qadd qneg reject fr bk drv ba ks ds bs c = Ok r' ->
  arrives r x (bk, opt true o f) = lower_at x fr (o, f) + ci / (1 + 1) * shifted qadd qneg q0 x fr drv ds o f /\
  arrives r' x (bk, opt true o f) = lower_at x fr (o, f) + 1 / (1 + 1) * shifted qadd qneg q0 x fr drv ds o f.
Proof.
  intros HF Hs Hb [Hd _] [Hbs _] Hr E E'. split.
  - rewrite (drive_mode qadd qneg q0 Hz HF reject x fr bk drv ms ks ds (Some (ba, bs)) (fun _ => 1) (fun _ => 1) (fun _ => ci / two_c) (fun _ => - ci / two_c) (1 / c) (1 / c) true r o f); try done.
    unfold two_c. ring.
  - rewrite (drive_mode qadd qneg q0 Hz HF reject x fr bk drv ms ks ds (Some (ba, bs)) (fun _ => 1) (fun _ => 1) (fun _ => 1 / two_c) (fun _ => 1 / two_c) (ci / c) (- ci / c) true r' o f); try done.
    unfold two_c. ring.
Qed.
Lemma C75_conj_lem {P A Q} `{Countable P} `{Countable A} `{Countable Q} qadd qneg q0 Hz reject x (fr bk drv ba : P) (ms : list (A * Q)) ks ds bs c r o f :
  frequencies qadd qneg q0 Hz -> both ms ks -> signal_keys qneg ds -> signal_keys qneg bs ->
  real_signal qneg x drv -> shines x fr ms ->
  (pm qadd qneg reject fr bk drv ba ks ds bs c = Ok r \/ am qadd qneg reject fr bk drv ba ks ds bs c = Ok r) ->
  arrives r x (bk, opt false o f) = cconj (arrives r x (bk, opt true o f)).
Proof.
  intros HF Hb [Hd Hdc] [Hbs _] Hx [_ _ Hc] E.
  assert (cconj two_c = two_c) as C2 by (unfold two_c; by rewrite cconj_add, cconj_1).
  destruct E as [E|E].
  - apply (drive_conj qadd qneg q0 Hz HF reject x fr bk drv ms ks ds (Some (ba, bs)) (fun _ => 1) (fun _ => 1) (fun _ => ci / two_c) (fun _ => - ci / two_c) (1 / c) (1 / c) true r o f); try done.
    + intros _. by rewrite cconj_1.
    + intros _. by rewrite cconj_div, cconj_ci, C2 by apply two_c_neq_0.
  - apply (drive_conj qadd qneg q0 Hz HF reject x fr bk drv ms ks ds (Some (ba, bs)) (fun _ => 1) (fun _ => 1) (fun _ => 1 / two_c) (fun _ => 1 / two_c) (ci / c) (- ci / c) true r o f); try done.
    + intros _. by rewrite cconj_1.
    + intros _. by rewrite cconj_div, cconj_1, C2 by apply two_c_neq_0.
Qed.
Lemma C75_total_lem {P A Q} `{Countable P} `{Countable A} `{Countable Q} qadd qneg reject (fr bk drv ba : P) (ks : list (bool * A * Q)) ds bs c :
  signal_keys qneg ds -> signal_keys qneg bs ->
  (exists r, pm qadd qneg reject fr bk drv ba ks ds bs c = Ok r) /\ (exists r, am qadd qneg reject fr bk drv ba ks ds bs c = Ok r) /\
  (exists r, ampm qadd qneg reject fr bk drv ba ks ds bs c = Ok r).
Proof.
  intros [_ Hd] [_ Hb]. split_and!; apply each_ok; intros k _.
  - by apply fill_ok.
  - by apply fill_ok.
  - edestruct (fill_ok qadd qneg reject fr k (Some bk) (Some (ba, bs)) None 1 1 (ci / two_c) (- ci / two_c) (1 / c) (1 / c) true) as [ra ->]; [done|done|].
    edestruct (fill_ok qadd qneg reject fr k (Some bk) (Some (drv, ds)) None 1 1 (1 / two_c) (1 / two_c) (ci / c) (- ci / c) false) as [rb ->]; [done|done|].
    by eexists.
Qed.
(** back-action of the modulators: phase modulation feels the power over c, amplitude modulation nothing *)
Lemma C75_back_action_lem {P A Q} `{Countable P} `{Countable A} `{Countable Q} qadd qneg q0 Hz reject x (fr bk drv ba : P) (ms : list (A * Q)) os ks ds bs c r r' t :
  frequencies qadd qneg q0 Hz -> shines x fr ms -> carriers os ms -> both ms ks -> (forall m, m ∈ ms -> reject m.2 = false) ->
  signal_keys qneg ds -> signal_keys qneg bs -> differences qadd qneg (dark x fr) (dark x fr) ms bs -> c <> 0 ->
  pm qadd qneg reject fr bk drv ba ks ds bs c = Ok r -> am qadd qneg reject fr bk drv ba ks ds bs c = Ok r' ->
  wave q0 Hz bs (fun F => arrives r x (ba, cls F)) t = intensity Hz os ms (lower_at x fr) t / c /\
  wave q0 Hz bs (fun F => arrives r' x (ba, cls F)) t = 0.
Proof.
  intros HF Hs Hc Hb Hr [Hd _] [Hbs _] Hdf Hc0 E E'. split.
  - rewrite (out_wave qadd qneg q0 Hz HF reject x fr ba ms os ks bs (Some bk) (Some (drv, ds)) 1 1 (fun _ => ci / two_c) (fun _ => - ci / two_c) (1 / c) (1 / c) true r t Hs Hc Hb Hr Hbs Hd Hdf E).
    unfold two_c. field. split; [done|apply two_c_neq_0].
  - rewrite (out_wave qadd qneg q0 Hz HF reject x fr ba ms os ks bs (Some bk) (Some (drv, ds)) 1 1 (fun _ => 1 / two_c) (fun _ => 1 / two_c) (ci / c) (- ci / c) true r' t Hs Hc Hb Hr Hbs Hd Hdf E').
    unfold two_c. field. split; [done|apply two_c_neq_0].
Qed.
(** a constant drive does nothing *)
Lemma C75_constant_refuted_lem : exists (x : nat * key unit Z -> C_fld) r,
  shines x 0%nat [((), 0%Z)] /\ x (2%nat, cls 0%Z) = 1 /\
  am Z.add Z.opp (fun _ => false) 0%nat 1%nat 2%nat 3%nat [(true, (), 0%Z); (false, (), 0%Z)] [0%Z] [0%Z] 1 = Ok r /\
  light IZR [((), 0%Z)] (fun m => arrives r x (1%nat, opt true m.1 m.2)) () 0 <>
  light IZR [((), 0%Z)] (lower_at x 0%nat) () 0 * (1 + wave 0%Z IZR [0%Z] (fun F => x (2%nat, cls F)) 0).
Proof.
  set (x := fun n : nat * key unit Z => if decide (n.2.2 = 0%Z) then 1 else 0 : C_fld).
  assert (frequencies Z.add Z.opp 0%Z IZR) as HF by (split; intros; try lia; apply plus_IZR).
  destruct (proj1 (proj2 (C75_total_lem Z.add Z.opp (fun _ => false) 0%nat 1%nat 2%nat 3%nat [(true, (), 0%Z); (false, (), 0%Z)] [0%Z] [0%Z] 1
     ltac:(split; [apply NoDup_singleton|set_solver]) ltac:(split; [apply NoDup_singleton|set_solver])))) as [r E].
  exists x, r. split_and!; [|done|done|].
  - split; [apply NoDup_singleton| |].
    + intros [[] f] Hm. unfold lower_at, x. cbn [fst snd opt]. rewrite decide_False; [done|]. intros ->. set_solver.
    + intros [[] f]. unfold raise_at, lower_at, x. cbn [fst snd opt]. destruct (decide _); [by rewrite cconj_1|].
      unfold cconj, C_conj; apply (f_equal2 pair); simpl; ring.
  - rewrite (drive_light Z.add Z.opp 0%Z IZR HF (fun _ => false) x 0%nat 1%nat 2%nat [((), 0%Z)] [((), 0%Z)] [(true, (), 0%Z); (false, (), 0%Z)] [0%Z] (Some (3%nat, [0%Z]))
      (fun _ => 1) (fun _ => 1) (fun _ => 1 / two_c) (fun _ => 1 / two_c) (ci / 1) (- ci / 1) true r 0 ());
      [|apply NoDup_singleton|apply NoDup_singleton|unfold both; simpl; reflexivity|apply NoDup_singleton|set_solver|set_solver|exact E].
    unfold light, wave, osc, lower_at, x. simpl. intros E1. apply (f_equal fst) in E1. simpl in E1. rewrite !Rmult_0_r, cos_0, sin_0 in E1. lra.
Qed.

(** the mirror: the reflected field follows the motion to first order *)
Lemma C76_motion_lem {P A Q} `{Countable P} `{Countable A} `{Countable Q} qadd qneg q0 Hz reject x d (fr to dis F : P) (ms ms' : list (A * Q)) ks ds Fs rr sign phase cosA iwl c r t o :
  frequencies qadd qneg q0 Hz -> both ms ks -> signal_keys qneg ds -> signal_keys qneg Fs -> sidebands qadd q0 reject (dark (field x) fr) ms ms' ds ->
  (forall k, field x (dis, cls k) = 0) -> (forall m, lower_at d fr m = 0) -> alternating q0 d dis ->
  mirror_face qadd qneg reject fr to dis F ks ds Fs rr sign phase cosA iwl c = Ok r ->
  light Hz ms' (fun m => response r x d (to, opt true m.1 m.2)) o t =
  cre rr * cis phase * light Hz ms (lower_at (field x) fr) o t *
  (- ci * cre (sign * cosA * (4 * PI * iwl o)) * plain Hz ds (fun k => d (dis, cls k)) t).
Proof.
  intros HF Hb [Hd _] [HFs _] [S1 S2 S3] Hx Hl Ha E. unfold mirror_face in E.
  rewrite (drive_response qadd qneg q0 Hz HF reject x d fr to dis ms ms' ks ds (Some (F, Fs)) (fun _ => cre rr * cis phase) (fun _ => cre rr * cis (- phase))
    (fun o => cre (sign * (-2 * cosA * PI * 2 * iwl o)) * ci) (fun o => - (cre (sign * (-2 * cosA * PI * 2 * iwl o)) * ci))
    (cre (sign * (-2 * cosA) / c)) (cre (sign * (-2 * cosA) / c)) true r t o); try done.
  2: { intros m k Hm Hk Hne. destruct (S3 m k Hm Hk Hne) as [?|?]; [left; split; [done|apply Hl]|by right]. }
  rewrite (osc_plain q0 Hz d) by done.
  assert (light Hz ms (lower_at d fr) o t = 0) as ->.
  { unfold light. apply fsum_0. intros m _. rewrite Hl. destruct (decide _); [ring|done]. }
  replace (sign * (-2 * cosA * PI * 2 * iwl o))%R with (- (sign * cosA * (4 * PI * iwl o)))%R by ring. rewrite cre_opp. ring.
Qed.
(** with the amplitudes as they are: twice the phase *)
Lemma C76_motion_twice_lem {P A Q} `{Countable P} `{Countable A} `{Countable Q} qadd qneg q0 Hz reject x (fr to dis F : P) (ms ms' : list (A * Q)) ks ds Fs rr sign phase cosA iwl c r t o :
  frequencies qadd qneg q0 Hz -> both ms ks -> signal_keys qneg ds -> signal_keys qneg Fs -> sidebands qadd q0 reject (dark x fr) ms ms' ds ->
  alternating q0 x dis ->
  mirror_face qadd qneg reject fr to dis F ks ds Fs rr sign phase cosA iwl c = Ok r ->
  light Hz ms' (fun m => arrives r x (to, opt true m.1 m.2)) o t =
  cre rr * cis phase * light Hz ms (lower_at x fr) o t *
  (1 - (1 + 1) * (ci * cre (sign * cosA * (4 * PI * iwl o)) * wave q0 Hz ds (fun k => x (dis, cls k)) t)).
Proof.
  intros HF Hb [Hd _] [HFs _] [S1 S2 S3] Ha E. unfold mirror_face in E.
  rewrite (drive_light qadd qneg q0 Hz HF reject x fr to dis ms ms' ks ds (Some (F, Fs)) (fun _ => cre rr * cis phase) (fun _ => cre rr * cis (- phase))
    (fun o => cre (sign * (-2 * cosA * PI * 2 * iwl o)) * ci) (fun o => - (cre (sign * (-2 * cosA * PI * 2 * iwl o)) * ci))
    (cre (sign * (-2 * cosA) / c)) (cre (sign * (-2 * cosA) / c)) true r t o); try done.
  rewrite (osc_wave q0 Hz x) by done.
  replace (sign * (-2 * cosA * PI * 2 * iwl o))%R with (- (sign * cosA * (4 * PI * iwl o)))%R by ring. rewrite cre_opp. unfold two_c. ring.
Qed.
Lemma C76_force_lem {P A Q} `{Countable P} `{Countable A} `{Countable Q} qadd qneg q0 Hz reject x (fr to dis F : P) (ms : list (A * Q)) os ks ds Fs rr sign phase cosA iwl c r t :
  frequencies qadd qneg q0 Hz -> shines x fr ms -> carriers os ms -> both ms ks -> (forall m, m ∈ ms -> reject m.2 = false) ->
  signal_keys qneg ds -> signal_keys qneg Fs -> differences qadd qneg (dark x fr) (dark x fr) ms Fs ->
  mirror_face qadd qneg reject fr to dis F ks ds Fs rr sign phase cosA iwl c = Ok r ->
  wave q0 Hz Fs (fun k => arrives r x (F, cls k)) t =
  cre (-2 * sign * cosA * (rr * cos phase) / c) * intensity Hz os ms (lower_at x fr) t.
Proof.
  intros HF Hs Hc Hb Hr [Hd _] [HFs _] Hdf E. unfold mirror_face in E.
  rewrite (out_wave qadd qneg q0 Hz HF reject x fr F ms os ks Fs (Some to) (Some (dis, ds)) (cre rr * cis phase) (cre rr * cis (- phase))
    (fun o => cre (sign * (-2 * cosA * PI * 2 * iwl o)) * ci) (fun o => - (cre (sign * (-2 * cosA * PI * 2 * iwl o)) * ci))
    (cre (sign * (-2 * cosA) / c)) (cre (sign * (-2 * cosA) / c)) true r t Hs Hc Hb Hr HFs Hd Hdf E). f_equal.
  transitivity (cre rr * cre (sign * (-2 * cosA) / c) * ((cis phase + cis (- phase)) / two_c)); [field; apply two_c_neq_0|].
  assert ((cis phase + cis (- phase)) / two_c = cre (cos phase)) as ->.
  { transitivity (two_c * cre (cos phase) / two_c); [f_equal|field; apply two_c_neq_0].
    unfold cis, two_c, cre, C_of. rewrite cos_neg, sin_neg. apply (f_equal2 pair); simpl; ring. }
  rewrite <- !cre_mul. f_equal. unfold Rdiv. ring.
Qed.
(** the faces: the back one reflects with the opposite amplitude and moves the opposite way; both are pushed the same way *)
Lemma C76_force_same_way_lem {P A Q} `{Countable P} `{Countable A} `{Countable Q} qadd qneg q0 Hz reject x (fr to dis F : P) (ms : list (A * Q)) os ks ds Fs rr phase cosA iwl c r r' t :
  frequencies qadd qneg q0 Hz -> shines x fr ms -> carriers os ms -> both ms ks -> (forall m, m ∈ ms -> reject m.2 = false) ->
  signal_keys qneg ds -> signal_keys qneg Fs -> differences qadd qneg (dark x fr) (dark x fr) ms Fs ->
  mirror_face qadd qneg reject fr to dis F ks ds Fs rr 1 phase cosA iwl c = Ok r ->
  mirror_face qadd qneg reject fr to dis F ks ds Fs (- rr) (-1) phase cosA iwl c = Ok r' ->
  wave q0 Hz Fs (fun k => arrives r x (F, cls k)) t = wave q0 Hz Fs (fun k => arrives r' x (F, cls k)) t.
Proof.
  intros. rewrite (C76_force_lem qadd qneg q0 Hz reject x fr to dis F ms os ks ds Fs rr 1 phase cosA iwl c r t) by done.
  rewrite (C76_force_lem qadd qneg q0 Hz reject x fr to dis F ms os ks ds Fs (- rr) (-1) phase cosA iwl c r' t) by done.
  do 2 f_equal. unfold Rdiv. ring.
Qed.
Lemma C76_force_refuted_lem : exists (x : nat * key unit Z -> C_fld) rr r,
  shines x 0%nat [((), 0%Z)] /\
  mirror_face Z.add Z.opp (fun _ => false) 0%nat 1%nat 2%nat 3%nat [(true, (), 0%Z); (false, (), 0%Z)] [0%Z] [0%Z] rr 1 0 1 (fun _ => 1%R) 1 = Ok r /\
  wave 0%Z IZR [0%Z] (fun k => arrives r x (3%nat, cls k)) 0 <>
  cre (-2 * (rr * rr)) * intensity IZR [()] [((), 0%Z)] (lower_at x 0%nat) 0.
Proof.
  set (x := fun n : nat * key unit Z => if decide (n.2.2 = 0%Z) then 1 else 0 : C_fld).
  assert (frequencies Z.add Z.opp 0%Z IZR) as HF by (split; intros; try lia; apply plus_IZR).
  assert (shines x 0%nat [((), 0%Z)]) as Hs.
  { split; [apply NoDup_singleton| |].
    + intros [[] f] Hm. unfold lower_at, x. cbn [fst snd opt]. rewrite decide_False; [done|]. intros ->. set_solver.
    + intros [[] f]. unfold raise_at, lower_at, x. cbn [fst snd opt]. destruct (decide _); [by rewrite cconj_1|].
      unfold cconj, C_conj; apply (f_equal2 pair); simpl; ring. }
  assert (signal_keys Z.opp [0%Z]) as Hk by (split; [apply NoDup_singleton|set_solver]).
  assert (exists r, mirror_face Z.add Z.opp (fun _ => false) 0%nat 1%nat 2%nat 3%nat [(true, (), 0%Z); (false, (), 0%Z)] [0%Z] [0%Z] (1/2) 1 0 1 (fun _ => 1%R) 1 = Ok r) as [r E].
  { apply each_ok. intros k _. destruct Hk. by apply fill_ok. }
  exists x, (1/2)%R, r. split_and!; [done|done|].
  rewrite (C76_force_lem Z.add Z.opp 0%Z IZR (fun _ => false) x 0%nat 1%nat 2%nat 3%nat [((), 0%Z)] [()] [(true, (), 0%Z); (false, (), 0%Z)] [0%Z] [0%Z] (1/2) 1 0 1 (fun _ => 1%R) 1 r 0); try done.
  - assert (intensity IZR [()] [((), 0%Z)] (lower_at x 0%nat) 0 = 1) as ->.
    { unfold intensity, beat, light, lower_at, x. simpl. unfold cis. rewrite !Rmult_0_r, cos_0, sin_0. apply (f_equal2 pair); simpl; ring. }
    rewrite cos_0. intros E1. apply (f_equal fst) in E1. simpl in E1. lra.
  - split; [apply NoDup_singleton|set_solver].
  - unfold both. simpl. reflexivity.
  - unfold differences. intros m m' ->%elem_of_list_singleton ->%elem_of_list_singleton _. right; right. set_solver.
Qed.
(** A carrier with two sidebands, and keys that see all the beat notes. *)
Lemma C74_example_lem : exists (x : nat * key unit Z -> C_fld) r,
  frequencies Z.add Z.opp 0%Z IZR /\ shines x 0%nat [((), -1); ((), 0); ((), 1)]%Z /\ carriers [()] [((), -1); ((), 0); ((), 1)]%Z /\
  both [((), -1); ((), 0); ((), 1)]%Z [(true, (), -1); (true, (), 0); (true, (), 1); (false, (), -1); (false, (), 0); (false, (), 1)]%Z /\
  signal_keys Z.opp [-2; -1; 0; 1; 2]%Z /\ differences Z.add Z.opp (dark x 0%nat) (dark x 0%nat) [((), -1); ((), 0); ((), 1)]%Z [-2; -1; 0; 1; 2]%Z /\
  sidebands Z.add 0%Z (fun _ => false) (dark x 0%nat) [((), 0)]%Z [((), -1); ((), 0); ((), 1)]%Z [-1; 1]%Z /\ signal_keys Z.opp [-1; 1]%Z /\
  lower_at x 0%nat ((), 1%Z) = 1 /\
  pd Z.add Z.opp (fun _ => false) 0%nat 1%nat 2%nat [(true, (), -1); (true, (), 0); (true, (), 1); (false, (), -1); (false, (), 0); (false, (), 1)]%Z [-2; -1; 0; 1; 2]%Z [] = Ok r.
Proof.
  set (x := fun n : nat * key unit Z => if decide (n.2.2 ∈ [-1; 0; 1]%Z) then 1 else 0 : C_fld).
  assert (frequencies Z.add Z.opp 0%Z IZR) as HF by (split; intros; try lia; apply plus_IZR).
  assert (signal_keys Z.opp [-2; -1; 0; 1; 2]%Z) as Hk.
  { split; [by apply (bool_decide_unpack _)|]. apply Forall_forall. by apply (bool_decide_unpack _). }
  destruct (proj2 (proj1 (C74_total_lem Z.add Z.opp 0%Z IZR (fun _ => false) 0%nat 1%nat 2%nat
    [(true, (), -1); (true, (), 0); (true, (), 1); (false, (), -1); (false, (), 0); (false, (), 1)]%Z [-2; -1; 0; 1; 2]%Z [] HF ltac:(done))) (proj2 Hk)) as [r E].
  exists x, r. split_and!; try done.
  - split; [by apply (bool_decide_unpack _)| |].
    + intros [[] f] Hm. unfold lower_at, x. cbn [fst snd opt]. rewrite decide_False; [done|]. set_solver.
    + intros [[] f]. unfold raise_at, lower_at, x. cbn [fst snd opt]. destruct (decide _); [by rewrite cconj_1|].
      unfold cconj, C_conj; apply (f_equal2 pair); simpl; ring.
  - split; [apply NoDup_singleton|]. intros [[] ?] _. set_solver.
  - unfold both. simpl. reflexivity.
  - intros m m' Hm Hm' _. apply elem_of_list_In in Hm, Hm'. simpl in Hm, Hm'.
    right; right. destruct Hm as [<-|[<-|[<-|[]]]], Hm' as [<-|[<-|[<-|[]]]]; by apply (bool_decide_unpack _).
  - split; [by apply (bool_decide_unpack _)|set_solver|]. intros m F ->%elem_of_list_singleton. right. set_solver.
  - split; [by apply (bool_decide_unpack _)|set_solver].
Qed.
