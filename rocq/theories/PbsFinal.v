(** The lemmas behind PbsProps.v. *)
From stdpp Require Import base tactics list numbers.
From Coq Require Import QArith Qreals Reals Lra String.
From Verif Require Import Fld Herm ElecModel ElecSpec ElecProofs OptModel OptSpec OptProofs OptRot OptFinal PbsModel PbsSpec PbsProofs.
Local Open Scope fld_scope.

Section pbs.
  Context {K : fld} (h : herm K).
  Add Field FPF : (f_theory K).
  Notation conj := (h_conj h).
  Lemma power_scale (c x : K) : conj c = c -> power h (c * x) = (c * c) * power h x.
  Proof. intros Hc. unfold power. rewrite (h_conj_mul K h), Hc. ring. Qed.
  Lemma power_side p (x : K) : power h (side p x) = power h x.
  Proof. unfold power. destruct p; cbn [side]; rewrite ?(conj_opp h); ring. Qed.
  Lemma C93_splits_lem pass (a : pbs_args (K := K)) lower w p l :
    pbs_ok h a -> obeys iso_ports (pbs h pass a lower) [] w -> dark w -> lit_only w p ->
    power h (w (O (Pt (through p), l))) = passed pass l a * power h (w (I (Pt p, l))) /\
    power h (w (O (Pt (beside p), l))) = reflected pass l a * power h (w (I (Pt p, l))) /\
    w (O (Pt p, l)) = 0 /\ w (O (Pt (through (beside p)), l)) = 0.
  Proof.
    intros Hok Ho Hd Hl. pose proof (mirror_ok_pbs h pass a l Hok) as Hm.
    rewrite !(Ho (Pt _, l)) by apply iso_ports_in. rewrite !pbs_out, !Hd.
    rewrite <- mT_pbs, <- mR_pbs, <- (mt_sq h _ Hm), <- (mr_sq h _ Hm).
    pose proof (mt_conj h _ Hm) as Ht. pose proof (mr_conj h _ Hm) as Hr.
    assert (through (through p) = p /\ beside (beside p) = p) as [-> ->] by (by destruct p).
    rewrite (Hl (beside (through p))), (Hl (through (beside p))), (Hl (through p)), (Hl (beside p)), (Hl (through (through (beside p)))), (Hl (beside (through (beside p)))) by (by destruct p).
    set (m := pbs_mirror pass a l) in *. split; [|split; [|split]].
    - rewrite <- (power_scale _ _ Ht). f_equal. destruct p; cbn [side through]; ring.
    - rewrite <- (power_scale _ _ Hr). rewrite <- (power_side (beside p) (m_r h m * w (I (Pt p, l)))). f_equal. ring.
    - destruct p; cbn [side]; ring.
    - destruct p; cbn [side through beside]; ring.
  Qed.
  Lemma C93_power_lem pass (a : pbs_args (K := K)) lower w l :
    pbs_ok h a -> obeys iso_ports (pbs h pass a lower) [] w -> dark w ->
    fsum (fun p => power h (w (O (Pt p, l)))) four_ports = (1 - (select_loss a + reject_loss a)) * fsum (fun p => power h (w (I (Pt p, l)))) four_ports.
  Proof.
    intros Hok Ho Hd. pose proof (mirror_ok_pbs h pass a l Hok) as Hm.
    assert (obeys (Pt <$> [FrA; BkA; FrB; BkB]) (mirror h (pbs_mirror pass a l) lower) [] (sub_pol l w)) as Hs.
    { intros q (p & -> & Hp)%elem_of_list_fmap. unfold sub_pol at 1. cbn [on_pol]. rewrite <- pbs_emits. apply Ho, iso_ports_in. }
    pose proof (C45_oblique_lem K h _ lower (sub_pol l w) Hm ltac:(by destruct pass, l) ltac:(by destruct pass, l) Hs ltac:(intros p; apply Hd)) as H.
    unfold p_out, p_in, sub_pol in H. rewrite !fsum_map in H. cbn [on_pol] in H. unfold four_ports. rewrite H.
    f_equal. f_equal. destruct pass, l; cbn [pbs_mirror select_mirror reject_mirror L_hr L_t]; ring.
  Qed.
  Lemma pass_default pass l : passed pass l (pbs_default (K := K)) = (if decide (l = pass) then 1 else 0) /\ reflected pass l (pbs_default (K := K)) = (if decide (l = pass) then 0 else 1).
  Proof. unfold passed, reflected, pbs_default. cbn. destruct (decide _); split; ring. Qed.
  Lemma sqrt_1' : h_sqrt h 1 = 1.
  Proof.
    pose proof (h_sqrt_sq K h 1 (nn_1 h)) as H. pose proof (h_sqrt_nn K h 1 (nn_1 h)) as Hn.
    assert ((h_sqrt h 1 - 1) * (h_sqrt h 1 + 1) = 0) as Hp by (transitivity (h_sqrt h 1 * h_sqrt h 1 - 1); [ring|rewrite H; ring]).
    apply fmul_integral in Hp as [Hp|Hp].
    - transitivity (h_sqrt h 1 - 1 + 1); [ring|rewrite Hp; ring].
    - exfalso. apply (f1_neq_0 (K := K)). apply (nn_sum0_r h (h_sqrt h 1) 1); [done|apply (nn_1 h)|done].
  Qed.
  Lemma default_ok : pbs_ok h (pbs_default (K := K)).
  Proof.
    assert (1 - 0 - 0 = 1 :> K) as H1 by ring. assert (0 - 0 = 0 :> K) as H0 by ring.
    unfold pbs_ok, pbs_default. cbn [select_loss reject_loss selection_defect rejection_defect]. rewrite H1, H0.
    repeat split; try apply (nn_0 h); apply (nn_1 h).
  Qed.
  Lemma ideal_out pass lower w p l :
    emits (pbs h pass pbs_default lower) [] w (O (Pt p, l)) = if decide (l = pass) then w (I (Pt (through p), l)) else side p (w (I (Pt (beside p), l))).
  Proof.
    rewrite pbs_out.
    assert (m_l h (pbs_mirror pass pbs_default l) = 0) as ->.
    { unfold m_l, m_L. destruct pass, l; cbn [pbs_mirror select_mirror reject_mirror pbs_default L_hr L_t select_loss reject_loss]; (assert (0 + 0 = 0 :> K) as -> by ring); apply sqrt_0. }
    assert (m_r h (pbs_mirror pass pbs_default l) = h_sqrt h (reflected pass l pbs_default)) as ->.
    { unfold m_r. rewrite mR_pbs. by destruct pass, l. }
    unfold m_t. rewrite mT_pbs. destruct (pass_default pass l) as [-> ->].
    destruct (decide (l = pass)); rewrite ?sqrt_0, ?sqrt_1'; destruct p; cbn [side]; ring.
  Qed.
  Lemma C93_ideal_lem pass lower w :
    obeys iso_ports (pbs h pass pbs_default lower) [] w <->
    forall p l, w (O (Pt p, l)) = if decide (l = pass) then w (I (Pt (through p), l)) else side p (w (I (Pt (beside p), l))).
  Proof.
    split.
    - intros Ho p l. rewrite (Ho _ (iso_ports_in p l)). apply ideal_out.
    - intros Hw [q l] Hq. destruct (iso_ports_inv q l Hq) as [p ->]. rewrite Hw, ideal_out. done.
  Qed.
End pbs.

Add Field FPC : (f_theory C_fld).
(** a beamsplitter with loss and without defects *)
Definition ex_lossy : pbs_args (K := C_fld) := PbsArgs (K := C_fld) 0 0 (C_of (1 / 8)) (C_of (1 / 4)).
Lemma C93_loss_refuted_lem pass lower :
  let a := ex_lossy in
  selection_defect a = 0 /\ rejection_defect a = 0 /\ select_loss a = C_of (1 / 8) /\ reject_loss a = C_of (1 / 4) /\
  (exists g : C_fld, (I (Pt FrA, pass), O (Pt FrB, pass), h_sqrt C_herm (C_of (- (1 / 4)) : C_fld) * g) ∈ pbs C_herm pass a lower) /\
  (exists g : C_fld, (I (Pt FrA, opol pass), O (Pt BkA, opol pass), h_sqrt C_herm (C_of (- (1 / 8)) : C_fld) * g) ∈ pbs C_herm pass a lower).
Proof.
  cbv zeta. do 4 (split; [done|]).
  assert (forall l e, e ∈ mirror C_herm (pbs_mirror pass ex_lossy l) lower -> tag_pol l e ∈ pbs C_herm pass ex_lossy lower) as Hin.
  { intros l e He. unfold pbs. cbn [mbind list_bind]. rewrite app_nil_r. apply elem_of_app. destruct l; [left|right]; by apply elem_of_list_fmap_1. }
  assert (forall x : C_fld, h_sqrt C_herm x * 1 = h_sqrt C_herm x) as H1 by (intros x; ring).
  split; exists 1.
  - pose proof (mR_pbs (K := C_fld) pass ex_lossy pass) as HR.
    assert (reflected pass pass ex_lossy = (C_of (- (1 / 4)) : C_fld)) as E.
    { unfold reflected. rewrite decide_True by done. cbn. unfold C_sub, C_of. cbn. f_equal; lra. }
    rewrite E in HR. rewrite <- HR. rewrite H1.
    assert (m_r C_herm (pbs_mirror pass ex_lossy pass) = h_sqrt C_herm (m_R (pbs_mirror pass ex_lossy pass))) as Er by (by destruct pass).
    rewrite <- Er.
    change (I (Pt FrA, pass), O (Pt FrB, pass), m_r C_herm (pbs_mirror pass ex_lossy pass)) with (tag_pol pass (I (Pt FrA), O (Pt FrB), m_r C_herm (pbs_mirror pass ex_lossy pass))).
    apply Hin. unfold mirror. apply elem_of_app. left. apply elem_of_list_bind. exists FrA. split; [|by destruct pass; left].
    apply elem_of_app. right. apply elem_of_app. left. rewrite decide_False.
    2: { rewrite HR. intros [= Hx]. lra. }
    assert (m_r C_herm (pbs_mirror pass ex_lossy pass) * m_ph C_herm (pbs_mirror pass ex_lossy pass) lower = m_r C_herm (pbs_mirror pass ex_lossy pass)) as Ep.
    { destruct (ph_1 C_herm (pbs_mirror pass ex_lossy pass) lower) as [-> _]; [by destruct pass|]. ring. }
    rewrite <- Ep at 1. destruct pass; left.
  - pose proof (mT_pbs (K := C_fld) pass ex_lossy (opol pass)) as HR.
    assert (passed pass (opol pass) ex_lossy = (C_of (- (1 / 8)) : C_fld)) as E.
    { unfold passed. rewrite decide_False by (by destruct pass). cbn. unfold C_sub, C_of. cbn. f_equal; lra. }
    rewrite E in HR. rewrite <- HR. rewrite H1. change (h_sqrt C_herm (m_T (pbs_mirror pass ex_lossy (opol pass)))) with (m_t C_herm (pbs_mirror pass ex_lossy (opol pass))).
    change (I (Pt FrA, opol pass), O (Pt BkA, opol pass), m_t C_herm (pbs_mirror pass ex_lossy (opol pass))) with (tag_pol (opol pass) (I (Pt FrA), O (Pt BkA), m_t C_herm (pbs_mirror pass ex_lossy (opol pass)))).
    apply Hin. unfold mirror. apply elem_of_app. left. apply elem_of_list_bind. exists FrA. split; [|by destruct pass; left].
    apply elem_of_app. left. rewrite decide_False.
    2: { rewrite HR. intros [= Hx]. lra. }
    assert (m_t C_herm (pbs_mirror pass ex_lossy (opol pass)) * 1 = m_t C_herm (pbs_mirror pass ex_lossy (opol pass))) as Ep by ring.
    rewrite <- Ep at 1. destruct pass; left.
Qed.
Lemma C93_names_lem s l : pass_of s = Some l <-> exists s', polarization_opposite s = Some s' /\ pass_of s' = Some (opol l).
Proof.
  unfold pass_of, polarization_opposite.
  destruct (String.eqb s "P") eqn:H1, (String.eqb s "p") eqn:H2, (String.eqb s "S") eqn:H3, (String.eqb s "s") eqn:H4; cbn [orb];
    repeat match goal with H : String.eqb s _ = true |- _ => apply String.eqb_eq in H; subst s end; try discriminate;
    (split; [intros H; first [discriminate H|injection H as <-; eexists; split; [reflexivity|done]]|intros (s' & H & Hl); first [discriminate H|injection H as <-; revert Hl; cbn; by destruct l]]).
Qed.

(** the isolator *)
Definition quarter : R := (PI / 4)%R.
Definition pvec (l : pol) (x : C_fld) : C_fld * C_fld := match l with PolS => (x, 0) | PolP => (0, x) end.
Definition pangle (l : pol) : R := match l with PolS => 0%R | PolP => (PI / 2)%R end.
Lemma pvec_linear l x : pvec l x = linear (pangle l) x.
Proof.
  unfold linear. destruct l; cbn [pvec pangle]; cbv zeta; rewrite ?cos_0, ?sin_0, ?cos_PI2, ?sin_PI2;
    change (C_of 1) with (1 : C_fld); change (C_of 0) with (0 : C_fld); apply pair_eq_iff; split; ring.
Qed.
Definition comp (l : pol) (v : C_fld * C_fld) : C_fld := match l with PolS => v.1 | PolP => v.2 end.
Lemma plate_rad from to : radians (iso_plate_deg (iso_pols from to)) = (- (PI / 8))%R.
Proof. unfold iso_plate_deg, iso_pols. cbn [fst snd]. rewrite decide_True by done. change (-1 * 45 / 2)%Q with (-45 # 2)%Q. unfold radians, Q2R. cbn [Qnum Qden]. field. Qed.
Lemma iso_fwd deg from to lower wi wf w1 w2 w3 wo :
  isolator deg from to lower wi wf w1 w2 w3 wo -> wi (I (Pt BkB, opol from)) = 0 ->
  vout w3 Bk = linear (quarter - radians deg - pangle from) (wi (I (Pt FrA, from))).
Proof.
  intros (Hi & Hf & Hm & Hwo & Ji & Bf & Jo) H0. cbv zeta in *. unfold iso_pols in Hi. cbn [fst] in Hi. rewrite C93_ideal_lem in Hi.
  apply rotator_lem in Hf as [Hf _].
  assert (vin wf Fr = linear (pangle from) (wi (I (Pt FrA, from)))) as Hv.
  { rewrite <- pvec_linear. unfold vin. rewrite <- (proj1 (Ji PolS)), <- (proj1 (Ji PolP)), !Hi. cbn [through beside side].
    destruct from; cbn [pvec opol] in *; [rewrite decide_True, decide_False by done|rewrite decide_False, decide_True by done]; rewrite H0; f_equal; ring. }
  rewrite Hv, rot_linear in Hf. destruct Bf as [Bf _]. rewrite Bf in Hf.
  rewrite (proj1 (C61_half_lem _ _ _ _ _ _ _ Hm) Hf), plate_rad. f_equal. unfold quarter. field.
Qed.
Lemma iso_bwd deg from to lower wi wf w1 w2 w3 wo :
  isolator deg from to lower wi wf w1 w2 w3 wo -> wo (I (Pt FrB, opol from)) = 0 ->
  vout wf Fr = linear (quarter + radians deg - pangle from) (wo (I (Pt BkA, from))).
Proof.
  intros (Hi & Hf & Hm & Hwo & Ji & Bf & Jo) H0. cbv zeta in *. unfold iso_pols in Hwo. cbn [snd] in Hwo. rewrite C93_ideal_lem in Hwo.
  apply rotator_lem in Hf as [_ Hf].
  assert (vin w3 Bk = linear (pangle from) (wo (I (Pt BkA, from)))) as Hv.
  { rewrite <- pvec_linear. unfold vin. rewrite <- (proj1 (Jo PolS)), <- (proj1 (Jo PolP)), !Hwo. cbn [through beside side].
    destruct from; cbn [pvec opol] in *; [rewrite decide_True, decide_False by done|rewrite decide_False, decide_True by done]; rewrite H0; f_equal; ring. }
  destruct Bf as [_ Bf]. rewrite Hf, <- Bf, (proj2 (C61_half_lem _ _ _ _ _ _ _ Hm) Hv), rot_linear, plate_rad. f_equal. unfold quarter. field.
Qed.
Lemma comp_linear l t x : comp l (linear (t - pangle l) x) = psign l * cr (cos t) * x.
Proof.
  unfold linear. cbv zeta. change C_of with cr. destruct l; cbn [comp pangle psign fst snd].
  - rewrite Rminus_0_r. ring.
  - assert (sin (t - PI / 2) = - cos t)%R as ->; [|rewrite cr_opp; ring].
    rewrite sin_minus, cos_PI2, sin_PI2. ring.
Qed.
Lemma C93_forward_lem deg from to lower wi wf w1 w2 w3 wo :
  isolator deg from to lower wi wf w1 w2 w3 wo -> wi (I (Pt BkB, opol from)) = 0 ->
  wo (O (Pt BkA, from)) = psign from * C_of (cos (PI / 4 - radians deg)) * wi (I (Pt FrA, from)).
Proof.
  intros H H0. pose proof (iso_fwd _ _ _ _ _ _ _ _ _ _ H H0) as Hv. destruct H as (_ & _ & _ & Hwo & _ & _ & Jo). cbv zeta in *.
  unfold iso_pols in Hwo. cbn [snd] in Hwo. rewrite C93_ideal_lem in Hwo. rewrite Hwo, decide_True by done. cbn [through].
  rewrite <- (proj2 (Jo from)). change C_of with cr. etransitivity; [|apply (comp_linear from)]. fold quarter. rewrite <- Hv. by destruct from.
Qed.
Lemma C93_backward_lem deg from to lower wi wf w1 w2 w3 wo :
  isolator deg from to lower wi wf w1 w2 w3 wo -> wo (I (Pt FrB, opol from)) = 0 ->
  wi (O (Pt FrA, from)) = psign from * C_of (cos (PI / 4 + radians deg)) * wo (I (Pt BkA, from)).
Proof.
  intros H H0. pose proof (iso_bwd _ _ _ _ _ _ _ _ _ _ H H0) as Hv. destruct H as (Hi & _ & _ & _ & Ji & _ & _). cbv zeta in *.
  unfold iso_pols in Hi. cbn [fst] in Hi. rewrite C93_ideal_lem in Hi. rewrite Hi, decide_True by done. cbn [through].
  rewrite <- (proj2 (Ji from)). change C_of with cr. etransitivity; [|apply (comp_linear from)]. fold quarter. rewrite <- Hv. by destruct from.
Qed.
Lemma psign_sq l : psign l * psign l = 1.
Proof. destruct l; cbn [psign]; ring. Qed.
Lemma radians_45 : radians 45 = (PI / 4)%R.
Proof. unfold radians, Q2R. cbn. field. Qed.
Lemma C93_isolates_lem from to lower wi wf w1 w2 w3 wo :
  isolator 45 from to lower wi wf w1 w2 w3 wo ->
  (wi (I (Pt BkB, opol from)) = 0 -> power C_herm (wo (O (Pt BkA, from))) = power C_herm (wi (I (Pt FrA, from)))) /\
  (wo (I (Pt FrB, opol from)) = 0 -> wi (O (Pt FrA, from)) = 0).
Proof.
  intros H. split; intros H0.
  - rewrite (C93_forward_lem _ _ _ _ _ _ _ _ _ _ H H0), radians_45, Rminus_eq_0, cos_0. change (C_of 1) with (1 : C_fld).
    rewrite power_scale by (destruct from; cbn [psign]; rewrite (h_conj_mul C_fld C_herm), ?(conj_opp C_herm), !(conj_1 C_herm); done).
    transitivity ((psign from * psign from) * power C_herm (wi (I (Pt FrA, from)))); [ring|]. rewrite psign_sq. ring.
  - rewrite (C93_backward_lem _ _ _ _ _ _ _ _ _ _ H H0), radians_45. replace (PI / 4 + PI / 4)%R with (PI / 2)%R by field. rewrite cos_PI2.
    change (C_of 0) with (0 : C_fld). ring.
Qed.
Lemma half_cos : cr (cos (PI / 4)) * cr (cos (PI / 4)) = (C_of (1 / 2) : C_fld).
Proof.
  rewrite <- cr_mul. change C_of with cr. f_equal. rewrite cos_PI4. unfold Rdiv. rewrite !Rmult_1_l.
  rewrite <- Rinv_mult. rewrite sqrt_sqrt by lra. done.
Qed.
Lemma C93_isolator_refuted_lem from to lower wi wf w1 w2 w3 wo :
  isolator iso_faraday_deg from to lower wi wf w1 w2 w3 wo ->
  (wi (I (Pt BkB, opol from)) = 0 -> power C_herm (wo (O (Pt BkA, from))) = (C_of (1 / 2) : C_fld) * power C_herm (wi (I (Pt FrA, from)))) /\
  (wo (I (Pt FrB, opol from)) = 0 -> power C_herm (wi (O (Pt FrA, from))) = (C_of (1 / 2) : C_fld) * power C_herm (wo (I (Pt BkA, from)))).
Proof.
  assert (radians iso_faraday_deg = 0)%R as Hr by (unfold iso_faraday_deg, radians, Q2R; cbn; field).
  assert (forall x, power C_herm (psign from * cr (cos (PI / 4)) * x) = (C_of (1 / 2) : C_fld) * power C_herm x) as Hp.
  { intros x. rewrite power_scale by (rewrite (h_conj_mul C_fld C_herm), conj_cr; f_equal; destruct from; cbn [psign]; rewrite ?(conj_opp C_herm), (conj_1 C_herm); done).
    transitivity ((psign from * psign from) * (cr (cos (PI / 4)) * cr (cos (PI / 4))) * power C_herm x); [ring|]. rewrite psign_sq, half_cos. ring. }
  intros H. split; intros H0.
  - rewrite (C93_forward_lem _ _ _ _ _ _ _ _ _ _ H H0), Hr, Rminus_0_r. apply Hp.
  - rewrite (C93_backward_lem _ _ _ _ _ _ _ _ _ _ H H0), Hr, Rplus_0_r. apply Hp.
Qed.

(** light of unit amplitude from the front *)
Definition fwd (u v : C_fld * C_fld) (n : nd (p2 * pol)) : C_fld :=
  match n with I (Fr, l) => comp l u | O (Bk, l) => comp l v | _ => 0 end.
Definition plated (v : C_fld * C_fld) : C_fld * C_fld := (v.1, - v.2).
Section example.
  Context (deg : Q).
  Definition e0 : C_fld * C_fld := (1, 0).
  Definition e1 := rot (radians deg) e0.
  Definition e2 := rot (radians (iso_plate_deg (iso_pols PolS PolS))) e1.
  Definition e3 := plated e2.
  Definition e4 := rot (radians (- iso_plate_deg (iso_pols PolS PolS))) e3.
  Definition ex_wi (n : nd (mport * pol)) : C_fld :=
    match n with I (Pt FrA, PolS) => 1 | O (Pt BkA, PolS) => 1 | _ => 0 end.
  Definition ex_wo (n : nd (mport * pol)) : C_fld :=
    match n with I (Pt FrA, l) => comp l e4 | O (Pt BkA, PolS) => e4.1 | O (Pt FrB, PolP) => e4.2 | _ => 0 end.
  Lemma rot_zero t : rot t (0, 0) = (0, 0).
  Proof. rewrite rot_cr. cbn [fst snd]. apply pair_eq_iff. split; ring. Qed.
  Lemma fwd_rot u t (f : bool) : obeys all_ports (rotator t f) [] (fwd u (rot (radians t) u)).
  Proof.
    apply rotator_lem. unfold vout, vin. cbn [fwd comp]. rewrite rot_zero. by rewrite <- !surjective_pairing.
  Qed.
  Lemma fwd_bonded u v v' : bonded (fwd u v) (fwd v v').
  Proof. split; done. Qed.
  Lemma ex_isolator lower : isolator deg PolS PolS lower ex_wi (fwd e0 e1) (fwd e1 e2) (fwd e2 e3) (fwd e3 e4) ex_wo /\ ex_wi (I (Pt BkB, opol PolS)) = 0.
  Proof.
    split; [|done]. unfold isolator. cbv zeta. split; [|split; [|split; [|split; [|split; [|split]]]]].
    - apply C93_ideal_lem. intros p l. destruct p, l; cbn; rewrite ?decide_True, ?decide_False by done; cbn; try done; unfold C_opp; cbn; f_equal; ring.
    - apply fwd_rot.
    - unfold mounted. split; [apply fwd_rot|]. split; [|split; [apply fwd_rot|split; apply fwd_bonded]].
      unfold half_wave_plate. apply plate_lem. cbv zeta.
      assert ((if lower then (1 : C_fld) else C_conj (1 : C_fld)) = 1 /\ (if lower then (- (1) : C_fld) else C_conj (- (1) : C_fld)) = - (1)) as [E1 E2].
      { destruct lower; [done|]. cbn. unfold C_conj, C_opp. cbn. split; f_equal; ring. }
      rewrite E1, E2. unfold vout, fwd, comp, e3, plated. cbn [fst snd]. split; apply pair_eq_iff; split; ring.
    - apply C93_ideal_lem. intros p l. destruct p, l; cbn; rewrite ?decide_True, ?decide_False by done; cbn; try done; unfold C_opp; cbn; f_equal; ring.
    - intros l. destruct l; split; done.
    - apply fwd_bonded.
    - intros l. destruct l; split; done.
  Qed.
End example.
Definition ex_pbs : pbs_args (K := C_fld) := PbsArgs (K := C_fld) (C_of (1 / 4)) (C_of (1 / 4)) (C_of (1 / 8)) (C_of (1 / 8)).
Lemma ex_pbs_ok : pbs_ok C_herm ex_pbs.
Proof.
  unfold pbs_ok, ex_pbs. cbn. unfold C_nn, C_sub, C_of. cbn. repeat split; cbn; lra.
Qed.
