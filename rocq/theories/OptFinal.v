(** Proofs of the theorems of OptProps.v. *)
From stdpp Require Import base tactics list numbers.
From Coq Require Import QArith Qreals Reals Lra.
From Verif Require Import Fld Herm ElecModel ElecSpec ElecProofs OptModel OptSpec OptProofs OptRot.
Local Open Scope fld_scope.
Add Field FCP : (f_theory C_fld).

(** C45: the mirror.  T_hr - L_t is transmitted, 1 - T_hr - L_hr - R_backscatter reflected.
    With dark loss ports everything but the losses comes out again: *)
Lemma C45_oblique_lem (K : fld) (h : herm K) (m : mirror_args) (lower : bool) (w : nd mport -> K) :
  mirror_ok h m -> four m = true -> phase m = None ->
  obeys (Pt <$> [FrA; BkA; FrB; BkB]) (mirror h m lower) [] w -> (forall p, w (I (Ls p)) = 0) ->
  p_out h (Pt <$> [FrA; BkA; FrB; BkB]) w = (1 - (L_hr m + L_t m)) * p_in h (Pt <$> [FrA; BkA; FrB; BkB]) w.
Proof. intros Hok. by apply mirror4_power. Qed.
Lemma C45_normal_lem (K : fld) (h : herm K) (m : mirror_args) (lower : bool) (w : nd mport -> K) :
  mirror_ok h m -> four m = false -> R_backscatter m = 0 -> phase m = None ->
  obeys (Pt <$> [FrA; BkA]) (mirror h m lower) [] w -> (forall p, w (I (Ls p)) = 0) ->
  p_out h (Pt <$> [FrA; BkA]) w = (1 - (L_hr m + L_t m)) * p_in h (Pt <$> [FrA; BkA]) w.
Proof. intros Hok. by apply mirror2_power. Qed.
(** with a reflection phase: for light from one side *)
Lemma C45_oblique_side_lem (K : fld) (h : herm K) (m : mirror_args) (lower : bool) (w : nd mport -> K) (side : bool) :
  mirror_ok h m -> four m = true -> R_backscatter m = 0 -> phase_ok h m ->
  obeys (Pt <$> [FrA; BkA; FrB; BkB]) (mirror h m lower) [] w -> (forall p, w (I (Ls p)) = 0) ->
  (if side then w (I (Pt BkA)) = 0 /\ w (I (Pt BkB)) = 0 else w (I (Pt FrA)) = 0 /\ w (I (Pt FrB)) = 0) ->
  p_out h (Pt <$> [FrA; BkA; FrB; BkB]) w = (1 - (L_hr m + L_t m)) * p_in h (Pt <$> [FrA; BkA; FrB; BkB]) w.
Proof. intros Hok. by apply mirror4_side. Qed.
Lemma C45_normal_side_lem (K : fld) (h : herm K) (m : mirror_args) (lower : bool) (w : nd mport -> K) (side : bool) :
  mirror_ok h m -> four m = false -> R_backscatter m = 0 -> phase_ok h m ->
  obeys (Pt <$> [FrA; BkA]) (mirror h m lower) [] w -> (forall p, w (I (Ls p)) = 0) ->
  (if side then w (I (Pt BkA)) = 0 else w (I (Pt FrA)) = 0) ->
  p_out h (Pt <$> [FrA; BkA]) w = (1 - (L_hr m + L_t m)) * p_in h (Pt <$> [FrA; BkA]) w.
Proof. intros Hok. by apply mirror2_side. Qed.
(** the couplings into each output, those from the loss ports included, are orthonormal:
    vacuum at all inputs gives vacuum at all outputs *)
Lemma C45_oblique_rows_lem (K : fld) (h : herm K) (m : mirror_args) (lower : bool) (p q : p4) :
  mirror_ok h m -> four m = true -> phase m = None ->
  fsum (fun f => gain (mirror h m lower) f (Pt p) * h_conj h (gain (mirror h m lower) f (Pt q)))
    ((Pt <$> [FrA; BkA; FrB; BkB]) ++ (Ls <$> [FrA; BkA; FrB; BkB])) = if decide (p = q) then 1 else 0.
Proof. intros Hok. by apply mirror4_rows. Qed.
Lemma C45_normal_rows_lem (K : fld) (h : herm K) (m : mirror_args) (lower : bool) (p q : p4) :
  mirror_ok h m -> four m = false -> R_backscatter m = 0 -> phase m = None ->
  p = FrA \/ p = BkA -> q = FrA \/ q = BkA ->
  fsum (fun f => gain (mirror h m lower) f (Pt p) * h_conj h (gain (mirror h m lower) f (Pt q)))
    ((Pt <$> [FrA; BkA]) ++ (Ls <$> [FrA; BkA])) = if decide (p = q) then 1 else 0.
Proof. intros Hok. by apply mirror2_rows. Qed.
(** raising fields stay the conjugates of lowering fields, whatever the settings *)
Lemma C45_conjugate_lem (K : fld) (h : herm K) (m : mirror_args) (w w' : nd mport -> K) :
  mirror_ok h m -> conj_of h w' w ->
  obeys (Pt <$> m_ports m) (mirror h m true) [] w -> obeys (Pt <$> m_ports m) (mirror h m false) [] w'.
Proof. intros Hok. by apply mirror_conj. Qed.

(** the reflection phase is the same from both sides: a lossless mirror lit from both makes
    power *)
Lemma C45_phase_refuted_lem : exists (w : nd mport -> C_fld),
  mirror_ok C_herm m_phase /\ phase_ok C_herm m_phase /\ L_hr m_phase + L_t m_phase = 0 /\ R_backscatter m_phase = 0 /\
  four m_phase = false /\ obeys (Pt <$> [FrA; BkA]) (mirror C_herm m_phase true) [] w /\
  (forall p, w (I (Ls p)) = 0) /\
  p_in C_herm (Pt <$> [FrA; BkA]) w = 1 + 1 /\ p_out C_herm (Pt <$> [FrA; BkA]) w = (1 + 1) * (C_of (49 / 25) : C_fld).
Proof.
  assert (m_t C_herm m_phase = c3_5 /\ m_r C_herm m_phase = c4_5 /\ m_b C_herm m_phase = 0 /\ m_l C_herm m_phase = 0) as (Ht & Hr & Hb & Hl).
  { unfold m_t, m_r, m_b, m_l, m_T, m_R, m_L. cbn. unfold C_sqrt, C_sub, C_mul, C_add, C_of. cbn.
    split_and!; f_equal.
    - replace (3 / 5 * (3 / 5) - 0 * 0 - 0)%R with (3 / 5 * (3 / 5))%R by field. rewrite sqrt_square by lra. done.
    - replace (1 - (3 / 5 * (3 / 5) - 0 * 0) - 0 - 0)%R with (4 / 5 * (4 / 5))%R by field. rewrite sqrt_square by lra. done.
    - apply R_sqrt.sqrt_0.
    - replace (0 + 0)%R with 0%R by ring. apply R_sqrt.sqrt_0. }
  exists (fun n => match n with I (Pt FrA) => 1 | I (Pt BkA) => (C_i : C_fld) | O (Pt FrA) => (c3_5 + c4_5) * C_i | O (Pt BkA) => c3_5 + c4_5 | _ => 0 end).
  split_and!; try done.
  - unfold mirror_ok, m_T, m_R. cbn. unfold C_nn, C_sub, C_mul. cbn. split_and!; lra.
  - unfold phase_ok, power. cbn. unfold C_mul, C_conj. cbn. f_equal; lra.
  - cbn. unfold C_add. cbn. f_equal; lra.
  - intros q Hq. assert (m_ph C_herm m_phase true = C_i) as Hph by done.
    assert ((C_i : C_fld) * C_i = - (1)) as Hi by (cbn; unfold C_mul, C_opp; cbn; f_equal; lra).
    cbn [fmap list_fmap] in Hq. rewrite !elem_of_cons, elem_of_nil in Hq.
    destruct Hq as [-> |[-> |[]]]; rewrite mirror2_out, Ht, Hr, Hb, Hl, Hph by auto; cbn [thru rsg].
    + ring.
    + transitivity (c3_5 - c4_5 * ((C_i : C_fld) * C_i)); [rewrite Hi|]; ring.
  - unfold p_in, power. cbn. unfold C_mul, C_conj, C_add. cbn. f_equal; lra.
  - unfold p_out, power, c3_5, c4_5, C_of. cbn. unfold C_mul, C_conj, C_add. cbn. f_equal; lra.
Qed.
(** at normal incidence the backscattered and the reflected amplitudes interfere: a lossless
    mirror loses power *)
Lemma C45_backscatter_normal_refuted_lem : exists (w : nd mport -> C_fld),
  mirror_ok C_herm m_back /\ L_hr m_back + L_t m_back = 0 /\ four m_back = false /\ phase m_back = None /\
  obeys (Pt <$> [FrA; BkA]) (mirror C_herm m_back true) [] w /\ (forall p, w (I (Ls p)) = 0) /\
  p_in C_herm (Pt <$> [FrA; BkA]) w = 1 /\ p_out C_herm (Pt <$> [FrA; BkA]) w = (C_of (1 / 25) : C_fld).
Proof.
  assert (m_t C_herm m_back = 0 /\ m_r C_herm m_back = c4_5 /\ m_b C_herm m_back = c3_5 /\ m_l C_herm m_back = 0) as (Ht & Hr & Hb & Hl).
  { unfold m_t, m_r, m_b, m_l, m_T, m_R, m_L. cbn. unfold C_sqrt, C_sub, C_mul, C_add, C_of. cbn.
    split_and!; f_equal.
    - replace (0 - 0)%R with 0%R by field. apply R_sqrt.sqrt_0.
    - replace (1 - 0 - 0 - (3 / 5 * (3 / 5) - 0 * 0))%R with (4 / 5 * (4 / 5))%R by field. rewrite sqrt_square by lra. done.
    - replace (3 / 5 * (3 / 5) - 0 * 0)%R with (3 / 5 * (3 / 5))%R by field. rewrite sqrt_square by lra. done.
    - replace (0 + 0)%R with 0%R by ring. apply R_sqrt.sqrt_0. }
  exists (fun n => match n with I (Pt FrA) => 1 | O (Pt FrA) => c4_5 - c3_5 | _ => 0 end).
  split_and!; try done.
  - unfold mirror_ok, m_T, m_R. cbn. unfold C_nn, C_sub, C_mul. cbn. split_and!; lra.
  - cbn. unfold C_add. cbn. f_equal; lra.
  - intros q Hq. assert (m_ph C_herm m_back true = 1 /\ m_phb C_herm m_back true = 1) as [Hph Hpb] by done.
    cbn [fmap list_fmap] in Hq. rewrite !elem_of_cons, elem_of_nil in Hq.
    destruct Hq as [-> |[-> |[]]]; rewrite mirror2_out, Ht, Hr, Hb, Hl, Hph, Hpb by auto; cbn [thru rsg]; ring.
  - unfold p_in, power. cbn. unfold C_mul, C_conj, C_add. cbn. f_equal; lra.
  - unfold p_out, power, c3_5, c4_5, C_of. cbn. unfold C_mul, C_conj, C_add, C_sub. cbn. f_equal; lra.
Qed.
(** the hypotheses can be met: a lossy oblique mirror with backscatter *)
Lemma C45_example_lem : let q : C_fld := C_of (1 / 4) in let z : C_fld := C_of (1 / 8) in
  let m := MirrorArgs (K := C_fld) q z z q false None false true in
  mirror_ok C_herm m /\ four m = true /\ phase m = None /\
  exists w : nd mport -> C_fld, obeys (Pt <$> [FrA; BkA; FrB; BkB]) (mirror C_herm m true) [] w /\ (forall p, w (I (Ls p)) = 0) /\ w (I (Pt FrA)) <> 0.
Proof.
  cbv zeta. set (m := MirrorArgs _ _ _ _ _ _ _ _). split_and!; try done.
  - unfold mirror_ok, m_T, m_R. cbn. unfold C_nn, C_sub. cbn. split_and!; lra.
  - set (a := fun n : nd mport => match n with I (Pt _) => (1 : C_fld) | _ => 0 end).
    exists (fun n => match n with I _ => a n | O p => emits (mirror C_herm m true) [] a (O p) | _ => 0 end).
    split_and!; [|done|apply f1_neq_0].
    intros q Hq. apply elem_of_list_fmap in Hq as [p [-> _]]. rewrite !mirror4_out by done. done.
Qed.

(** C46: spaces *)
Lemma C46_delay_lem (c : R) (sp : space_args) (lower : bool) (iwavelen_m F : R) (w : nd p2 -> C_fld) :
  obeys [Fr; Bk] (space c sp lower iwavelen_m F) [] w <->
  let x := (2 * PI * (F * L_m sp / c + L_detune_m sp * iwavelen_m))%R in
  let g := cis (if lower then - x else x)%R in
  w (O Bk) = g * w (I Fr) /\ w (O Fr) = g * w (I Bk).
Proof. apply space_lem. Qed.
Lemma C46_power_lem (c : R) (sp : space_args) (lower : bool) (iwavelen_m F : R) (w : nd p2 -> C_fld) :
  obeys [Fr; Bk] (space c sp lower iwavelen_m F) [] w ->
  power C_herm (w (O Bk)) = power C_herm (w (I Fr)) /\ power C_herm (w (O Fr)) = power C_herm (w (I Bk)).
Proof. rewrite space_lem. cbv zeta. intros [-> ->]. by rewrite !power_cis. Qed.
Lemma C46_compose_lem (c : R) (lower : bool) (iwavelen_m F : R) (l : list (space_args * (nd p2 -> C_fld)))
  (w w' : nd p2 -> C_fld) : c <> 0%R ->
  (forall e, e ∈ l -> obeys [Fr; Bk] (space c e.1 lower iwavelen_m F) [] e.2) -> chained l ->
  head (snd <$> l) = Some w -> last (snd <$> l) = Some w' ->
  obeys [Fr; Bk] (space c (total_args (fst <$> l)) lower iwavelen_m F) [] (ends w w').
Proof.
  intros Hc Hall Hch Hh Hl. rewrite space_lem. cbv zeta. rewrite phase_arg_sum by done. cbn [ends].
  revert w Hh Hall Hch. induction l as [|[sp w1] l IH]; [done|]. intros w [= <-] Hall Hch.
  pose proof (Hall (sp, w1) ltac:(set_solver)) as Ho. rewrite space_lem in Ho. cbv zeta in Ho. cbn [fst snd] in Ho.
  destruct l as [|[sp2 w2] l].
  - injection Hl as <-. rewrite !fmap_cons. cbn [fmap list_fmap foldr fst].
    rewrite Rplus_0_r. done.
  - destruct Hch as (H1 & H2 & Hch). destruct (IH Hl w2 eq_refl) as [E1 E2]; [intros e He; apply Hall; by right|done|].
    destruct Ho as [O1 O2]. rewrite !fmap_cons in *. cbn [foldr fst snd] in *. set (y := foldr Rplus 0%R _) in *.
    set (x := phase_arg c sp iwavelen_m F) in *. set (z := phase_arg c sp2 iwavelen_m F) in *.
    rewrite E1, O2, <- H1, O1, <- H2, E2.
    assert (cis (if lower then - (x + (z + y)) else x + (z + y)) = cis (if lower then - x else x) * cis (if lower then - (z + y) else z + y)) as ->.
    { rewrite <- cis_add. destruct lower; f_equal. ring. }
    split; ring.
Qed.
Lemma C46_inverse_lem (c : R) (sp : space_args) (iwavelen_m F : R) :
  phase_lower c sp iwavelen_m F * phase_raise c sp iwavelen_m F = 1 /\
  phase_raise c sp iwavelen_m F = h_conj C_herm (phase_lower c sp iwavelen_m F).
Proof.
  unfold phase_lower, phase_raise. rewrite <- cis_neg, Ropp_involutive. split; [|done].
  rewrite <- cis_add, Rplus_opp_l. apply cis_0.
Qed.
Lemma C46_example_lem : exists (l : list (space_args * (nd p2 -> C_fld))),
  length l = 2%nat /\ chained l /\ (forall e, e ∈ l -> obeys [Fr; Bk] (space 1 e.1 true 1 1) [] e.2).
Proof.
  set (a := SpaceArgs 1 0). set (g := cis (- phase_arg 1 a 1 1)).
  exists [(a, fun n => match n with I Fr => 1 | O Bk => g | _ => 0 end); (a, fun n => match n with I Fr => g | O Bk => g * g | _ => 0 end)].
  split_and!; [done..|]. intros e. rewrite !elem_of_cons, elem_of_nil.
  intros [-> |[-> |[]]]; apply space_lem; cbv zeta; cbn [fst snd]; fold g; split; ring.
Qed.

(** C47: rotators, with [rot] the rotation of the polarisation vector: every angle,
    whether special-cased or not *)
Lemma C47_rotation_lem (deg : Q) (faraday : bool) (w : nd (p2 * pol) -> C_fld) :
  obeys all_ports (rotator deg faraday) [] w <->
  vout w Bk = rot (radians deg) (vin w Fr) /\
  vout w Fr = rot (if faraday then radians deg else - radians deg) (vin w Bk).
Proof. apply rotator_lem. Qed.
(** bonded one after the other they act as the one rotator of the summed angle *)
Lemma C47_compose_lem (d1 d2 : Q) (faraday : bool) (w w' w'' : nd (p2 * pol) -> C_fld) :
  obeys all_ports (rotator d1 faraday) [] w -> obeys all_ports (rotator d2 faraday) [] w' -> bonded w w' ->
  obeys all_ports (rotator (d1 + d2) faraday) [] w'' ->
  vin w'' Fr = vin w Fr -> vin w'' Bk = vin w' Bk ->
  vout w'' Bk = vout w' Bk /\ vout w'' Fr = vout w Fr.
Proof.
  rewrite !rotator_lem. intros [A1 A2] [B1 B2] [H1 H2] [E1 E2] HF HB. rewrite E1, E2, HF, HB, B1, <- H1, A1, A2, <- H2, B2, !rot_rot.
  assert (radians (d1 + d2) = radians d1 + radians d2)%R as -> by (unfold radians; rewrite Q2R_plus; field).
  split; f_equal; [ring|destruct faraday; ring].
Qed.
(** light sent straight back: the reciprocal rotator is undone, the Faraday rotator doubled *)
Lemma C47_return_lem (deg : Q) (faraday : bool) (w : nd (p2 * pol) -> C_fld) :
  obeys all_ports (rotator deg faraday) [] w -> vin w Bk = vout w Bk ->
  vout w Fr = if faraday then rot (2 * radians deg) (vin w Fr) else vin w Fr.
Proof.
  rewrite rotator_lem. intros [H1 H2] H. rewrite H2, H, H1, rot_rot. destruct faraday.
  - f_equal. ring.
  - rewrite Rplus_opp_l. apply rot_0.
Qed.
Lemma C47_power_lem (deg : Q) (faraday : bool) (w : nd (p2 * pol) -> C_fld) :
  obeys all_ports (rotator deg faraday) [] w ->
  vpower (vout w Bk) = vpower (vin w Fr) /\ vpower (vout w Fr) = vpower (vin w Bk).
Proof. rewrite rotator_lem. intros [-> ->]. by rewrite !rot_power. Qed.

(** C61: wave plates in a mount turned by an angle: rotator, plate, counter-rotator *)
(** a half-wave plate mirrors linear polarisation at its axis *)
Lemma C61_half_lem (deg : Q) (lower : bool) (w1 w2 w3 : nd (p2 * pol) -> C_fld) (a : R) (x : C_fld) :
  mounted (half_wave_plate lower) deg w1 w2 w3 ->
  (vin w1 Fr = linear a x -> vout w3 Bk = linear (- a - 2 * radians deg) x) /\
  (vin w3 Bk = linear a x -> vout w1 Fr = linear (- a - 2 * radians deg) x).
Proof.
  intros (H1 & H2 & H3 & [B1 B2] & [B3 B4]). rewrite rotator_lem in H1, H3. unfold half_wave_plate in H2. rewrite plate_lem in H2. cbv zeta in H2.
  destruct H1 as [A1 A2], H2 as [P1 P2], H3 as [C1 C2].
  assert ((if lower then (1 : C_fld) else C_conj (1 : C_fld)) = 1 /\ (if lower then (- (1) : C_fld) else C_conj (- (1) : C_fld)) = - (1)) as [E1 E2].
  { destruct lower; [done|]. cbn. unfold C_conj, C_opp. cbn. split; f_equal; ring. }
  rewrite E1, E2 in P1, P2. assert (radians (- deg) = - radians deg)%R as Hn by (unfold radians; rewrite Q2R_opp; field).
  rewrite Hn in C1, C2.
  split; intros Hv.
  - rewrite C1, <- B3, P1. apply half_lem. rewrite <- Hv, <- A1, B1. done.
  - rewrite A2, <- B2, P2. apply half_lem. rewrite <- Hv. rewrite Ropp_involutive in C2. rewrite <- C2, B4. done.
Qed.
(** two quarter-wave plates at the same angle are a half-wave plate *)
Lemma C61_quarter_lem (deg : Q) (lower : bool) (w1 w2 w3 w4 w5 w6 v1 v2 v3 : nd (p2 * pol) -> C_fld) :
  mounted (quarter_wave_plate lower) deg w1 w2 w3 -> mounted (quarter_wave_plate lower) deg w4 w5 w6 -> bonded w3 w4 ->
  mounted (half_wave_plate lower) deg v1 v2 v3 ->
  vin v1 Fr = vin w1 Fr -> vout v3 Bk = vout w6 Bk.
Proof.
  intros (H1 & H2 & H3 & [B1 _] & [B3 _]) (H4 & H5 & H6 & [B5 _] & [B7 _]) [B9 _] (H7 & H8 & H9 & [B11 _] & [B13 _]) Hv.
  rewrite rotator_lem in H1, H3, H4, H6, H7, H9. unfold half_wave_plate, quarter_wave_plate in *. rewrite plate_lem in H2, H5, H8.
  cbv zeta in *. apply proj1 in H1, H2, H3, H4, H5, H6, H7, H8, H9.
  assert (radians (- deg) = - radians deg)%R as Hn by (unfold radians; rewrite Q2R_opp; field). rewrite Hn in *.
  rewrite H9, H6. f_equal. rewrite <- B13, <- B7, H8, H5.
  assert (vin w5 Fr = vout w2 Bk) as Ha.
  { rewrite <- B5, H4, <- B9, H3, rot_rot, Rplus_opp_r, rot_0. done. }
  assert (vin v2 Fr = vin w2 Fr) as Hb. { rewrite <- B11, H7, Hv, <- H1, B1. done. }
  rewrite H2 in Ha. unfold vin in Ha, Hb. apply pair_eq_iff in Ha as [-> ->], Hb as [-> ->].
  assert ((if lower then (- (1) : C_fld) else C_conj (- (1) : C_fld)) = (if lower then (C_i : C_fld) else C_conj C_i) * (if lower then (C_i : C_fld) else C_conj C_i)) as ->.
  { destruct lower; cbn; unfold C_conj, C_opp, C_mul; cbn; f_equal; ring. }
  assert ((if lower then (1 : C_fld) else C_conj (1 : C_fld)) = 1) as ->.
  { destruct lower; [done|]. cbn. unfold C_conj. cbn. f_equal; ring. }
  apply pair_eq_iff. split; ring.
Qed.
Lemma C47_example_lem : exists w, obeys all_ports (rotator (30 # 1) true) [] w /\ w (I (Fr, PolS)) <> 0.
Proof.
  set (v := rot (radians (30 # 1)) (1, 0)).
  exists (fun n => match n with I (Fr, PolS) => 1 | O (Bk, PolS) => v.1 | O (Bk, PolP) => v.2 | _ => 0 end).
  split; [|apply f1_neq_0]. apply rotator_lem. split.
  - unfold vout, vin. by rewrite <- surjective_pairing.
  - unfold vout, vin, rot. cbv zeta. cbn [fst snd]. apply pair_eq_iff. split; ring.
Qed.

(** C48: circulators *)
Lemma C48_routes_lem (K : fld) (N : nat) (w : nd nat -> K) :
  obeys (seq 0 N) (circulator N) [] w <-> forall k, (k < N)%nat -> w (O ((k + 1) mod N)%nat) = w (I k).
Proof. apply circulator_lem. Qed.
Lemma C48_permutation_lem (N j k : nat) : (j < N)%nat -> (k < N)%nat ->
  ((j + 1) mod N = (k + 1) mod N)%nat -> j = k.
Proof. apply circ_inj. Qed.
(** going on from port to port returns after exactly N steps *)
Lemma C48_order_lem (N k n : nat) : (k < N)%nat ->
  (Nat.iter n (fun j => ((j + 1) mod N)%nat) k = k <-> exists c, n = (c * N)%nat).
Proof.
  intros Hk. rewrite circ_iter by done. split.
  - intros H. exists ((k + n) / N)%nat. pose proof (Nat.div_mod_eq (k + n) N) as Hd. rewrite H in Hd. lia.
  - intros [c ->]. rewrite Nat.mod_add by lia. apply Nat.mod_small. done.
Qed.
Lemma C48_power_lem (K : fld) (h : herm K) (N : nat) (w : nd nat -> K) :
  obeys (seq 0 N) (circulator N) [] w -> p_out h (seq 0 N) w = p_in h (seq 0 N) w.
Proof.
  rewrite circulator_lem. intros Hw. unfold p_out, p_in. symmetry.
  rewrite (fsum_ext _ (fun k => power h (w (O ((k + 1) mod N)%nat)))).
  - rewrite <- (fsum_map (fun k => ((k + 1) mod N)%nat) (fun k => power h (w (O k)))). apply fsum_perm.
    apply NoDup_Permutation.
    + apply NoDup_fmap_2_strong; [|apply NoDup_seq]. intros x y Hx%elem_of_seq Hy%elem_of_seq. apply circ_inj; lia.
    + apply NoDup_seq.
    + intros k. rewrite elem_of_list_fmap, elem_of_seq. split.
      * intros (j & -> & Hj%elem_of_seq). split; [lia|]. apply Nat.mod_upper_bound. lia.
      * intros Hk. destruct (circ_next N k) as (j & Hj & <-); [lia|]. exists j. split; [done|]. apply elem_of_seq. lia.
  - intros k Hk%elem_of_seq. rewrite Hw by lia. done.
Qed.
