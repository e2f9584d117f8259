(** C45-C48 and C61: mirrors, spaces, rotators, wave plates and circulators. *)
From stdpp Require Import base tactics list numbers.
From Coq Require Import QArith Qreals Reals Lra.
From Verif Require Import Fld Herm ElecModel ElecSpec ElecProofs OptModel OptSpec OptProofs OptRot OptFinal.
Local Open Scope fld_scope.

(** C45: the mirror.  T_hr - L_t is transmitted, 1 - T_hr - L_hr - R_backscatter reflected.
    With dark loss ports everything but the losses comes out again: *)
Theorem C45_oblique (K : fld) (h : herm K) (m : mirror_args) (lower : bool) (w : nd mport -> K) :
  mirror_ok h m -> four m = true -> phase m = None ->
  obeys (Pt <$> [FrA; BkA; FrB; BkB]) (mirror h m lower) [] w -> (forall p, w (I (Ls p)) = 0) ->
  p_out h (Pt <$> [FrA; BkA; FrB; BkB]) w = (1 - (L_hr m + L_t m)) * p_in h (Pt <$> [FrA; BkA; FrB; BkB]) w.
Proof. eapply C45_oblique_lem. Qed.
Theorem C45_normal (K : fld) (h : herm K) (m : mirror_args) (lower : bool) (w : nd mport -> K) :
  mirror_ok h m -> four m = false -> R_backscatter m = 0 -> phase m = None ->
  obeys (Pt <$> [FrA; BkA]) (mirror h m lower) [] w -> (forall p, w (I (Ls p)) = 0) ->
  p_out h (Pt <$> [FrA; BkA]) w = (1 - (L_hr m + L_t m)) * p_in h (Pt <$> [FrA; BkA]) w.
Proof. eapply C45_normal_lem. Qed.
(** with a reflection phase: for light from one side *)
Theorem C45_oblique_side (K : fld) (h : herm K) (m : mirror_args) (lower : bool) (w : nd mport -> K) (side : bool) :
  mirror_ok h m -> four m = true -> R_backscatter m = 0 -> phase_ok h m ->
  obeys (Pt <$> [FrA; BkA; FrB; BkB]) (mirror h m lower) [] w -> (forall p, w (I (Ls p)) = 0) ->
  (if side then w (I (Pt BkA)) = 0 /\ w (I (Pt BkB)) = 0 else w (I (Pt FrA)) = 0 /\ w (I (Pt FrB)) = 0) ->
  p_out h (Pt <$> [FrA; BkA; FrB; BkB]) w = (1 - (L_hr m + L_t m)) * p_in h (Pt <$> [FrA; BkA; FrB; BkB]) w.
Proof. eapply C45_oblique_side_lem. Qed.
Theorem C45_normal_side (K : fld) (h : herm K) (m : mirror_args) (lower : bool) (w : nd mport -> K) (side : bool) :
  mirror_ok h m -> four m = false -> R_backscatter m = 0 -> phase_ok h m ->
  obeys (Pt <$> [FrA; BkA]) (mirror h m lower) [] w -> (forall p, w (I (Ls p)) = 0) ->
  (if side then w (I (Pt BkA)) = 0 else w (I (Pt FrA)) = 0) ->
  p_out h (Pt <$> [FrA; BkA]) w = (1 - (L_hr m + L_t m)) * p_in h (Pt <$> [FrA; BkA]) w.
Proof. eapply C45_normal_side_lem. Qed.
(** the couplings into each output, those from the loss ports included, are orthonormal:
    vacuum at all inputs gives vacuum at all outputs *)
Theorem C45_oblique_rows (K : fld) (h : herm K) (m : mirror_args) (lower : bool) (p q : p4) :
  mirror_ok h m -> four m = true -> phase m = None ->
  fsum (fun f => gain (mirror h m lower) f (Pt p) * h_conj h (gain (mirror h m lower) f (Pt q)))
    ((Pt <$> [FrA; BkA; FrB; BkB]) ++ (Ls <$> [FrA; BkA; FrB; BkB])) = if decide (p = q) then 1 else 0.
Proof. eapply C45_oblique_rows_lem. Qed.
Theorem C45_normal_rows (K : fld) (h : herm K) (m : mirror_args) (lower : bool) (p q : p4) :
  mirror_ok h m -> four m = false -> R_backscatter m = 0 -> phase m = None ->
  p = FrA \/ p = BkA -> q = FrA \/ q = BkA ->
  fsum (fun f => gain (mirror h m lower) f (Pt p) * h_conj h (gain (mirror h m lower) f (Pt q)))
    ((Pt <$> [FrA; BkA]) ++ (Ls <$> [FrA; BkA])) = if decide (p = q) then 1 else 0.
Proof. eapply C45_normal_rows_lem. Qed.
(** raising fields stay the conjugates of lowering fields, whatever the settings *)
Theorem C45_conjugate (K : fld) (h : herm K) (m : mirror_args) (w w' : nd mport -> K) :
  mirror_ok h m -> conj_of h w' w ->
  obeys (Pt <$> m_ports m) (mirror h m true) [] w -> obeys (Pt <$> m_ports m) (mirror h m false) [] w'.
Proof. eapply C45_conjugate_lem. Qed.

(** the reflection phase is the same from both sides: a lossless mirror lit from both makes
    power *)
Theorem C45_phase_refuted : exists (w : nd mport -> C_fld),
  mirror_ok C_herm m_phase /\ phase_ok C_herm m_phase /\ L_hr m_phase + L_t m_phase = 0 /\ R_backscatter m_phase = 0 /\
  four m_phase = false /\ obeys (Pt <$> [FrA; BkA]) (mirror C_herm m_phase true) [] w /\
  (forall p, w (I (Ls p)) = 0) /\
  p_in C_herm (Pt <$> [FrA; BkA]) w = 1 + 1 /\ p_out C_herm (Pt <$> [FrA; BkA]) w = (1 + 1) * (C_of (49 / 25) : C_fld).
Proof. eapply C45_phase_refuted_lem. Qed.
(** at normal incidence the backscattered and the reflected amplitudes interfere: a lossless
    mirror loses power *)
Theorem C45_backscatter_normal_refuted : exists (w : nd mport -> C_fld),
  mirror_ok C_herm m_back /\ L_hr m_back + L_t m_back = 0 /\ four m_back = false /\ phase m_back = None /\
  obeys (Pt <$> [FrA; BkA]) (mirror C_herm m_back true) [] w /\ (forall p, w (I (Ls p)) = 0) /\
  p_in C_herm (Pt <$> [FrA; BkA]) w = 1 /\ p_out C_herm (Pt <$> [FrA; BkA]) w = (C_of (1 / 25) : C_fld).
Proof. eapply C45_backscatter_normal_refuted_lem. Qed.
(** the hypotheses can be met: a lossy oblique mirror with backscatter *)
Example C45_example : let q : C_fld := C_of (1 / 4) in let z : C_fld := C_of (1 / 8) in
  let m := MirrorArgs (K := C_fld) q z z q false None false true in
  mirror_ok C_herm m /\ four m = true /\ phase m = None /\
  exists w : nd mport -> C_fld, obeys (Pt <$> [FrA; BkA; FrB; BkB]) (mirror C_herm m true) [] w /\ (forall p, w (I (Ls p)) = 0) /\ w (I (Pt FrA)) <> 0.
Proof. eapply C45_example_lem. Qed.

(** C46: spaces *)
Theorem C46_delay (c : R) (sp : space_args) (lower : bool) (iwavelen_m F : R) (w : nd p2 -> C_fld) :
  obeys [Fr; Bk] (space c sp lower iwavelen_m F) [] w <->
  let x := (2 * PI * (F * L_m sp / c + L_detune_m sp * iwavelen_m))%R in
  let g := cis (if lower then - x else x)%R in
  w (O Bk) = g * w (I Fr) /\ w (O Fr) = g * w (I Bk).
Proof. eapply C46_delay_lem. Qed.
Theorem C46_power (c : R) (sp : space_args) (lower : bool) (iwavelen_m F : R) (w : nd p2 -> C_fld) :
  obeys [Fr; Bk] (space c sp lower iwavelen_m F) [] w ->
  power C_herm (w (O Bk)) = power C_herm (w (I Fr)) /\ power C_herm (w (O Fr)) = power C_herm (w (I Bk)).
Proof. eapply C46_power_lem. Qed.
Theorem C46_compose (c : R) (lower : bool) (iwavelen_m F : R) (l : list (space_args * (nd p2 -> C_fld)))
  (w w' : nd p2 -> C_fld) : c <> 0%R ->
  (forall e, e ∈ l -> obeys [Fr; Bk] (space c e.1 lower iwavelen_m F) [] e.2) -> chained l ->
  head (snd <$> l) = Some w -> last (snd <$> l) = Some w' ->
  obeys [Fr; Bk] (space c (total_args (fst <$> l)) lower iwavelen_m F) [] (ends w w').
Proof. eapply C46_compose_lem. Qed.
Theorem C46_inverse (c : R) (sp : space_args) (iwavelen_m F : R) :
  phase_lower c sp iwavelen_m F * phase_raise c sp iwavelen_m F = 1 /\
  phase_raise c sp iwavelen_m F = h_conj C_herm (phase_lower c sp iwavelen_m F).
Proof. eapply C46_inverse_lem. Qed.
Example C46_example : exists (l : list (space_args * (nd p2 -> C_fld))),
  length l = 2%nat /\ chained l /\ (forall e, e ∈ l -> obeys [Fr; Bk] (space 1 e.1 true 1 1) [] e.2).
Proof. eapply C46_example_lem. Qed.

(** C47: rotators, with [rot] the rotation of the polarisation vector: every angle,
    whether special-cased or not *)
Theorem C47_rotation (deg : Q) (faraday : bool) (w : nd (p2 * pol) -> C_fld) :
  obeys all_ports (rotator deg faraday) [] w <->
  vout w Bk = rot (radians deg) (vin w Fr) /\
  vout w Fr = rot (if faraday then radians deg else - radians deg) (vin w Bk).
Proof. eapply C47_rotation_lem. Qed.
(** bonded one after the other they act as the one rotator of the summed angle *)
Theorem C47_compose (d1 d2 : Q) (faraday : bool) (w w' w'' : nd (p2 * pol) -> C_fld) :
  obeys all_ports (rotator d1 faraday) [] w -> obeys all_ports (rotator d2 faraday) [] w' -> bonded w w' ->
  obeys all_ports (rotator (d1 + d2) faraday) [] w'' ->
  vin w'' Fr = vin w Fr -> vin w'' Bk = vin w' Bk ->
  vout w'' Bk = vout w' Bk /\ vout w'' Fr = vout w Fr.
Proof. eapply C47_compose_lem. Qed.
(** light sent straight back: the reciprocal rotator is undone, the Faraday rotator doubled *)
Theorem C47_return (deg : Q) (faraday : bool) (w : nd (p2 * pol) -> C_fld) :
  obeys all_ports (rotator deg faraday) [] w -> vin w Bk = vout w Bk ->
  vout w Fr = if faraday then rot (2 * radians deg) (vin w Fr) else vin w Fr.
Proof. eapply C47_return_lem. Qed.
Theorem C47_power (deg : Q) (faraday : bool) (w : nd (p2 * pol) -> C_fld) :
  obeys all_ports (rotator deg faraday) [] w ->
  vpower (vout w Bk) = vpower (vin w Fr) /\ vpower (vout w Fr) = vpower (vin w Bk).
Proof. eapply C47_power_lem. Qed.

(** C61: wave plates in a mount turned by an angle: rotator, plate, counter-rotator *)
(** a half-wave plate mirrors linear polarisation at its axis *)
Theorem C61_half (deg : Q) (lower : bool) (w1 w2 w3 : nd (p2 * pol) -> C_fld) (a : R) (x : C_fld) :
  mounted (half_wave_plate lower) deg w1 w2 w3 ->
  (vin w1 Fr = linear a x -> vout w3 Bk = linear (- a - 2 * radians deg) x) /\
  (vin w3 Bk = linear a x -> vout w1 Fr = linear (- a - 2 * radians deg) x).
Proof. eapply C61_half_lem. Qed.
(** two quarter-wave plates at the same angle are a half-wave plate *)
Theorem C61_quarter (deg : Q) (lower : bool) (w1 w2 w3 w4 w5 w6 v1 v2 v3 : nd (p2 * pol) -> C_fld) :
  mounted (quarter_wave_plate lower) deg w1 w2 w3 -> mounted (quarter_wave_plate lower) deg w4 w5 w6 -> bonded w3 w4 ->
  mounted (half_wave_plate lower) deg v1 v2 v3 ->
  vin v1 Fr = vin w1 Fr -> vout v3 Bk = vout w6 Bk.
Proof. eapply C61_quarter_lem. Qed.
Example C47_example : exists w, obeys all_ports (rotator (30 # 1) true) [] w /\ w (I (Fr, PolS)) <> 0.
Proof. eapply C47_example_lem. Qed.

(** C48: circulators *)
Theorem C48_routes (K : fld) (N : nat) (w : nd nat -> K) :
  obeys (seq 0 N) (circulator N) [] w <-> forall k, (k < N)%nat -> w (O ((k + 1) mod N)%nat) = w (I k).
Proof. eapply C48_routes_lem. Qed.
Theorem C48_permutation (N j k : nat) : (j < N)%nat -> (k < N)%nat ->
  ((j + 1) mod N = (k + 1) mod N)%nat -> j = k.
Proof. eapply C48_permutation_lem. Qed.
(** going on from port to port returns after exactly N steps *)
Theorem C48_order (N k n : nat) : (k < N)%nat ->
  (Nat.iter n (fun j => ((j + 1) mod N)%nat) k = k <-> exists c, n = (c * N)%nat).
Proof. eapply C48_order_lem. Qed.
Theorem C48_power (K : fld) (h : herm K) (N : nat) (w : nd nat -> K) :
  obeys (seq 0 N) (circulator N) [] w -> p_out h (seq 0 N) w = p_in h (seq 0 N) w.
Proof. eapply C48_power_lem. Qed.

Print Assumptions C45_oblique.
Print Assumptions C45_normal.
Print Assumptions C45_oblique_side.
Print Assumptions C45_normal_side.
Print Assumptions C45_oblique_rows.
Print Assumptions C45_normal_rows.
Print Assumptions C45_conjugate.
Print Assumptions C45_phase_refuted.
Print Assumptions C45_backscatter_normal_refuted.
Print Assumptions C46_delay.
Print Assumptions C46_power.
Print Assumptions C46_compose.
Print Assumptions C46_inverse.
Print Assumptions C47_rotation.
Print Assumptions C47_compose.
Print Assumptions C47_return.
Print Assumptions C47_power.
Print Assumptions C61_half.
Print Assumptions C61_quarter.
Print Assumptions C48_routes.
Print Assumptions C48_permutation.
Print Assumptions C48_order.
Print Assumptions C48_power.
