(** C38-C44 and C60: the electrical (and mechanical) elements.  ElecSpec.v defines [obeys]
    (the outgoing waves are what the element's couplings emit), [volt], [curr] and [power]. *)
From stdpp Require Import base tactics list numbers.
From Coq Require Import QArith Qcanon Reals.
From Verif Require Import Fld Herm ElecModel ElecSpec ElecProofs ElecFinal.
Local Open Scope fld_scope.

(** C38: terminators *)
Theorem C38_impedance (K : fld) (Z0 Z : K) (w : nd pA -> K) : Z0 <> 0 -> Z + Z0 <> 0 ->
  (obeys [A1] (t_impedance Z0 Z) [] w <-> volt w A1 = Z * curr Z0 w A1).
Proof. exact (t_impedance_lem Z0 Z w). Qed.
Print Assumptions C38_impedance.
Theorem C38_admittance (K : fld) (Z0 Y : K) (w : nd pA -> K) : Z0 <> 0 -> 1 + Y * Z0 <> 0 ->
  (obeys [A1] (t_admittance Z0 Y) [] w <-> curr Z0 w A1 = Y * volt w A1).
Proof. exact (t_admittance_lem Z0 Y w). Qed.
Print Assumptions C38_admittance.
Theorem C38_limits (K : fld) (Z0 : K) (w : nd pA -> K) : Z0 <> 0 -> (1 + 1 : K) <> 0 ->
  (obeys [A1] t_open [] w <-> curr Z0 w A1 = 0) /\
  (obeys [A1] t_shorted [] w <-> volt w A1 = 0) /\
  (obeys [A1] t_matched [] w <-> volt w A1 = Z0 * curr Z0 w A1).
Proof. exact (C38_limits_lem K Z0 w). Qed.
Print Assumptions C38_limits.
(** the resistor, capacitor and inductor: [s] is i 2 pi F *)
Theorem C38_rlc (K : fld) (Z0 s R C L : K) (w : nd pA -> K) : Z0 <> 0 ->
  (R + Z0 <> 0 -> (obeys [A1] (t_impedance Z0 (resistor R)) [] w <-> volt w A1 = R * curr Z0 w A1)) /\
  (1 + s * C * Z0 <> 0 -> (obeys [A1] (t_admittance Z0 (capacitor s C)) [] w <-> curr Z0 w A1 = s * (C * volt w A1))) /\
  (R + s * L + Z0 <> 0 -> (obeys [A1] (t_impedance Z0 (inductor s R L)) [] w <-> volt w A1 = R * curr Z0 w A1 + s * (L * curr Z0 w A1))).
Proof. exact (C38_rlc_lem K Z0 s R C L w). Qed.
Print Assumptions C38_rlc.
(** the mechanical ones, displacement for voltage and force for current: F = R v, F = k x
    (lossy: k (1 + i phi) x), F = m a, the derivatives being s x and s (s x) *)
Theorem C38_mechanical (K : fld) (Z0 s i R k l m : K) (w : nd pA -> K) : Z0 <> 0 ->
  (1 + s * R * Z0 <> 0 -> (obeys [A1] (t_admittance Z0 (damper s R)) [] w <-> curr Z0 w A1 = R * (s * volt w A1))) /\
  (1 + k * Z0 <> 0 -> (obeys [A1] (t_admittance Z0 (spring i k None)) [] w <-> curr Z0 w A1 = k * volt w A1)) /\
  (1 + k * (1 + i * l) * Z0 <> 0 ->
    (obeys [A1] (t_admittance Z0 (spring i k (Some l))) [] w <-> curr Z0 w A1 = k * volt w A1 + i * (k * l * volt w A1))) /\
  (1 + s * s * m * Z0 <> 0 -> (obeys [A1] (t_admittance Z0 (mass s m)) [] w <-> curr Z0 w A1 = m * (s * (s * volt w A1)))).
Proof. exact (C38_mechanical_lem K Z0 s i R k l m w). Qed.
Print Assumptions C38_mechanical.

(** C39: series elements *)
Theorem C39_impedance (K : fld) (Z0 Z : K) (w : nd pAB -> K) : Z0 <> 0 -> (1 + 1 : K) <> 0 -> Z + Z0 * (1 + 1) <> 0 ->
  (obeys [AA; BB] (s_impedance Z0 Z) [] w <->
   curr Z0 w AA + curr Z0 w BB = 0 /\ volt w AA - volt w BB = Z * curr Z0 w AA).
Proof. exact (s_impedance_lem Z0 Z w). Qed.
Print Assumptions C39_impedance.
Theorem C39_admittance (K : fld) (Z0 Y : K) (w : nd pAB -> K) : Z0 <> 0 -> (1 + 1 : K) <> 0 -> 1 + Y * Z0 * (1 + 1) <> 0 ->
  (obeys [AA; BB] (s_admittance Z0 Y) [] w <->
   curr Z0 w AA + curr Z0 w BB = 0 /\ curr Z0 w AA = Y * (volt w AA - volt w BB)).
Proof. exact (s_admittance_lem Z0 Y w). Qed.
Print Assumptions C39_admittance.

(** C40: connections of N ports *)
Theorem C40_kirchhoff (K : fld) (N : nat) (Z0 : K) (w : nd nat -> K) : Z0 <> 0 -> ofnat N <> (0 : K) ->
  (obeys (seq 0 N) (connection N) [] w <->
   (forall p q, (p < N)%nat -> (q < N)%nat -> volt w p = volt w q) /\ fsum (curr Z0 w) (seq 0 N) = 0).
Proof. exact (connection_lem N Z0 w). Qed.
Print Assumptions C40_kirchhoff.
(** [conn_out N x p]: what port p sends out when x comes in *)
Theorem C40_involution (K : fld) (N : nat) (x : nat -> K) (p : nat) : (p < N)%nat -> ofnat N <> (0 : K) ->
  conn_out N (conn_out N x) p = x p.
Proof. exact (conn_involution N x p). Qed.
Print Assumptions C40_involution.
Theorem C40_orthogonal (K : fld) (N : nat) (x y : nat -> K) : ofnat N <> (0 : K) ->
  fsum (fun p => conn_out N x p * conn_out N y p) (seq 0 N) = fsum (fun p => x p * y p) (seq 0 N).
Proof. exact (conn_orthogonal N x y). Qed.
Print Assumptions C40_orthogonal.

(** C41: sources; signal 0 (1) is the drive, and current is counted into the element *)
Theorem C41_voltage (K : fld) (V_DC : K) (w : nd pA -> K) :
  obeys [A1] voltage_source (voltage_source_dc V_DC) w <-> volt w A1 = w (Sg 0) + V_DC.
Proof. exact (voltage_source_lem V_DC w). Qed.
Print Assumptions C41_voltage.
Theorem C41_current (K : fld) (Z0 I_DC : K) (w : nd pA -> K) : Z0 <> 0 ->
  (obeys [A1] (current_source Z0) (current_source_dc Z0 I_DC) w <-> curr Z0 w A1 = - (w (Sg 0) + I_DC)).
Proof. exact (current_source_lem Z0 I_DC w). Qed.
Print Assumptions C41_current.
Theorem C41_voltage_balanced (K : fld) (Z0 V_DC I_DC : K) (w : nd pAB -> K) : Z0 <> 0 -> (1 + 1 : K) <> 0 ->
  (obeys [AA; BB] (voltage_source_balanced Z0) (voltage_source_balanced_dc Z0 V_DC I_DC) w <->
   volt w AA - volt w BB = w (Sg 0) + V_DC /\ curr Z0 w AA + curr Z0 w BB = - (w (Sg 1) + I_DC)).
Proof. exact (voltage_source_balanced_lem Z0 V_DC I_DC w). Qed.
Print Assumptions C41_voltage_balanced.
(** the balanced current source sends the same current out of both ports *)
Theorem C41_current_balanced (K : fld) (Z0 I_DC : K) (w : nd pAB -> K) : Z0 <> 0 ->
  (obeys [AA; BB] (current_source_balanced Z0) (current_source_balanced_dc Z0 I_DC) w <->
   curr Z0 w AA = - (w (Sg 0) + I_DC) /\ curr Z0 w BB = - (w (Sg 0) + I_DC)).
Proof. exact (current_source_balanced_lem Z0 I_DC w). Qed.
Print Assumptions C41_current_balanced.
Theorem C41_current_balanced_refuted : exists (Z0 I_DC : Qc_fld) w,
  obeys [AA; BB] (current_source_balanced Z0) (current_source_balanced_dc Z0 I_DC) w /\
  curr Z0 w AA + curr Z0 w BB <> 0.
Proof. exact C41_current_balanced_refuted_lem. Qed.
Print Assumptions C41_current_balanced_refuted.

(** C42: the two-by-two element realises the admittances 1/Zij, not the impedances Zij *)
Theorem C42_admittance (K : fld) (Z0 Z11 Z12 Z22 : K) (w : nd pABCD -> K) :
  Z0 <> 0 -> (1 + 1 : K) <> 0 -> Z11 <> 0 -> Z12 <> 0 -> Z22 <> 0 ->
  1 / Z0 * (1 / Z0) * (Z11 * Z22 * Z12 * Z12) + (1 + 1) * (1 / Z0) * (Z12 * Z12) * (Z11 + Z22) - (1 + 1) * (1 + 1) * (Z11 * Z22 - Z12 * Z12) <> 0 ->
  obeys [PA; PB; PC; PD] (z2x2 Z0 Z11 Z12 Z12 Z22) [] w ->
  curr Z0 w PA + curr Z0 w PB = 0 /\ curr Z0 w PC + curr Z0 w PD = 0 /\
  curr Z0 w PA = (volt w PA - volt w PB) / Z11 + (volt w PC - volt w PD) / Z12 /\
  curr Z0 w PC = (volt w PA - volt w PB) / Z12 + (volt w PC - volt w PD) / Z22.
Proof. exact (z2x2_lem Z0 Z11 Z12 Z22 w). Qed.
Print Assumptions C42_admittance.
Theorem C42_impedance_refuted : exists (Z0 Z11 Z12 Z22 : Qc_fld) w,
  obeys [PA; PB; PC; PD] (z2x2 Z0 Z11 Z12 Z12 Z22) [] w /\
  volt w PA - volt w PB <> Z11 * curr Z0 w PA + Z12 * curr Z0 w PC.
Proof. exact C42_impedance_refuted_lem. Qed.
Print Assumptions C42_impedance_refuted.
(** nor the admittances when Z12 and Z21 differ, whichever of the two couples C and D to A and B *)
Theorem C42_nonreciprocal_refuted : exists (Z0 Z11 Z12 Z21 Z22 : Qc_fld) w,
  obeys [PA; PB; PC; PD] (z2x2 Z0 Z11 Z12 Z21 Z22) [] w /\
  curr Z0 w PA <> (volt w PA - volt w PB) / Z11 + (volt w PC - volt w PD) / Z12 /\
  curr Z0 w PA <> (volt w PA - volt w PB) / Z11 + (volt w PC - volt w PD) / Z21.
Proof. exact C42_nonreciprocal_refuted_lem. Qed.
Print Assumptions C42_nonreciprocal_refuted.
(** without coupling it is a pair of plain wires, whatever Z11 and Z22 *)
Theorem C42_uncoupled_refuted (K : fld) (Z0 Z11 Z22 : K) (w : nd pABCD -> K) :
  Z0 <> 0 -> (1 + 1 : K) <> 0 -> Z11 <> 0 -> Z22 <> 0 ->
  (obeys [PA; PB; PC; PD] (z2x2 Z0 Z11 0 0 Z22) [] w <->
   w (O PA) = w (I PB) /\ w (O PB) = w (I PA) /\ w (O PC) = w (I PD) /\ w (O PD) = w (I PC)).
Proof. exact (C42_uncoupled_refuted_lem K Z0 Z11 Z22 w). Qed.
Print Assumptions C42_uncoupled_refuted.

(** C43: amplifiers *)
Theorem C43_opamp (K : fld) (Z0 g : K) (w : nd pAmp -> K) : Z0 <> 0 ->
  (obeys [InP; InN; Out] (opamp g) [] w <->
   curr Z0 w InP = 0 /\ curr Z0 w InN = 0 /\ volt w Out = g * (volt w InP - volt w InN)).
Proof. exact (opamp_lem Z0 g w). Qed.
Print Assumptions C43_opamp.
Theorem C43_vamp (K : fld) (Z0 g Yi : K) (w : nd pAmp -> K) : Z0 <> 0 -> 1 + Yi * Z0 <> 0 ->
  (obeys [InN; Out] (vamp Z0 g Yi 0) [] w <-> curr Z0 w InN = Yi * volt w InN /\ volt w Out = - (g * volt w InN)).
Proof. exact (vamp_lem Z0 g Yi w). Qed.
Print Assumptions C43_vamp.
(** with an output impedance the VAmp's open-circuit output is not gain times input *)
Theorem C43_vamp_output_refuted : exists (Z0 g Zo : Qc_fld) w,
  obeys [InN; Out] (vamp Z0 g 0 Zo) [] w /\ curr Z0 w Out = 0 /\ volt w Out <> - (g * volt w InN).
Proof. exact C43_vamp_output_refuted_lem. Qed.
Print Assumptions C43_vamp_output_refuted.

(** C44: [taken] is incoming minus outgoing power at a port; Z0 real and positive *)
Theorem C44_terminators (K : fld) (h : herm K) (Z0 Z Y : K) (w : nd pA -> K) : Z0 <> 0 -> h_nn h Z0 ->
  (Z + Z0 <> 0 -> h_nn h (Z + h_conj h Z) -> obeys [A1] (t_impedance Z0 Z) [] w -> h_nn h (taken h w A1)) /\
  (1 + Y * Z0 <> 0 -> h_nn h (Y + h_conj h Y) -> obeys [A1] (t_admittance Z0 Y) [] w -> h_nn h (taken h w A1)).
Proof. exact (C44_terminators_lem K h Z0 Z Y w). Qed.
Print Assumptions C44_terminators.
Theorem C44_series (K : fld) (h : herm K) (Z0 Z Y : K) (w : nd pAB -> K) : Z0 <> 0 -> h_nn h Z0 ->
  (Z + Z0 * (1 + 1) <> 0 -> h_nn h (Z + h_conj h Z) -> obeys [AA; BB] (s_impedance Z0 Z) [] w -> h_nn h (taken h w AA + taken h w BB)) /\
  (1 + Y * Z0 * (1 + 1) <> 0 -> h_nn h (Y + h_conj h Y) -> obeys [AA; BB] (s_admittance Z0 Y) [] w -> h_nn h (taken h w AA + taken h w BB)).
Proof. exact (C44_series_lem K h Z0 Z Y w). Qed.
Print Assumptions C44_series.
Theorem C44_connection (K : fld) (h : herm K) (N : nat) (w : nd nat -> K) : ofnat N <> (0 : K) ->
  obeys (seq 0 N) (connection N) [] w -> fsum (taken h w) (seq 0 N) = 0.
Proof. exact (connection_passive h N w). Qed.
Print Assumptions C44_connection.
Theorem C44_cable (K : fld) (h : herm K) (ph : K) (w : nd pAB -> K) : h_nn h (1 - power h ph) ->
  obeys [AA; BB] (cable ph) [] w -> h_nn h (taken h w AA + taken h w BB).
Proof. exact (cable_passive h ph w). Qed.
Print Assumptions C44_cable.
(** reactances have no real part and take no power; neither does a cable without loss *)
Theorem C44_reactance (K : fld) (h : herm K) (Z0 s C L : K) (w : nd pA -> K) : Z0 <> 0 -> h_nn h Z0 ->
  h_conj h s = - s -> h_conj h C = C -> h_conj h L = L ->
  (1 + s * C * Z0 <> 0 -> obeys [A1] (t_admittance Z0 (capacitor s C)) [] w -> taken h w A1 = 0) /\
  (0 + s * L + Z0 <> 0 -> obeys [A1] (t_impedance Z0 (inductor s 0 L)) [] w -> taken h w A1 = 0).
Proof. exact (C44_reactance_lem K h Z0 s C L w). Qed.
Print Assumptions C44_reactance.
Theorem C44_delay (F t : R) (w : nd pAB -> C_fld) :
  obeys [AA; BB] (cable (K := C_fld) (cos (2 * PI * F * t), - sin (2 * PI * F * t))%R) [] w ->
  taken C_herm w AA + taken C_herm w BB = 0.
Proof. exact (C44_delay_lem F t w). Qed.
Print Assumptions C44_delay.
(** a positive definite two-by-two impedance can put out more power than it takes *)
Theorem C44_z2x2_refuted : exists (Z0 Z11 Z12 Z22 : Qc_fld) w,
  (0 < Z11 /\ 0 < Z22 /\ 0 < Z11 * Z22 - Z12 * Z12)%Qc /\
  obeys [PA; PB; PC; PD] (z2x2 Z0 Z11 Z12 Z12 Z22) [] w /\
  (w (I PA) * w (I PA) + w (I PB) * w (I PB) + w (I PC) * w (I PC) + w (I PD) * w (I PD) <
   w (O PA) * w (O PA) + w (O PB) * w (O PB) + w (O PC) * w (O PC) + w (O PD) * w (O PD))%Qc.
Proof. exact C44_z2x2_refuted_lem. Qed.
Print Assumptions C44_z2x2_refuted.

(** C60: meters and fluctuations.  [a] arrives from outside and [e] is emitted by the
    element at the port: the voltage fluctuation is a source in series with the port, the
    current fluctuation one in parallel. *)
Theorem C60_meters (K : fld) (Z0 : K) (p q : nat) (w : nd nat -> K) : Z0 <> 0 ->
  emits (voltage_readout p None) [] w (Sg 5) = volt w p /\
  emits (voltage_readout p (Some q)) [] w (Sg 5) = volt w p - volt w q /\
  emits (current_readout Z0 p true) [] w (Sg 5) = curr Z0 w p /\
  emits (current_readout Z0 p false) [] w (Sg 5) = - curr Z0 w p.
Proof. exact (C60_meters_lem K Z0 p q w). Qed.
Print Assumptions C60_meters.
Theorem C60_voltage_fluctuation (K : fld) (Z0 : K) (p : nat) (w : nd nat -> K) (a e : K) : Z0 <> 0 -> (1 + 1 : K) <> 0 ->
  w (I p) = a + emits (voltage_fluctuation p) [] w (I p) -> w (O p) = e + emits (voltage_fluctuation p) [] w (O p) ->
  a + w (O p) = (w (I p) + e) - w (Sg 7) /\ (a - w (O p)) / Z0 = (w (I p) - e) / Z0.
Proof. exact (voltage_fluctuation_lem Z0 p w a e). Qed.
Print Assumptions C60_voltage_fluctuation.
Theorem C60_current_fluctuation (K : fld) (Z0 : K) (p : nat) (w : nd nat -> K) (a e : K) : Z0 <> 0 -> (1 + 1 : K) <> 0 ->
  w (I p) = a + emits (current_fluctuation p) [] w (I p) -> w (O p) = e + emits (current_fluctuation p) [] w (O p) ->
  a + w (O p) = w (I p) + e /\ (a - w (O p)) / Z0 = (w (I p) - e) / Z0 - w (Sg 7) / Z0.
Proof. exact (current_fluctuation_lem Z0 p w a e). Qed.
Print Assumptions C60_current_fluctuation.
(** a current meter on the fluctuating port itself is off by half the fluctuation over Z0 *)
Theorem C60_meter_on_fluctuation_refuted (K : fld) (Z0 : K) (p : nat) (w : nd nat -> K) (a e : K) : Z0 <> 0 -> (1 + 1 : K) <> 0 ->
  w (I p) = a + emits (voltage_fluctuation p) [] w (I p) -> w (O p) = e + emits (voltage_fluctuation p) [] w (O p) ->
  emits (current_readout Z0 p true) [] w (Sg 5) = (a - w (O p)) / Z0 + w (Sg 7) / ((1 + 1) * Z0).
Proof. exact (meter_fluctuation_lem Z0 p w a e). Qed.
Print Assumptions C60_meter_on_fluctuation_refuted.

(** ** the hypotheses can be met *)
Example C38_example : exists (w : nd pA -> Qc_fld), let Z0 := (Q2Qc (50 # 1) : Qc_fld) in let Z := (Q2Qc (150 # 1) : Qc_fld) in
  Z0 <> 0 /\ Z + Z0 <> 0 /\ obeys [A1] (t_impedance Z0 Z) [] w /\ w (I A1) <> 0.
Proof. exact C38_example_lem. Qed.
Example C40_example : ofnat (K := Qc_fld) 3 <> 0 /\ exists w : nd nat -> Qc_fld, obeys (seq 0 3) (connection 3) [] w /\ w (O 0%nat) <> 0.
Proof. exact C40_example_lem. Qed.
Example C42_example : let Z0 := (Q2Qc (1 # 1) : Qc_fld) in let Z := (Q2Qc (3 # 1) : Qc_fld) in let M := (Q2Qc (1 # 1) : Qc_fld) in
  exists w, obeys [PA; PB; PC; PD] (z2x2 Z0 Z M M Z) [] w /\
  1 / Z0 * (1 / Z0) * (Z * Z * M * M) + (1 + 1) * (1 / Z0) * (M * M) * (Z + Z) - (1 + 1) * (1 + 1) * (Z * Z - M * M) <> 0.
Proof. exact C42_example_lem. Qed.
Example C44_example : let Z0 := ((50, 0)%R : C_fld) in let Z := ((10, 30)%R : C_fld) in
  h_nn C_herm Z0 /\ Z + Z0 <> 0 /\ h_nn C_herm (Z + h_conj C_herm Z) /\
  exists w, obeys [A1] (t_impedance Z0 Z) [] w /\ w (I A1) <> 0.
Proof. exact C44_example_lem. Qed.
