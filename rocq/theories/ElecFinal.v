(** Remaining proofs for ElecProps.v. *)
From stdpp Require Import base tactics list numbers.
From Coq Require Import QArith Qcanon Reals Lra.
From Verif Require Import Fld Herm ElecModel ElecSpec ElecProofs.

(** ** the theorems of ElecProps.v *)
Local Open Scope fld_scope.
Definition z2x2_w : nd pABCD -> Qc_fld := fun n => match n with
  | I PA => 1 | O PA => Q2Qc (-15 # 11) | O PB => Q2Qc (26 # 11) | O PC => Q2Qc (18 # 11) | O PD => Q2Qc (-18 # 11) | _ => 0 end.
Lemma C38_limits_lem (K : fld) (Z0 : K) (w : nd pA -> K) : Z0 <> 0 -> (1 + 1 : K) <> 0 ->
  (obeys [A1] t_open [] w <-> curr Z0 w A1 = 0) /\
  (obeys [A1] t_shorted [] w <-> volt w A1 = 0) /\
  (obeys [A1] t_matched [] w <-> volt w A1 = Z0 * curr Z0 w A1).
Proof. intros H0 H2. split_and!; [by apply t_open_lem|apply t_shorted_lem|by apply t_matched_lem]. Qed.
Section s_C38_rlc.
  Context (K : fld).
  Add Field F_C38_rlc : (f_theory K).
  Lemma C38_rlc_lem (Z0 s R C L : K) (w : nd pA -> K) : Z0 <> 0 ->
  (R + Z0 <> 0 -> (obeys [A1] (t_impedance Z0 (resistor R)) [] w <-> volt w A1 = R * curr Z0 w A1)) /\
  (1 + s * C * Z0 <> 0 -> (obeys [A1] (t_admittance Z0 (capacitor s C)) [] w <-> curr Z0 w A1 = s * (C * volt w A1))) /\
  (R + s * L + Z0 <> 0 -> (obeys [A1] (t_impedance Z0 (inductor s R L)) [] w <-> volt w A1 = R * curr Z0 w A1 + s * (L * curr Z0 w A1))).
  Proof. 
  intros H0. split_and!; intros H; unfold resistor, capacitor, inductor.
  - by apply t_impedance_lem.
  - rewrite t_admittance_lem by done. assert (s * C * volt w A1 = s * (C * volt w A1)) as -> by ring. done.
  - rewrite t_impedance_lem by done. assert ((R + s * L) * curr Z0 w A1 = R * curr Z0 w A1 + s * (L * curr Z0 w A1)) as -> by ring. done.
 Qed.
End s_C38_rlc.
Section s_C38_mechanical.
  Context (K : fld).
  Add Field F_C38_mechanical : (f_theory K).
  Lemma C38_mechanical_lem (Z0 s i R k l m : K) (w : nd pA -> K) : Z0 <> 0 ->
  (1 + s * R * Z0 <> 0 -> (obeys [A1] (t_admittance Z0 (damper s R)) [] w <-> curr Z0 w A1 = R * (s * volt w A1))) /\
  (1 + k * Z0 <> 0 -> (obeys [A1] (t_admittance Z0 (spring i k None)) [] w <-> curr Z0 w A1 = k * volt w A1)) /\
  (1 + k * (1 + i * l) * Z0 <> 0 ->
    (obeys [A1] (t_admittance Z0 (spring i k (Some l))) [] w <-> curr Z0 w A1 = k * volt w A1 + i * (k * l * volt w A1))) /\
  (1 + s * s * m * Z0 <> 0 -> (obeys [A1] (t_admittance Z0 (mass s m)) [] w <-> curr Z0 w A1 = m * (s * (s * volt w A1)))).
  Proof. 
  intros H0. split_and!; intros H; unfold damper, spring, mass; rewrite t_admittance_lem by done.
  - assert (s * R * volt w A1 = R * (s * volt w A1)) as -> by ring. done.
  - done.
  - assert (k * (1 + i * l) * volt w A1 = k * volt w A1 + i * (k * l * volt w A1)) as -> by ring. done.
  - assert (s * s * m * volt w A1 = m * (s * (s * volt w A1))) as -> by ring. done.
 Qed.
End s_C38_mechanical.
Lemma C41_current_balanced_refuted_lem : exists (Z0 I_DC : Qc_fld) w,
  obeys [AA; BB] (current_source_balanced Z0) (current_source_balanced_dc Z0 I_DC) w /\
  curr Z0 w AA + curr Z0 w BB <> 0.
Proof. 
  exists 1, 1, (fun n => match n with O _ => 1 | _ => 0 end). split; [|vm_decide].
  apply obeys2. split; vm_decide.
 Qed.
Lemma C42_impedance_refuted_lem : exists (Z0 Z11 Z12 Z22 : Qc_fld) w,
  obeys [PA; PB; PC; PD] (z2x2 Z0 Z11 Z12 Z12 Z22) [] w /\
  volt w PA - volt w PB <> Z11 * curr Z0 w PA + Z12 * curr Z0 w PC.
Proof. 
  exists 1, (Q2Qc (3 # 1)), 1, (Q2Qc (3 # 1)), z2x2_w. split; [|vm_decide]. apply obeys4. split_and!; vm_decide.
 Qed.
Definition z2x2_w' : nd pABCD -> Qc_fld := fun n => match n with
  | I PA => 1 | O PA => Q2Qc (6 # 22) | O PB => Q2Qc (16 # 22) | O PC => Q2Qc (-2 # 22) | O PD => Q2Qc (2 # 22) | _ => 0 end.
Lemma C42_nonreciprocal_refuted_lem : exists (Z0 Z11 Z12 Z21 Z22 : Qc_fld) w,
  obeys [PA; PB; PC; PD] (z2x2 Z0 Z11 Z12 Z21 Z22) [] w /\
  curr Z0 w PA <> (volt w PA - volt w PB) / Z11 + (volt w PC - volt w PD) / Z12 /\
  curr Z0 w PA <> (volt w PA - volt w PB) / Z11 + (volt w PC - volt w PD) / Z21.
Proof.
  exists 1, 1, (Q2Qc (2 # 1)), 1, 1, z2x2_w'. split; [|split; vm_decide]. apply obeys4. split_and!; vm_decide.
Qed.
Section s_C42_uncoupled_refuted.
  Context (K : fld).
  Add Field F_C42_uncoupled_refuted : (f_theory K).
  Lemma C42_uncoupled_refuted_lem (Z0 Z11 Z22 : K) (w : nd pABCD -> K) :
  Z0 <> 0 -> (1 + 1 : K) <> 0 -> Z11 <> 0 -> Z22 <> 0 ->
  (obeys [PA; PB; PC; PD] (z2x2 Z0 Z11 0 0 Z22) [] w <->
   w (O PA) = w (I PB) /\ w (O PB) = w (I PA) /\ w (O PC) = w (I PD) /\ w (O PD) = w (I PC)).
  Proof. 
  intros H0 H2 H11 H22. rewrite obeys4. unfold z2x2. cbv zeta. set (D := _ - _).
  assert (D = - ((1 + 1) * (1 + 1) * (Z11 * Z22))) as HD by (unfold D; field; done).
  assert (D <> 0) as HDn.
  { rewrite HD. assert ((1 + 1) * (1 + 1) * (Z11 * Z22) <> 0) as Hn by (repeat apply fmul_neq_0; done).
    intros H. apply Hn. transitivity (- - ((1 + 1) * (1 + 1) * (Z11 * Z22))); [ring|]. rewrite H. ring. }
  clearbody D. set (t := 1 + 1) in *. clearbody t.
  assert (forall n : K, (if decide (n = 0) then 0 else n / D) = n / D) as Hdd.
  { intros n. destruct (decide (n = 0)) as [->|]; [|done]. field. done. }
  emits_simpl. rewrite !Hdd. clear Hdd.
  assert (Z11 = - D / (t * t * Z22)) as -> by (rewrite HD; field; repeat split; done).
  clear HD H11.
  split; intros (-> & -> & -> & ->); split_and!; field; repeat split; done.
 Qed.
End s_C42_uncoupled_refuted.
Lemma C43_vamp_output_refuted_lem : exists (Z0 g Zo : Qc_fld) w,
  obeys [InN; Out] (vamp Z0 g 0 Zo) [] w /\ curr Z0 w Out = 0 /\ volt w Out <> - (g * volt w InN).
Proof. 
  exists 1, 1, 1, (fun n => match n with I InN => 1 | O InN => 1 | I Out => - (1 + 1) | O Out => - (1 + 1) | _ => 0 end).
  split; [|split; vm_decide].
  intros p Hp. rewrite !elem_of_cons, elem_of_nil in Hp. destruct Hp as [->|[->|[]]]; vm_decide.
 Qed.
Lemma C44_terminators_lem (K : fld) (h : herm K) (Z0 Z Y : K) (w : nd pA -> K) : Z0 <> 0 -> h_nn h Z0 ->
  (Z + Z0 <> 0 -> h_nn h (Z + h_conj h Z) -> obeys [A1] (t_impedance Z0 Z) [] w -> h_nn h (taken h w A1)) /\
  (1 + Y * Z0 <> 0 -> h_nn h (Y + h_conj h Y) -> obeys [A1] (t_admittance Z0 Y) [] w -> h_nn h (taken h w A1)).
Proof. 
  intros H0 Hn. split; intros; [by apply (t_impedance_passive h Z0) with (Z := Z)|by apply (t_admittance_passive h Z0) with (Y := Y)].
 Qed.
Lemma C44_series_lem (K : fld) (h : herm K) (Z0 Z Y : K) (w : nd pAB -> K) : Z0 <> 0 -> h_nn h Z0 ->
  (Z + Z0 * (1 + 1) <> 0 -> h_nn h (Z + h_conj h Z) -> obeys [AA; BB] (s_impedance Z0 Z) [] w -> h_nn h (taken h w AA + taken h w BB)) /\
  (1 + Y * Z0 * (1 + 1) <> 0 -> h_nn h (Y + h_conj h Y) -> obeys [AA; BB] (s_admittance Z0 Y) [] w -> h_nn h (taken h w AA + taken h w BB)).
Proof. 
  intros H0 Hn. split; intros; [by apply (s_impedance_passive h Z0) with (Z := Z)|by apply (s_admittance_passive h Z0) with (Y := Y)].
 Qed.
Section s_C44_reactance.
  Context (K : fld) (h : herm K).
  Add Field F_C44_reactance : (f_theory K).
  Lemma C44_reactance_lem (Z0 s C L : K) (w : nd pA -> K) : Z0 <> 0 -> h_nn h Z0 ->
  h_conj h s = - s -> h_conj h C = C -> h_conj h L = L ->
  (1 + s * C * Z0 <> 0 -> obeys [A1] (t_admittance Z0 (capacitor s C)) [] w -> taken h w A1 = 0) /\
  (0 + s * L + Z0 <> 0 -> obeys [A1] (t_impedance Z0 (inductor s 0 L)) [] w -> taken h w A1 = 0).
  Proof. 
  intros H0 Hn Hs HC HL. pose proof (h_nn_conj K h _ Hn) as Hz. pose proof (two_neq_0 h) as H2. split; intros H Ho.
  - apply t_admittance_lem in Ho; [|done|done]. rewrite (taken_eq h Z0) by done. rewrite Ho. unfold capacitor.
    rewrite !(h_conj_mul K h), Hs, HC. field. done.
  - apply t_impedance_lem in Ho; [|done|done]. rewrite (taken_eq h Z0) by done. rewrite Ho. unfold inductor.
    rewrite !(h_conj_mul K h), (h_conj_add K h), conj_0, (h_conj_mul K h), Hs, HL. field. done.
 Qed.
End s_C44_reactance.
Lemma C44_delay_lem (F t : R) (w : nd pAB -> C_fld) :
  obeys [AA; BB] (cable (K := C_fld) (cos (2 * PI * F * t), - sin (2 * PI * F * t))%R) [] w ->
  taken C_herm w AA + taken C_herm w BB = 0.
Proof. 
  intros Ho. rewrite obeys2 in Ho. unfold cable in Ho. revert Ho. emits_simpl. intros [Ha Hb].
  unfold taken, power. rewrite Ha, Hb. set (x := w (I AA)). set (y := w (I BB)). destruct x as [x1 x2], y as [y1 y2].
  pose proof (sin2_cos2 (2 * PI * F * t)) as Hsc. unfold Rsqr in Hsc. set (c := cos _) in *. set (s := sin _) in *.
  cbn. unfold C_mul, C_add, C_conj, C_sub. cbn. f_equal.
  - assert (c * c = 1 - s * s)%R as Hc by lra.
    match goal with |- ?a = _ => assert (a = (1 - (s * s + c * c)) * (x1 * x1 + x2 * x2 + y1 * y1 + y2 * y2))%R as -> by ring end. rewrite Hsc. ring.
  - ring.
 Qed.
Lemma C44_z2x2_refuted_lem : exists (Z0 Z11 Z12 Z22 : Qc_fld) w,
  (0 < Z11 /\ 0 < Z22 /\ 0 < Z11 * Z22 - Z12 * Z12)%Qc /\
  obeys [PA; PB; PC; PD] (z2x2 Z0 Z11 Z12 Z12 Z22) [] w /\
  (w (I PA) * w (I PA) + w (I PB) * w (I PB) + w (I PC) * w (I PC) + w (I PD) * w (I PD) <
   w (O PA) * w (O PA) + w (O PB) * w (O PB) + w (O PC) * w (O PC) + w (O PD) * w (O PD))%Qc.
Proof. 
  exists 1, (Q2Qc (3 # 1)), 1, (Q2Qc (3 # 1)), z2x2_w. split_and!; [vm_compute; reflexivity..| |vm_compute; reflexivity].
  apply obeys4. split_and!; vm_decide.
 Qed.
Lemma C60_meters_lem (K : fld) (Z0 : K) (p q : nat) (w : nd nat -> K) : Z0 <> 0 ->
  emits (voltage_readout p None) [] w (Sg 5) = volt w p /\
  emits (voltage_readout p (Some q)) [] w (Sg 5) = volt w p - volt w q /\
  emits (current_readout Z0 p true) [] w (Sg 5) = curr Z0 w p /\
  emits (current_readout Z0 p false) [] w (Sg 5) = - curr Z0 w p.
Proof. 
  intros H0. destruct (voltage_readout_lem p q w) as [H1 H2]. destruct (current_readout_lem Z0 p w H0) as [H3 H4]. done.
 Qed.
Lemma C38_example_lem : exists (w : nd pA -> Qc_fld), let Z0 := (Q2Qc (50 # 1) : Qc_fld) in let Z := (Q2Qc (150 # 1) : Qc_fld) in
  Z0 <> 0 /\ Z + Z0 <> 0 /\ obeys [A1] (t_impedance Z0 Z) [] w /\ w (I A1) <> 0.
Proof. 
  exists (fun n => match n return Qc_fld with I _ => Q2Qc (2 # 1) | O _ => 1 | _ => 0 end). split_and!; [vm_decide..| |vm_decide].
  apply obeys1. vm_decide.
 Qed.
Lemma C40_example_lem : ofnat (K := Qc_fld) 3 <> 0 /\ exists w : nd nat -> Qc_fld, obeys (seq 0 3) (connection 3) [] w /\ w (O 0%nat) <> 0.
Proof. 
  split; [vm_decide|]. exists (fun n => match n return Qc_fld with I 0%nat => Q2Qc (3 # 1) | O 0%nat => - (1) | O _ => Q2Qc (2 # 1) | _ => 0 end).
  split; [|vm_decide]. intros p Hp. unfold seq in Hp. rewrite !elem_of_cons, elem_of_nil in Hp. destruct Hp as [->|[->|[->|[]]]]; vm_decide.
 Qed.
Lemma C42_example_lem : let Z0 := (Q2Qc (1 # 1) : Qc_fld) in let Z := (Q2Qc (3 # 1) : Qc_fld) in let M := (Q2Qc (1 # 1) : Qc_fld) in
  exists w, obeys [PA; PB; PC; PD] (z2x2 Z0 Z M M Z) [] w /\
  1 / Z0 * (1 / Z0) * (Z * Z * M * M) + (1 + 1) * (1 / Z0) * (M * M) * (Z + Z) - (1 + 1) * (1 + 1) * (Z * Z - M * M) <> 0.
Proof. 
  exists z2x2_w. split; [|vm_decide]. apply obeys4. split_and!; vm_decide.
 Qed.
Add Field FCf : (f_theory C_fld).
Lemma C44_example_lem : let Z0 := ((50, 0)%R : C_fld) in let Z := ((10, 30)%R : C_fld) in
  h_nn C_herm Z0 /\ Z + Z0 <> 0 /\ h_nn C_herm (Z + h_conj C_herm Z) /\
  exists w, obeys [A1] (t_impedance Z0 Z) [] w /\ w (I A1) <> 0.
Proof. 
  cbv zeta. assert (((10, 30)%R : C_fld) + ((50, 0)%R : C_fld) <> 0) as Hne. { cbn. unfold C_add. cbn. intros [= Hc]. lra. }
  split_and!; [cbn; unfold C_nn; cbn; lra|done|cbn; unfold C_nn, C_add, C_conj; cbn; lra|].
  exists (fun n => match n with I _ => 1 | O _ => (((10, 30)%R : C_fld) - ((50, 0)%R : C_fld)) / (((10, 30)%R : C_fld) + ((50, 0)%R : C_fld)) | _ => 0 end).
  split; [|apply f1_neq_0]. apply obeys1. unfold t_impedance, smatrix1. emits_simpl. field. done.
 Qed.
