(** Theorems about the signal elements.  C49, C50, C62-C65. *)
From stdpp Require Import base tactics list numbers gmap.
From Coq Require Import Reals Lra.
From Verif Require Import Fld Py Herm ElecModel ElecSpec InjModel InjSpec InjProofs OptModel OptRot ElecProofs SigModel SigSpec SigProofs SigFinal.
Local Open Scope fld_scope.
Add Field FFc : (f_theory C_fld).

Theorem C49_real r f : zpk_assert (r_zpk r) -> roots_ok (r_zpk r) -> real_number (r_gain r) ->
  no_pole (r_zpk r) (cre f) -> no_pole (r_zpk r) (cre (r_gain_F r)) -> no_zero (r_zpk r) (cre (r_gain_F r)) ->
  rational_func r (- f) = cconj (rational_func r f).
Proof. eapply C49_real_lem. Qed.
Theorem C49_dc r : roots_ok (r_zpk r) -> szp (r_zpk r) 0 = 1 /\ (r_gain_F r = 0%R -> rational_func r 0 = r_gain r).
Proof. eapply C49_dc_lem. Qed.
Theorem C49_magnitude r : roots_ok (r_zpk r) -> no_pole (r_zpk r) (cre (r_gain_F r)) -> no_zero (r_zpk r) (cre (r_gain_F r)) ->
  C_abs (rational_func r (r_gain_F r)) = C_abs (r_gain r).
Proof. eapply C49_magnitude_lem. Qed.
Theorem C49_zeros z f : roots_ok z -> no_pole z f -> (szp z f = 0 <-> ci * f ∈ all_zeros z).
Proof. eapply C49_zeros_lem. Qed.
Theorem C49_cascade a b f : roots_ok a -> roots_ok b -> no_pole a f -> no_pole b f -> szp (zpk_app a b) f = szp a f * szp b f.
Proof. eapply C49_cascade_lem. Qed.
Theorem C49_order a b f : zpk_perm a b -> szp a f = szp b f.
Proof. eapply C49_order_lem. Qed.
Theorem C49_delay r d f : rational_func (Rational (r_zpk r) (r_gain r) (Some d) (r_gain_F r)) f =
  cis (- (2 * PI * f * d)) * rational_func (Rational (r_zpk r) (r_gain r) None (r_gain_F r)) f.
Proof. eapply C49_delay_lem. Qed.
Theorem C49_coupling a H center f (w : nd unit -> C_fld) :
  (in_band a center -> ~ (no_DC a = true /\ f = 0%R) -> (obeys [tt] (siso_coupling a H center f) [] w <-> w (O tt) = H f * w (I tt))) /\
  (no_DC a = true -> f = 0%R -> (obeys [tt] (siso_coupling a H center f) [] w <-> w (O tt) = 0)) /\
  (~ in_band a center -> siso_coupling a H center f = []).
Proof. eapply C49_coupling_lem. Qed.
Example C49_example : exists r f, zpk_assert (r_zpk r) /\ roots_ok (r_zpk r) /\ real_number (r_gain r) /\
  no_pole (r_zpk r) (cre f) /\ no_pole (r_zpk r) (cre (r_gain_F r)) /\ no_zero (r_zpk r) (cre (r_gain_F r)) /\
  rational_func r f <> rational_func r (- f).
Proof. eapply C49_example_lem. Qed.
Theorem C50_equations {K : fld} (s : K) Ni Ns No A B C D es (w : nd nat -> K) : s <> 0 -> (forall o i, D o i = 0) ->
  state_space s Ni Ns No A B C D = Ok es ->
  (holds (ss_nodes Ns No) es w <->
   (forall j, (j < Ns)%nat -> s * w (Sg j) = row A Ns (fun k => w (Sg k)) j + row B Ni (fun i => w (I i)) j) /\
   (forall o, (o < No)%nat -> w (O o) = row C Ns (fun k => w (Sg k)) o)).
Proof. eapply C50_equations_lem. Qed.
Theorem C50_transfer {K : fld} (s : K) Ni Ns No A B C D M es (w : nd nat -> K) : s <> 0 -> (forall o i, D o i = 0) ->
  state_space s Ni Ns No A B C D = Ok es -> holds (ss_nodes Ns No) es w ->
  (forall i j, (i < Ns)%nat -> (j < Ns)%nat ->
     fsum (fun k => M i k * ((if decide (k = j) then s else 0) - A k j)) (seq 0 Ns) = if decide (i = j) then 1 else 0) ->
  forall o, (o < No)%nat -> w (O o) = row C Ns (row M Ns (row B Ni (fun i => w (I i)))) o.
Proof. eapply C50_transfer_lem. Qed.
Theorem C50_runs {K : fld} (s : K) Ni Ns No (A B C D : nat -> nat -> K) :
  ((exists es, state_space s Ni Ns No A B C D = Ok es) <-> Ni = 0%nat \/ (No <= Ns)%nat) /\
  ((exists es, state_space s Ni Ns No A B C D = Ok es) \/ state_space s Ni Ns No A B C D = Err IndexError).
Proof. eapply C50_runs_lem. Qed.
Theorem C50_direct {K : fld} (s : K) Ni Ns No A B C D es (w : nd nat -> K) : s <> 0 ->
  state_space s Ni Ns No A B C D = Ok es ->
  (holds (ss_nodes Ns No) es w <->
   (forall j, (j < Ns)%nat -> s * w (Sg j) = row A Ns (fun k => w (Sg k)) j + row B Ni (fun i => w (I i)) j +
      (if decide (j < No)%nat then s * row D Ni (fun i => w (I i)) j else 0)) /\
   (forall o, (o < No)%nat -> w (O o) = row C Ns (fun k => w (Sg k)) o)).
Proof. eapply C50_direct_lem. Qed.
Theorem C50_direct_refuted : exists (A B C D : nat -> nat -> Qc_fld) es (w : nd nat -> Qc_fld),
  state_space (1 : Qc_fld) 1 1 1 A B C D = Ok es /\ holds (ss_nodes 1 1) es w /\
  w (O 0%nat) <> row C 1 (fun k => w (Sg k)) 0 + row D 1 (fun i => w (I i)) 0.
Proof. eapply C50_direct_refuted_lem. Qed.
Example C50_example : exists (A B C D M : nat -> nat -> Qc_fld) es (w : nd nat -> Qc_fld), let s := 1 + 1 : Qc_fld in
  s <> 0 /\ (forall o i, D o i = 0) /\ state_space s 1 1 1 A B C D = Ok es /\ holds (ss_nodes 1 1) es w /\ w (O 0%nat) <> 0 /\
  (forall i j, (i < 1)%nat -> (j < 1)%nat ->
     fsum (fun k => M i k * ((if decide (k = j) then s else 0) - A k j)) (seq 0 1) = if decide (i = j) then 1 else 0).
Proof. eapply C50_example_lem. Qed.

Theorem C62_product {Q} `{Countable Q} qadd q0 (reject : Q -> bool) Hz los ins ks x t :
  (forall a b, Hz (qadd a b) = Hz a + Hz b)%R -> NoDup ks -> q0 ∉ los -> q0 ∉ ins ->
  (forall a b, a ∈ los -> b ∈ ins -> qadd a b ∈ ks /\ reject (qadd a b) = false) ->
  wave q0 Hz ks (fun k => arrives (mixer qadd q0 reject Hz los ins) x (R_I, k)) t =
  wave q0 Hz los (fun k => x (LO, k)) t * wave q0 Hz ins (fun k => x (In, k)) t.
Proof. eapply C62_product_lem. Qed.
Theorem C62_quadrature {Q} `{Countable Q} qadd q0 (reject : Q -> bool) Hz los ins ks x t :
  (forall a b, Hz (qadd a b) = Hz a + Hz b)%R -> NoDup ks -> q0 ∉ los -> q0 ∉ ins ->
  (forall a b, a ∈ los -> b ∈ ins -> qadd a b ∈ ks /\ reject (qadd a b) = false) ->
  wave q0 Hz ks (fun k => arrives (mixer qadd q0 reject Hz los ins) x (R_Q, k)) t =
  wave q0 Hz los (fun k => ci * sgn (Hz k) * x (LO, k)) t * wave q0 Hz ins (fun k => x (In, k)) t.
Proof. eapply C62_quadrature_lem. Qed.
Theorem C62_dc_refuted : exists (x : mixport * Z -> C_fld) t,
  wave 0%Z IZR [0%Z] (fun k => arrives (mixer Z.add 0%Z (fun _ => false) IZR [0%Z] [0%Z]) x (R_I, k)) t <>
  wave 0%Z IZR [0%Z] (fun k => x (LO, k)) t * wave 0%Z IZR [0%Z] (fun k => x (In, k)) t.
Proof. eapply C62_dc_refuted_lem. Qed.
Example C62_example : (forall a b, IZR (a + b) = IZR a + IZR b)%R /\ NoDup [-2; 0; 2]%Z /\ 0%Z ∉ [-1; 1]%Z /\
  (forall a b, a ∈ [-1; 1]%Z -> b ∈ [-1; 1]%Z -> (a + b)%Z ∈ [-2; 0; 2]%Z /\ (fun _ : Z => false) (a + b)%Z = false).
Proof. eapply C62_example_lem. Qed.

Theorem C63_mean_square {Q} `{Countable Q} qneg q0 (reject : Q -> bool) ins x :
  (forall k, qneg (qneg k) = k) -> qneg q0 = q0 -> (forall k, qneg k = k -> k = q0) ->
  NoDup ins -> (forall k, k ∈ ins -> qneg k ∈ ins /\ reject k = false) ->
  arrives (mean_square qneg q0 reject ins ∅) x (MS, q0) =
  fsum (fun k => (if decide (k = q0) then 1 else quarter) * x (In, k) * x (In, qneg k)) ins.
Proof. eapply C63_mean_square_lem. Qed.
Example C63_example : (forall k, - - k = k)%Z /\ (forall k, - k = k -> k = 0)%Z /\ NoDup [-1; 0; 1]%Z /\
  (forall k, k ∈ [-1; 0; 1]%Z -> (- k)%Z ∈ [-1; 0; 1]%Z).
Proof. eapply C63_example_lem. Qed.

Theorem C64_resonance m f0 g f F : m <> 0%R ->
  cre (- (f * f)) + ci * cre g * cre f + cre (f0 * f0) <> 0 ->
  let s := laplace f in let x := mech_resonance m f0 g f * F in
  cre m * s * s * x + cre m * cre (2 * PI * g) * s * x + cre m * cre (2 * PI * f0) * cre (2 * PI * f0) * x = F.
Proof. eapply C64_resonance_lem. Qed.
Theorem C64_width f0 q w : mech_FWHM f0 (Some q) w = Ok (f0 / q)%R /\ mech_FWHM f0 None (Some q) = Ok q /\ mech_FWHM f0 None None = Err RuntimeError.
Proof. eapply C64_width_lem. Qed.
Theorem C64_integrator f : f <> 0%R -> laplace f * integrator f = - cre (2 * PI).
Proof. eapply C64_integrator_lem. Qed.
Theorem C64_integrator_refuted : exists f, f <> 0%R /\ forall k, (0 < k)%R -> laplace f * integrator f <> cre k.
Proof. eapply C64_integrator_refuted_lem. Qed.
Theorem C65_distribution {K : fld} (gains : list (nat * K)) (w : nd nat -> K) : NoDup gains.*1 ->
  (obeys gains.*1 (distribution gains) [] w <-> forall g, g ∈ gains -> w (O g.1) = g.2 * w (I 0%nat)).
Proof. eapply C65_distribution_lem. Qed.
Theorem C65_summing {K : fld} (gains : list (nat * K)) (w : nd nat -> K) :
  obeys [0%nat] (summing gains) [] w <-> w (O 0%nat) = fsum (fun g => g.2 * w (I g.1)) gains.
Proof. eapply C65_summing_lem. Qed.

Print Assumptions C49_real.
Print Assumptions C49_dc.
Print Assumptions C49_magnitude.
Print Assumptions C49_zeros.
Print Assumptions C49_cascade.
Print Assumptions C49_order.
Print Assumptions C49_delay.
Print Assumptions C49_coupling.
Print Assumptions C50_equations.
Print Assumptions C50_transfer.
Print Assumptions C50_runs.
Print Assumptions C50_direct.
Print Assumptions C50_direct_refuted.
Print Assumptions C62_product.
Print Assumptions C62_quadrature.
Print Assumptions C62_dc_refuted.
Print Assumptions C63_mean_square.
Print Assumptions C64_resonance.
Print Assumptions C64_width.
Print Assumptions C64_integrator.
Print Assumptions C64_integrator_refuted.
Print Assumptions C65_distribution.
Print Assumptions C65_summing.
