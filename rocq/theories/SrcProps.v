(** C88: signal generators, lasers and vacuum fluctuations. *)
From Coq Require Import Reals Lra String.
From stdpp Require Import base tactics numbers gmap list.
From Verif Require Import Fld Py Herm InjModel InjSpec OptModel SigModel SigSpec PdModel PdSpec PdFinal NoiModel NoiSpec SrcModel SrcSpec SrcProofs SrcProofs3 SrcFinal.
Local Open Scope fld_scope.

(** ** generators *)
(** the output is the sine with the amplitude and phase that were set *)
Theorem C88_generator {Q} `{Countable Q} (qadd : Q -> Q -> Q) (qneg : Q -> Q) (q0 : Q) (Hz : Q -> R) (qmul : Z -> Q -> Q) (g : generator Q) (ks : list Q) (t : R) :
  frequencies qadd qneg q0 Hz -> NoDup ks -> g_key g ∈ ks -> qneg (g_key g) ∈ ks -> g_amplitudeC g = None -> g_key g <> q0 ->
  wave q0 Hz ks (gen_at qneg qmul g PsOut) t = real_part (g_amplitude g * cis (2 * PI * Hz (g_key g) * t + the_phase (g_phase g))).
Proof. exact (fun HF => gen_out_lem qadd qneg q0 Hz qmul HF g ks t). Qed.
Print Assumptions C88_generator.
Theorem C88_harmonics {Q} `{Countable Q} (qadd : Q -> Q -> Q) (qneg : Q -> Q) (q0 : Q) (Hz : Q -> R) (qmul : Z -> Q -> Q) (g : generator Q) (n : Z) (z : C_fld) (ks : list Q) (t : R) :
  frequencies qadd qneg q0 Hz -> multiples qneg Hz qmul -> dict_ok g -> (n, z) ∈ g_harmonics g -> NoDup ks ->
  qmul n (g_key g) ∈ ks -> qneg (qmul n (g_key g)) ∈ ks -> qmul n (g_key g) <> q0 ->
  wave q0 Hz ks (gen_at qneg qmul g (OutH n)) t = real_part (z * cis (IZR n * (2 * PI * Hz (g_key g) * t + the_phase (g_phase g)))).
Proof. exact (fun HF HM => gen_harm_lem qadd qneg q0 Hz qmul HF HM g n z ks t). Qed.
Print Assumptions C88_harmonics.
(** at the frequency 0 it is twice what was set *)
Theorem C88_dc_refuted {Q} `{Countable Q} (qadd : Q -> Q -> Q) (qneg : Q -> Q) (q0 : Q) (Hz : Q -> R) (qmul : Z -> Q -> Q) (g : generator Q) (ks : list Q) (t : R) :
  frequencies qadd qneg q0 Hz -> NoDup ks -> q0 ∈ ks -> g_amplitudeC g = None -> g_key g = q0 ->
  wave q0 Hz ks (gen_at qneg qmul g PsOut) t = (1 + 1) * real_part (g_amplitude g * cis (the_phase (g_phase g))).
Proof. exact (fun HF => gen_dc_lem qadd qneg q0 Hz qmul HF g ks t). Qed.
Print Assumptions C88_dc_refuted.
(** all outputs are real signals *)
Theorem C88_real {Q} `{Countable Q} (qadd : Q -> Q -> Q) (qneg : Q -> Q) (q0 : Q) (Hz : Q -> R) (qmul : Z -> Q -> Q) (g : generator Q) (p : gport) (k : Q) :
  frequencies qadd qneg q0 Hz -> multiples qneg Hz qmul -> dict_ok g -> g_amplitudeC g = None ->
  gen_at qneg qmul g p (qneg k) = cconj (gen_at qneg qmul g p k).
Proof. exact (fun HF HM => gen_real_lem qadd qneg q0 Hz qmul HF HM g p k). Qed.
Print Assumptions C88_real.
(** a conjugate amplitude that is set is not checked *)
Theorem C88_real_refuted {Q} `{Countable Q} (qadd : Q -> Q -> Q) (qneg : Q -> Q) (q0 : Q) (Hz : Q -> R) (qmul : Z -> Q -> Q) (g : generator Q) (z : C_fld) :
  frequencies qadd qneg q0 Hz -> g_key g <> q0 -> g_amplitudeC g = Some z -> z <> cconj (g_amplitude g) ->
  gen_at qneg qmul g PsOut (qneg (g_key g)) <> cconj (gen_at qneg qmul g PsOut (g_key g)).
Proof. exact (fun HF N E Nz => gen_unreal_lem qadd qneg q0 Hz qmul HF g N (gen_given g z E Nz)). Qed.
Print Assumptions C88_real_refuted.
(** the gains of the harmonics are amplitudes: the amplitude of the generator does not change them *)
Theorem C88_gain_refuted {Q} `{Countable Q} (qneg : Q -> Q) (qmul : Z -> Q -> Q) (f : Q) (phase : option R) (a b : C_fld) (ac bc : option C_fld) (hs : list (Z * C_fld)) (n : Z) (k : Q) :
  gen_at qneg qmul (Gen f phase a ac hs) (OutH n) k = gen_at qneg qmul (Gen f phase b bc hs) (OutH n) k.
Proof. exact (gen_free_lem qneg qmul f phase a b ac bc hs n k). Qed.
Print Assumptions C88_gain_refuted.
(** what is put in was asked for; nothing comes out elsewhere *)
Theorem C88_requested {Q} `{Countable Q} (qneg : Q -> Q) (qmul : Z -> Q -> Q) (g : generator Q) (p : gport) (k : Q) :
  ((p, k) ∈ gen_needed qneg qmul g <-> exists z, (p, k, z) ∈ gen_sources qneg qmul g) /\ ((p, k) ∉ gen_needed qneg qmul g -> gen_at qneg qmul g p k = 0).
Proof. exact (gen_keys_lem qneg qmul g p k). Qed.
Print Assumptions C88_requested.
Example C88_generator_case : let g := Gen 3%Z (Some 1%R) ci None [(2%Z, cre 5); (-1, ci)%Z] in
  frequencies Z.add Z.opp 0%Z IZR /\ multiples Z.opp IZR Z.mul /\ dict_ok g /\ g_key g <> 0%Z /\ (2%Z, cre 5) ∈ g_harmonics g /\ (2 * g_key g)%Z <> 0%Z /\
  gen_at Z.opp Z.mul g PsOut 3%Z = cis 1 * ci.
Proof. exact gen_case. Qed.

(** ** lasers *)
(** the light of the power, phase and frequency that were set *)
Theorem C88_laser {P A Q} `{Countable P} `{Countable A} `{Countable Q} (Hz : Q -> R) (x : P * key A Q -> C_fld) (p : P) (power_W : R) (phase : option R) (m0 : A * Q) (ms : list (A * Q)) (t : R) :
  lases x p power_W phase m0 -> NoDup ms -> m0 ∈ ms ->
  shines x p ms /\ light Hz ms (lower_at x p) m0.1 t = cre (R_sqrt.sqrt power_W) * cis (2 * PI * Hz m0.2 * t + the_phase phase).
Proof. exact (fun Hl Hn Hm => conj (lases_shines x p power_W phase m0 ms Hl Hn Hm) (lases_light Hz x p power_W phase m0 ms t Hl Hn Hm)). Qed.
Print Assumptions C88_laser.
Theorem C88_power {P A Q} `{Countable P} `{Countable A} `{Countable Q} (qadd : Q -> Q -> Q) (qneg : Q -> Q) (q0 : Q) (Hz : Q -> R) (reject : Q -> bool)
    (x : P * key A Q -> C_fld) (fr wpd ba : P) (ms : list (A * Q)) ks wks baks r (power_W : R) phase m0 os t :
  frequencies qadd qneg q0 Hz -> lases x fr power_W phase m0 -> (0 <= power_W)%R -> NoDup ms -> m0 ∈ ms -> carriers os ms ->
  both ms ks -> (forall m, m ∈ ms -> reject m.2 = false) -> signal_keys qneg wks -> q0 ∈ wks ->
  pd qadd qneg reject fr wpd ba ks wks baks = Ok r ->
  wave q0 Hz wks (fun F => arrives r x (wpd, cls F)) t = cre power_W.
Proof. exact (laser_reading qadd qneg q0 Hz reject x fr wpd ba ms ks wks baks r power_W phase m0 os t). Qed.
Print Assumptions C88_power.
Theorem C88_polarization (s : string) :
  polk s = if decide (s = "S"%string) then Ok true else if decide (s = "P"%string) then Ok false else Err UnboundLocalError.
Proof. exact (polk_lem s). Qed.
Print Assumptions C88_polarization.
Theorem C88_laser_requested (power_W : R) (phase : option R) : (laser_sources power_W phase).*1 = laser_needed.
Proof. exact (laser_keys power_W phase). Qed.
Print Assumptions C88_laser_requested.
Example C88_laser_case : exists x : nat * key unit Z -> C_fld, lases x 0%nat 4 (Some 1%R) ((), 0%Z) /\ lower_at x 0%nat ((), 0%Z) = cre 2 * cis 1.
Proof. exact laser_case. Qed.

(** ** vacuum fluctuations *)
(** shot noise: at a photodiode that the vacua of the ports [vs] reach completely, the spectrum of
    the noise is 2 h nu P, or h nu P for two sides *)
Theorem C88_shot {P A Q Obj Name} `{Countable P} `{Countable A} `{Countable Q} `{Countable Obj} `{Countable Name}
    (qadd : Q -> Q -> Q) (qneg : Q -> Q) (q0 : Q) (Hz : Q -> R) (reject : Q -> bool)
    (x : gmap (P * key A Q) C_fld) (fr w ba : P) (ms : list (A * Q)) ks wks baks r F sided
    (adjust h_Js c_m_s : R) (iwavelen : A -> R) (expect : Obj -> P * key A Q -> P * key A Q -> C_fld) coupling vs (o : P -> Obj) keys t cp nm (pm : list (Name * P)) p :
  frequencies qadd qneg q0 Hz ->
  shines (field x) fr ms -> (forall m, m ∈ ms -> reject m.2 = false) -> signal_keys qneg wks -> F ∈ wks -> F <> q0 -> both ms ks ->
  pd qadd qneg reject fr w ba ks wks baks = Ok r ->
  (forall v, v ∈ vs -> keys v ≡ₚ keys_of ms /\ expect (o v) = vacuum_expect h_Js c_m_s iwavelen) ->
  reaches coupling r x vs fr w t ms F -> reaches coupling r x vs fr w t ms (qneg F) -> unitary vs t ms ->
  has_sidebands qadd (dark (field x) fr) ms F -> has_sidebands qadd (dark (field x) fr) ms (qneg F) ->
  adjust_PSD sided = Ok adjust -> noise_map cp (vacua vs o keys) = Ok nm -> NoDup coupling.*1 -> NoDup pm.*1 -> (p, w) ∈ pm ->
  (CSD_builds adjust expect nm coupling pm (cls F) (cls (qneg F))).1 !! (p, p) =
  Some (cre (2 / INR sided) * quanta h_Js c_m_s iwavelen ms (lower_at (field x) fr)).
Proof. exact (shot_lem qadd qneg q0 Hz reject x fr w ba ms ks wks baks r F sided adjust h_Js c_m_s iwavelen expect coupling vs o keys t cp nm pm p). Qed.
Print Assumptions C88_shot.
(** for light of one wavelength: in terms of the mean that the photodiode reads *)
Theorem C88_shot_mean {P A Q Obj Name} `{Countable P} `{Countable A} `{Countable Q} `{Countable Obj} `{Countable Name}
    (qadd : Q -> Q -> Q) (qneg : Q -> Q) (q0 : Q) (Hz : Q -> R) (reject : Q -> bool)
    (x : gmap (P * key A Q) C_fld) (fr w ba : P) (ms : list (A * Q)) ks wks baks r F sided
    (adjust h_Js c_m_s : R) (iwavelen : A -> R) (expect : Obj -> P * key A Q -> P * key A Q -> C_fld) coupling vs (o : P -> Obj) keys t cp nm (pm : list (Name * P)) p (a : A) :
  frequencies qadd qneg q0 Hz ->
  shines (field x) fr ms -> (forall m, m ∈ ms -> reject m.2 = false) -> signal_keys qneg wks -> F ∈ wks -> F <> q0 -> both ms ks ->
  pd qadd qneg reject fr w ba ks wks baks = Ok r ->
  (forall v, v ∈ vs -> keys v ≡ₚ keys_of ms /\ expect (o v) = vacuum_expect h_Js c_m_s iwavelen) ->
  reaches coupling r x vs fr w t ms F -> reaches coupling r x vs fr w t ms (qneg F) -> unitary vs t ms ->
  has_sidebands qadd (dark (field x) fr) ms F -> has_sidebands qadd (dark (field x) fr) ms (qneg F) ->
  adjust_PSD sided = Ok adjust -> noise_map cp (vacua vs o keys) = Ok nm -> NoDup coupling.*1 -> NoDup pm.*1 -> (p, w) ∈ pm ->
  (forall m, m ∈ ms -> m.1 = a) -> q0 ∈ wks ->
  (CSD_builds adjust expect nm coupling pm (cls F) (cls (qneg F))).1 !! (p, p) =
  Some (cre (2 / INR sided) * cre (h_Js * c_m_s * iwavelen a) * arrives r (field x) (w, cls q0)).
Proof. exact (shot_mean_lem qadd qneg q0 Hz reject x fr w ba ms ks wks baks r F sided adjust h_Js c_m_s iwavelen expect coupling vs o keys t cp nm pm p a). Qed.
Print Assumptions C88_shot_mean.
(** no other number of sides is accepted *)
Theorem C88_sided (n : nat) : (exists adjust, adjust_PSD n = Ok adjust) <-> n = 1%nat \/ n = 2%nat.
Proof. exact (sided_lem n). Qed.
Print Assumptions C88_sided.
(** the case: 1 W in the carrier, the vacua of two ports *)
Example C88_shot_case : shines (field sx) 0%nat sm /\ both sm sk /\ pd Z.add Z.opp (fun _ => false) 0%nat 1%nat 2%nat sk [-1; 0; 1]%Z [] = Ok sr /\
  reaches scoupling sr sx sv 0%nat 1%nat st sm 1%Z /\ reaches scoupling sr sx sv 0%nat 1%nat st sm (-1)%Z /\ unitary sv st sm /\
  has_sidebands Z.add (dark (field sx) 0%nat) sm 1%Z /\ has_sidebands Z.add (dark (field sx) 0%nat) sm (-1)%Z /\
  (exists nm, noise_map scp (vacua sv (fun v => v) (fun _ => keys_of sm)) = Ok nm) /\ NoDup scoupling.*1.
Proof. exact shot_case. Qed.
