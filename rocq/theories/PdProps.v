(** C74-C76: photodiodes, modulators, moving mirrors. *)
From stdpp Require Import base tactics numbers gmap sets list.
From Coq Require Import Reals Lra.
From Verif Require Import Fld Py Herm ElecModel InjModel InjSpec OptModel SigModel SigSpec SigProofs NoiProofs3 PdModel PdSpec PdProofs PdProofs2 PdProofs3 PdFinal.
Local Open Scope fld_scope.
Theorem C74_power {P A Q} `{Countable P} `{Countable A} `{Countable Q} qadd qneg q0 Hz reject x (fr wpd ba : P) (ms : list (A * Q)) os ks wks baks r t :
  frequencies qadd qneg q0 Hz -> shines x fr ms -> carriers os ms -> both ms ks -> (forall m, m ∈ ms -> reject m.2 = false) ->
  signal_keys qneg wks -> differences qadd qneg (dark x fr) (dark x fr) ms wks ->
  pd qadd qneg reject fr wpd ba ks wks baks = Ok r ->
  wave q0 Hz wks (fun F => arrives r x (wpd, cls F)) t = intensity Hz os ms (lower_at x fr) t.
Proof. eapply C74_power_lem. Qed.
Theorem C74_mean {P A Q} `{Countable P} `{Countable A} `{Countable Q} qadd qneg q0 Hz reject x (fr wpd ba : P) (ms : list (A * Q)) ks wks baks r :
  frequencies qadd qneg q0 Hz -> shines x fr ms -> both ms ks -> (forall m, m ∈ ms -> reject m.2 = false) ->
  signal_keys qneg wks -> q0 ∈ wks ->
  pd qadd qneg reject fr wpd ba ks wks baks = Ok r ->
  arrives r x (wpd, cls q0) = fsum (fun m => lower_at x fr m * cconj (lower_at x fr m)) ms.
Proof. eapply C74_mean_lem. Qed.
(** each frequency by itself, even when others are left out *)
Theorem C74_spectrum {P A Q} `{Countable P} `{Countable A} `{Countable Q} qadd qneg q0 Hz reject x (fr wpd ba : P) (ms : list (A * Q)) ks wks baks r F :
  frequencies qadd qneg q0 Hz -> shines x fr ms -> both ms ks -> (forall m, m ∈ ms -> reject m.2 = false) ->
  signal_keys qneg wks -> F ∈ wks -> pd qadd qneg reject fr wpd ba ks wks baks = Ok r ->
  arrives r x (wpd, cls F) = (if decide (F = q0) then 1 else 1 + 1) * beat_note qadd ms (lower_at x fr) F.
Proof. eapply C74_spectrum_lem. Qed.
Theorem C74_response {P A Q} `{Countable P} `{Countable A} `{Countable Q} qadd qneg q0 Hz reject x d (fr wpd ba : P) (ms : list (A * Q)) os ks wks baks r t :
  frequencies qadd qneg q0 Hz -> shines (field x) fr ms -> shines d fr ms -> carriers os ms -> both ms ks -> (forall m, m ∈ ms -> reject m.2 = false) ->
  signal_keys qneg wks -> differences qadd qneg (dark (field x) fr) (dark d fr) ms wks ->
  (forall m, lower_at (field x) fr m = 0 \/ lower_at d fr m = 0) ->
  pd qadd qneg reject fr wpd ba ks wks baks = Ok r ->
  plain Hz wks (fun F => response r x d (wpd, cls F)) t =
  beat Hz os ms (lower_at d fr) (lower_at (field x) fr) t + beat Hz os ms (lower_at (field x) fr) (lower_at d fr) t.
Proof. eapply C74_response_lem. Qed.
Theorem C74_total {P A Q} `{Countable P} `{Countable A} `{Countable Q} qadd qneg q0 Hz reject (fr wpd ba : P) (ks : list (bool * A * Q)) wks baks :
  frequencies qadd qneg q0 Hz -> ks <> [] ->
  ((exists r, pd qadd qneg reject fr wpd ba ks wks baks = Ok r) <-> forall F, F ∈ wks -> qneg F ∈ wks) /\
  (~ (forall F, F ∈ wks -> qneg F ∈ wks) -> pd qadd qneg reject fr wpd ba ks wks baks = Err AssertionError).
Proof. eapply C74_total_lem. Qed.
Theorem C74_magic {P A Q} `{Countable P} `{Countable A} `{Countable Q} qadd qneg q0 Hz reject x (fri fro bki bko wpd : P) (ms msb : list (A * Q)) os ks ksb wks r t o :
  frequencies qadd qneg q0 Hz -> shines x fri ms -> carriers os ms -> both ms ks -> (forall m, m ∈ ms -> reject m.2 = false) ->
  signal_keys qneg wks -> differences qadd qneg (dark x fri) (dark x fri) ms wks -> fro <> bko -> both msb ksb -> NoDup msb ->
  magic_pd qadd qneg reject fri fro bki bko wpd ks ksb wks = Ok r ->
  wave q0 Hz wks (fun F => arrives r x (wpd, cls F)) t = intensity Hz os ms (lower_at x fri) t /\
  light Hz ms (fun m => arrives r x (bko, opt true m.1 m.2)) o t = light Hz ms (lower_at x fri) o t /\
  light Hz msb (fun m => arrives r x (fro, opt true m.1 m.2)) o t = light Hz msb (lower_at x bki) o t.
Proof. eapply C74_magic_lem. Qed.

Theorem C75_pm {P A Q} `{Countable P} `{Countable A} `{Countable Q} qadd qneg q0 Hz reject x (fr bk drv ba : P) (ms ms' : list (A * Q)) ks ds bs c r t o :
  frequencies qadd qneg q0 Hz -> both ms ks -> signal_keys qneg ds -> signal_keys qneg bs -> sidebands qadd q0 reject (dark x fr) ms ms' ds ->
  alternating q0 x drv -> pm qadd qneg reject fr bk drv ba ks ds bs c = Ok r ->
  light Hz ms' (fun m => arrives r x (bk, opt true m.1 m.2)) o t =
  light Hz ms (lower_at x fr) o t * (1 + ci * wave q0 Hz ds (fun F => x (drv, cls F)) t).
Proof. eapply C75_pm_lem. Qed.
Theorem C75_am {P A Q} `{Countable P} `{Countable A} `{Countable Q} qadd qneg q0 Hz reject x (fr bk drv ba : P) (ms ms' : list (A * Q)) ks ds bs c r t o :
  frequencies qadd qneg q0 Hz -> both ms ks -> signal_keys qneg ds -> signal_keys qneg bs -> sidebands qadd q0 reject (dark x fr) ms ms' ds ->
  alternating q0 x drv -> am qadd qneg reject fr bk drv ba ks ds bs c = Ok r ->
  light Hz ms' (fun m => arrives r x (bk, opt true m.1 m.2)) o t =
  light Hz ms (lower_at x fr) o t * (1 + wave q0 Hz ds (fun F => x (drv, cls F)) t).
Proof. eapply C75_am_lem. Qed.
Theorem C75_ampm {P A Q} `{Countable P} `{Countable A} `{Countable Q} qadd qneg q0 Hz reject x (fr bk drvA drvP : P) (ms ms' : list (A * Q)) ks das dps c r t o :
  frequencies qadd qneg q0 Hz -> both ms ks -> signal_keys qneg das -> signal_keys qneg dps ->
  sidebands qadd q0 reject (dark x fr) ms ms' das -> sidebands qadd q0 reject (dark x fr) ms ms' dps ->
  alternating q0 x drvA -> alternating q0 x drvP -> ampm qadd qneg reject fr bk drvA drvP ks das dps c = Ok r ->
  light Hz ms' (fun m => arrives r x (bk, opt true m.1 m.2)) o t =
  light Hz ms (lower_at x fr) o t *
  (1 + ci * wave q0 Hz dps (fun F => x (drvP, cls F)) t + wave q0 Hz das (fun F => x (drvA, cls F)) t).
Proof. eapply C75_ampm_lem. Qed.
(** each mode by itself, even when others are left out *)
Theorem C75_pm_mode {P A Q} `{Countable P} `{Countable A} `{Countable Q} qadd qneg q0 Hz reject x (fr bk drv ba : P) (ms : list (A * Q)) ks ds bs c r r' o f :
  frequencies qadd qneg q0 Hz -> shines x fr ms -> both ms ks -> signal_keys qneg ds -> signal_keys qneg bs -> reject f = false ->
  pm qadd qneg reject fr bk drv ba ks ds bs c = Ok r -> am qadd qneg reject fr bk drv ba ks ds bs c = Ok r' ->
  arrives r x (bk, opt true o f) = lower_at x fr (o, f) + ci / (1 + 1) * shifted qadd qneg q0 x fr drv ds o f /\
  arrives r' x (bk, opt true o f) = lower_at x fr (o, f) + 1 / (1 + 1) * shifted qadd qneg q0 x fr drv ds o f.
Proof. eapply C75_pm_mode_lem. Qed.
Theorem C75_conj {P A Q} `{Countable P} `{Countable A} `{Countable Q} qadd qneg q0 Hz reject x (fr bk drv ba : P) (ms : list (A * Q)) ks ds bs c r o f :
  frequencies qadd qneg q0 Hz -> both ms ks -> signal_keys qneg ds -> signal_keys qneg bs ->
  real_signal qneg x drv -> shines x fr ms ->
  (pm qadd qneg reject fr bk drv ba ks ds bs c = Ok r \/ am qadd qneg reject fr bk drv ba ks ds bs c = Ok r) ->
  arrives r x (bk, opt false o f) = cconj (arrives r x (bk, opt true o f)).
Proof. eapply C75_conj_lem. Qed.
Theorem C75_total {P A Q} `{Countable P} `{Countable A} `{Countable Q} qadd qneg reject (fr bk drv ba : P) (ks : list (bool * A * Q)) ds bs c :
  signal_keys qneg ds -> signal_keys qneg bs ->
  (exists r, pm qadd qneg reject fr bk drv ba ks ds bs c = Ok r) /\ (exists r, am qadd qneg reject fr bk drv ba ks ds bs c = Ok r) /\
  (exists r, ampm qadd qneg reject fr bk drv ba ks ds bs c = Ok r).
Proof. eapply C75_total_lem. Qed.
(** back-action of the modulators: phase modulation feels the power over c, amplitude modulation nothing *)
Theorem C75_back_action {P A Q} `{Countable P} `{Countable A} `{Countable Q} qadd qneg q0 Hz reject x (fr bk drv ba : P) (ms : list (A * Q)) os ks ds bs c r r' t :
  frequencies qadd qneg q0 Hz -> shines x fr ms -> carriers os ms -> both ms ks -> (forall m, m ∈ ms -> reject m.2 = false) ->
  signal_keys qneg ds -> signal_keys qneg bs -> differences qadd qneg (dark x fr) (dark x fr) ms bs -> c <> 0 ->
  pm qadd qneg reject fr bk drv ba ks ds bs c = Ok r -> am qadd qneg reject fr bk drv ba ks ds bs c = Ok r' ->
  wave q0 Hz bs (fun F => arrives r x (ba, cls F)) t = intensity Hz os ms (lower_at x fr) t / c /\
  wave q0 Hz bs (fun F => arrives r' x (ba, cls F)) t = 0.
Proof. eapply C75_back_action_lem. Qed.
(** a constant drive does nothing *)
Theorem C75_constant_refuted : exists (x : nat * key unit Z -> C_fld) r,
  shines x 0%nat [((), 0%Z)] /\ x (2%nat, cls 0%Z) = 1 /\
  am Z.add Z.opp (fun _ => false) 0%nat 1%nat 2%nat 3%nat [(true, (), 0%Z); (false, (), 0%Z)] [0%Z] [0%Z] 1 = Ok r /\
  light IZR [((), 0%Z)] (fun m => arrives r x (1%nat, opt true m.1 m.2)) () 0 <>
  light IZR [((), 0%Z)] (lower_at x 0%nat) () 0 * (1 + wave 0%Z IZR [0%Z] (fun F => x (2%nat, cls F)) 0).
Proof. eapply C75_constant_refuted_lem. Qed.

(** the mirror: the reflected field follows the motion to first order *)
Theorem C76_motion {P A Q} `{Countable P} `{Countable A} `{Countable Q} qadd qneg q0 Hz reject x d (fr to dis F : P) (ms ms' : list (A * Q)) ks ds Fs rr sign phase cosA iwl c r t o :
  frequencies qadd qneg q0 Hz -> both ms ks -> signal_keys qneg ds -> signal_keys qneg Fs -> sidebands qadd q0 reject (dark (field x) fr) ms ms' ds ->
  (forall k, field x (dis, cls k) = 0) -> (forall m, lower_at d fr m = 0) -> alternating q0 d dis ->
  mirror_face qadd qneg reject fr to dis F ks ds Fs rr sign phase cosA iwl c = Ok r ->
  light Hz ms' (fun m => response r x d (to, opt true m.1 m.2)) o t =
  cre rr * cis phase * light Hz ms (lower_at (field x) fr) o t *
  (- ci * cre (sign * cosA * (4 * PI * iwl o)) * plain Hz ds (fun k => d (dis, cls k)) t).
Proof. eapply C76_motion_lem. Qed.
(** with the amplitudes as they are: twice the phase *)
Theorem C76_motion_twice {P A Q} `{Countable P} `{Countable A} `{Countable Q} qadd qneg q0 Hz reject x (fr to dis F : P) (ms ms' : list (A * Q)) ks ds Fs rr sign phase cosA iwl c r t o :
  frequencies qadd qneg q0 Hz -> both ms ks -> signal_keys qneg ds -> signal_keys qneg Fs -> sidebands qadd q0 reject (dark x fr) ms ms' ds ->
  alternating q0 x dis ->
  mirror_face qadd qneg reject fr to dis F ks ds Fs rr sign phase cosA iwl c = Ok r ->
  light Hz ms' (fun m => arrives r x (to, opt true m.1 m.2)) o t =
  cre rr * cis phase * light Hz ms (lower_at x fr) o t *
  (1 - (1 + 1) * (ci * cre (sign * cosA * (4 * PI * iwl o)) * wave q0 Hz ds (fun k => x (dis, cls k)) t)).
Proof. eapply C76_motion_twice_lem. Qed.
Theorem C76_force {P A Q} `{Countable P} `{Countable A} `{Countable Q} qadd qneg q0 Hz reject x (fr to dis F : P) (ms : list (A * Q)) os ks ds Fs rr sign phase cosA iwl c r t :
  frequencies qadd qneg q0 Hz -> shines x fr ms -> carriers os ms -> both ms ks -> (forall m, m ∈ ms -> reject m.2 = false) ->
  signal_keys qneg ds -> signal_keys qneg Fs -> differences qadd qneg (dark x fr) (dark x fr) ms Fs ->
  mirror_face qadd qneg reject fr to dis F ks ds Fs rr sign phase cosA iwl c = Ok r ->
  wave q0 Hz Fs (fun k => arrives r x (F, cls k)) t =
  cre (-2 * sign * cosA * (rr * cos phase) / c) * intensity Hz os ms (lower_at x fr) t.
Proof. eapply C76_force_lem. Qed.
(** the faces: the back one reflects with the opposite amplitude and moves the opposite way; both are pushed the same way *)
Theorem C76_force_same_way {P A Q} `{Countable P} `{Countable A} `{Countable Q} qadd qneg q0 Hz reject x (fr to dis F : P) (ms : list (A * Q)) os ks ds Fs rr phase cosA iwl c r r' t :
  frequencies qadd qneg q0 Hz -> shines x fr ms -> carriers os ms -> both ms ks -> (forall m, m ∈ ms -> reject m.2 = false) ->
  signal_keys qneg ds -> signal_keys qneg Fs -> differences qadd qneg (dark x fr) (dark x fr) ms Fs ->
  mirror_face qadd qneg reject fr to dis F ks ds Fs rr 1 phase cosA iwl c = Ok r ->
  mirror_face qadd qneg reject fr to dis F ks ds Fs (- rr) (-1) phase cosA iwl c = Ok r' ->
  wave q0 Hz Fs (fun k => arrives r x (F, cls k)) t = wave q0 Hz Fs (fun k => arrives r' x (F, cls k)) t.
Proof. eapply C76_force_same_way_lem. Qed.
Theorem C76_force_refuted : exists (x : nat * key unit Z -> C_fld) rr r,
  shines x 0%nat [((), 0%Z)] /\
  mirror_face Z.add Z.opp (fun _ => false) 0%nat 1%nat 2%nat 3%nat [(true, (), 0%Z); (false, (), 0%Z)] [0%Z] [0%Z] rr 1 0 1 (fun _ => 1%R) 1 = Ok r /\
  wave 0%Z IZR [0%Z] (fun k => arrives r x (3%nat, cls k)) 0 <>
  cre (-2 * (rr * rr)) * intensity IZR [()] [((), 0%Z)] (lower_at x 0%nat) 0.
Proof. eapply C76_force_refuted_lem. Qed.
(** A carrier with two sidebands, and keys that see all the beat notes. *)
Example C74_example : exists (x : nat * key unit Z -> C_fld) r,
  frequencies Z.add Z.opp 0%Z IZR /\ shines x 0%nat [((), -1); ((), 0); ((), 1)]%Z /\ carriers [()] [((), -1); ((), 0); ((), 1)]%Z /\
  both [((), -1); ((), 0); ((), 1)]%Z [(true, (), -1); (true, (), 0); (true, (), 1); (false, (), -1); (false, (), 0); (false, (), 1)]%Z /\
  signal_keys Z.opp [-2; -1; 0; 1; 2]%Z /\ differences Z.add Z.opp (dark x 0%nat) (dark x 0%nat) [((), -1); ((), 0); ((), 1)]%Z [-2; -1; 0; 1; 2]%Z /\
  sidebands Z.add 0%Z (fun _ => false) (dark x 0%nat) [((), 0)]%Z [((), -1); ((), 0); ((), 1)]%Z [-1; 1]%Z /\ signal_keys Z.opp [-1; 1]%Z /\
  lower_at x 0%nat ((), 1%Z) = 1 /\
  pd Z.add Z.opp (fun _ => false) 0%nat 1%nat 2%nat [(true, (), -1); (true, (), 0); (true, (), 1); (false, (), -1); (false, (), 0); (false, (), 1)]%Z [-2; -1; 0; 1; 2]%Z [] = Ok r.
Proof. eapply C74_example_lem. Qed.

Print Assumptions C74_power.
Print Assumptions C74_mean.
Print Assumptions C74_spectrum.
Print Assumptions C74_response.
Print Assumptions C74_total.
Print Assumptions C74_magic.
Print Assumptions C75_pm.
Print Assumptions C75_am.
Print Assumptions C75_ampm.
Print Assumptions C75_pm_mode.
Print Assumptions C75_conj.
Print Assumptions C75_total.
Print Assumptions C75_back_action.
Print Assumptions C75_constant_refuted.
Print Assumptions C76_motion.
Print Assumptions C76_motion_twice.
Print Assumptions C76_force.
Print Assumptions C76_force_same_way.
Print Assumptions C76_force_refuted.
