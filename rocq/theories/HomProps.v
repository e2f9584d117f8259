(** C89.  The homodyne readout (phasor/optics/hidden_variable_homodyne.py).
    Vocabulary in HomSpec.v, PdSpec.v, SrcSpec.v and NoiSpec.v. *)
From Coq Require Import Reals.
From stdpp Require Import base tactics numbers gmap list.
From Verif Require Import Fld Py Herm InjModel InjSpec OptModel SigModel SigSpec PdModel PdSpec NoiModel NoiSpec SrcModel SrcSpec HomModel HomSpec HomProofs3 HomFinal.
Local Open Scope fld_scope.

(** the phase in degrees turns the local oscillator, whatever branch the code takes *)
Theorem C89_phase p : stdcplg p = cis (p / 360 * (2 * PI)) /\ stdcplgC p = cconj (cis (p / 360 * (2 * PI))).
Proof. exact (C89_phase_lem p). Qed.
Print Assumptions C89_phase.
Example C89_phase_case : stdcplg 90 = cis (90 / 360 * (2 * PI)).
Proof. apply C89_phase. Qed.

(** I and Q are the quadratures of the light times the conjugate of the local oscillator, over the root
    of the power that is read *)
Theorem C89_quadratures {P A Q} `{Countable P} `{Countable A} `{Countable Q} (qadd : Q -> Q -> Q) (qneg : Q -> Q) (q0 : Q) (Hz : Q -> R) (reject : Q -> bool)
    (tiny phase_deg h_Js c_m_s : R) (iwavelen : A -> R) (pk_tot pk_in : P * key A Q) (I_ Q_ : P * list Q) (qu re : option ((P * list Q) * (P * list Q)))
    (root : C_fld -> C_fld) (fr_i fr_o bk_i bk_o src : P) (cmn : P * list Q) (srcks frks bkks : list (bool * A * Q)) (msb msa : list (A * Q))
    (r : list (inj C_fld P (key A Q))) (x : gmap (P * key A Q) C_fld) (big : C_fld) (os : list A) (t : R) v :
  frequencies qadd qneg q0 Hz -> wired qneg (hd_outs tiny phase_deg h_Js c_m_s iwavelen pk_tot pk_in I_ Q_ qu re) cmn -> both msb srcks ->
  homodyne qadd qneg reject root pk_tot fr_i fr_o bk_i bk_o src (hd_outs tiny phase_deg h_Js c_m_s iwavelen pk_tot pk_in I_ Q_ qu re) cmn srcks frks bkks = Ok r ->
  shines (field x) src msb -> shines (field x) fr_i msa -> (forall m, m ∈ msa -> reject m.2 = false) -> carriers os msb ->
  x !! pk_tot = Some v -> covers qadd qneg msb msa (lower_at (field x) src) (lower_at (field x) fr_i) I_.2 -> covers qadd qneg msb msa (lower_at (field x) src) (lower_at (field x) fr_i) Q_.2 ->
  plain Hz I_.2 (fun F => reads big r x (I_.1, cls F)) t = real_part (cis (phase_deg / 360 * (2 * PI)) * product Hz os msb msa (lower_at (field x) src) (lower_at (field x) fr_i) t) / cre (R_sqrt.sqrt (c_abs v + tiny)) /\
  plain Hz Q_.2 (fun F => reads big r x (Q_.1, cls F)) t = real_part (ci * cis (phase_deg / 360 * (2 * PI)) * product Hz os msb msa (lower_at (field x) src) (lower_at (field x) fr_i) t) / cre (R_sqrt.sqrt (c_abs v + tiny)).
Proof. intros. by eapply (C89_IQ_lem qadd qneg q0 Hz reject tiny phase_deg h_Js c_m_s iwavelen pk_tot pk_in I_ Q_ qu re root fr_i fr_o bk_i bk_o src cmn srcks frks bkks msb msa r x big os t). Qed.
Print Assumptions C89_quadratures.
(** the outputs in quanta: the local oscillator is taken relative to the root of h nu / 2 *)
Theorem C89_quanta {P A Q} `{Countable P} `{Countable A} `{Countable Q} (qadd : Q -> Q -> Q) (qneg : Q -> Q) (q0 : Q) (Hz : Q -> R) (reject : Q -> bool)
    (tiny phase_deg h_Js c_m_s : R) (iwavelen : A -> R) (pk_tot pk_in : P * key A Q) (I_ Q_ : P * list Q) (qu re : option ((P * list Q) * (P * list Q)))
    (root : C_fld -> C_fld) (fr_i fr_o bk_i bk_o src : P) (cmn : P * list Q) (srcks frks bkks : list (bool * A * Q)) (msb msa : list (A * Q))
    (r : list (inj C_fld P (key A Q))) (x : gmap (P * key A Q) C_fld) (big : C_fld) (os : list A) (t : R) v qI qQ :
  frequencies qadd qneg q0 Hz -> wired qneg (hd_outs tiny phase_deg h_Js c_m_s iwavelen pk_tot pk_in I_ Q_ qu re) cmn -> both msb srcks ->
  homodyne qadd qneg reject root pk_tot fr_i fr_o bk_i bk_o src (hd_outs tiny phase_deg h_Js c_m_s iwavelen pk_tot pk_in I_ Q_ qu re) cmn srcks frks bkks = Ok r ->
  shines (field x) src msb -> shines (field x) fr_i msa -> (forall m, m ∈ msa -> reject m.2 = false) -> carriers os msb ->
  qu = Some (qI, qQ) -> x !! pk_tot = Some v -> covers qadd qneg msb msa (lower_at (field x) src) (lower_at (field x) fr_i) qI.2 -> covers qadd qneg msb msa (lower_at (field x) src) (lower_at (field x) fr_i) qQ.2 ->
  let b' m := cre (/ R_sqrt.sqrt (h_Js * c_m_s * iwavelen m.1 / 2)) * lower_at (field x) src m in
  plain Hz qI.2 (fun F => reads big r x (qI.1, cls F)) t = real_part (cis (phase_deg / 360 * (2 * PI)) * product Hz os msb msa b' (lower_at (field x) fr_i) t) / cre (R_sqrt.sqrt (c_abs v + tiny)) /\
  plain Hz qQ.2 (fun F => reads big r x (qQ.1, cls F)) t = real_part (ci * cis (phase_deg / 360 * (2 * PI)) * product Hz os msb msa b' (lower_at (field x) fr_i) t) / cre (R_sqrt.sqrt (c_abs v + tiny)).
Proof. intros. by eapply (C89_quanta_lem qadd qneg q0 Hz reject tiny phase_deg h_Js c_m_s iwavelen pk_tot pk_in I_ Q_ qu re root fr_i fr_o bk_i bk_o src cmn srcks frks bkks msb msa r x big os t). Qed.
Print Assumptions C89_quanta.
(** the relative outputs: over the geometric mean of the two powers *)
Theorem C89_relative {P A Q} `{Countable P} `{Countable A} `{Countable Q} (qadd : Q -> Q -> Q) (qneg : Q -> Q) (q0 : Q) (Hz : Q -> R) (reject : Q -> bool)
    (tiny phase_deg h_Js c_m_s : R) (iwavelen : A -> R) (pk_tot pk_in : P * key A Q) (I_ Q_ : P * list Q) (qu re : option ((P * list Q) * (P * list Q)))
    (root : C_fld -> C_fld) (fr_i fr_o bk_i bk_o src : P) (cmn : P * list Q) (srcks frks bkks : list (bool * A * Q)) (msb msa : list (A * Q))
    (r : list (inj C_fld P (key A Q))) (x : gmap (P * key A Q) C_fld) (big : C_fld) (os : list A) (t : R) v w rI rQ :
  frequencies qadd qneg q0 Hz -> wired qneg (hd_outs tiny phase_deg h_Js c_m_s iwavelen pk_tot pk_in I_ Q_ qu re) cmn -> both msb srcks ->
  homodyne qadd qneg reject root pk_tot fr_i fr_o bk_i bk_o src (hd_outs tiny phase_deg h_Js c_m_s iwavelen pk_tot pk_in I_ Q_ qu re) cmn srcks frks bkks = Ok r ->
  shines (field x) src msb -> shines (field x) fr_i msa -> (forall m, m ∈ msa -> reject m.2 = false) -> carriers os msb ->
  re = Some (rI, rQ) -> x !! pk_tot = Some v -> x !! pk_in = Some w -> covers qadd qneg msb msa (lower_at (field x) src) (lower_at (field x) fr_i) rI.2 -> covers qadd qneg msb msa (lower_at (field x) src) (lower_at (field x) fr_i) rQ.2 ->
  plain Hz rI.2 (fun F => reads big r x (rI.1, cls F)) t = real_part (cis (phase_deg / 360 * (2 * PI)) * product Hz os msb msa (lower_at (field x) src) (lower_at (field x) fr_i) t) / cre (R_sqrt.sqrt (c_abs (w * v) + tiny)) /\
  plain Hz rQ.2 (fun F => reads big r x (rQ.1, cls F)) t = real_part (ci * cis (phase_deg / 360 * (2 * PI)) * product Hz os msb msa (lower_at (field x) src) (lower_at (field x) fr_i) t) / cre (R_sqrt.sqrt (c_abs (w * v) + tiny)).
Proof. intros. by eapply (C89_relative_lem qadd qneg q0 Hz reject tiny phase_deg h_Js c_m_s iwavelen pk_tot pk_in I_ Q_ qu re root fr_i fr_o bk_i bk_o src cmn srcks frks bkks msb msa r x big os t). Qed.
Print Assumptions C89_relative.
(** the case: 4 W of local oscillator, light in one sideband *)
Example C89_case : frequencies Z.add Z.opp 0%Z IZR /\ wired Z.opp houts (9%nat, hs) /\ both hm hk /\ carriers [()] hm /\
  homodyne Z.add Z.opp (fun _ => false) (fun z => z) (10%nat, cls 0%Z) 0%nat 1%nat 2%nat 3%nat 4%nat houts (9%nat, hs) hk hk hk = Ok hr /\
  shines (field hx) 4%nat hm /\ shines (field hx) 0%nat hm /\ hx !! (10%nat, cls 0%Z) = Some (cre 4) /\
  covers Z.add Z.opp hm hm (lower_at (field hx) 4%nat) (lower_at (field hx) 0%nat) hs /\ covers Z.add Z.opp hm hm (lower_at (field hx) 4%nat) (lower_at (field hx) 4%nat) hs /\
  covers Z.add Z.opp hm hm (lower_at (field hx) 0%nat) (lower_at (field hx) 0%nat) hs /\
  lower_at (field hx) 4%nat ((), 0%Z) = cre 2 /\ lower_at (field hx) 0%nat ((), 1%Z) = ci.
Proof. exact h_case. Qed.
(** the setup fails for no light and no keys *)
Theorem C89_total {P A Q} `{Countable P} `{Countable A} `{Countable Q} (qadd : Q -> Q -> Q) (qneg : Q -> Q) (reject : Q -> bool)
    (root : C_fld -> C_fld) (pk : P * key A Q) (fr_i fr_o bk_i bk_o src : P) (outputs : list (hout P A Q)) (cmn : P * list Q) (srcks frks bkks : list (bool * A * Q)) : wired qneg outputs cmn ->
  exists r, homodyne qadd qneg reject root pk fr_i fr_o bk_i bk_o src outputs cmn srcks frks bkks = Ok r.
Proof. exact (C89_ok_lem qadd qneg reject root pk fr_i fr_o bk_i bk_o src outputs cmn srcks frks bkks). Qed.
Print Assumptions C89_total.

(** vacuum at the port: the outputs in quanta have the noise 1 (one sided; 1/2 two sided) but for the
    1e-20 in the norm, and I and Q are not correlated *)
Theorem C89_vacuum {P A Q} `{Countable P} `{Countable A} `{Countable Q} (qadd : Q -> Q -> Q) (qneg : Q -> Q) (q0 : Q) (Hz : Q -> R) (reject : Q -> bool)
    (tiny phase_deg h_Js c_m_s : R) (iwavelen : A -> R) (pk_tot pk_in : P * key A Q) (I_ Q_ : P * list Q) (qu re : option ((P * list Q) * (P * list Q)))
    (root : C_fld -> C_fld) (fr_i fr_o bk_i bk_o src : P) (cmn : P * list Q) (srcks frks bkks : list (bool * A * Q)) (msb : list (A * Q))
    (r : list (inj C_fld P (key A Q))) (x : gmap (P * key A Q) C_fld)
    {Obj Name} `{Countable Obj} `{Countable Name} qI qQ p (ms : list (A * Q)) F sided (adjust : R) (expect : Obj -> P * key A Q -> P * key A Q -> C_fld) coupling vs (o : P -> Obj) keys tr cp nm (pm : list (Name * P)) n1 n2 :
  frequencies qadd qneg q0 Hz -> wired qneg (hd_outs tiny phase_deg h_Js c_m_s iwavelen pk_tot pk_in I_ Q_ qu re) cmn -> both msb srcks ->
  homodyne qadd qneg reject root pk_tot fr_i fr_o bk_i bk_o src (hd_outs tiny phase_deg h_Js c_m_s iwavelen pk_tot pk_in I_ Q_ qu re) cmn srcks frks bkks = Ok r ->
  shines (field x) src msb ->
  qu = Some (qI, qQ) ->
  (forall o, 0 < h_Js * c_m_s * iwavelen o)%R -> (0 < tiny)%R -> x !! pk_tot = Some (power msb (lower_at (field x) src)) -> power msb (lower_at (field x) src) = cre p -> src <> fr_i ->
  F ∈ qI.2 -> F ∈ qQ.2 -> NoDup ms -> (forall m, m ∈ ms -> reject m.2 = false) ->
  (forall v, v ∈ vs -> keys v ≡ₚ keys_of ms /\ expect (o v) = vacuum_expect h_Js c_m_s iwavelen) ->
  (forall q G, q ∈ [qI.1; qQ.1] -> G ∈ [F; qneg F] -> reaches coupling r x vs fr_i q tr ms G) -> unitary vs tr ms ->
  sidebands_in qadd msb ms (lower_at (field x) src) F -> sidebands_in qadd msb ms (lower_at (field x) src) (qneg F) ->
  adjust_PSD sided = Ok adjust -> noise_map cp (vacua vs o keys) = Ok nm -> NoDup coupling.*1 -> NoDup pm.*1 -> (n1, qI.1) ∈ pm -> (n2, qQ.1) ∈ pm -> n1 <> n2 ->
  let csd := (CSD_builds adjust expect nm coupling pm (cls F) (cls (qneg F))).1 in
  csd !! (n1, n1) = Some (cre (p / (p + tiny) / INR sided)) /\ csd !! (n2, n2) = Some (cre (p / (p + tiny) / INR sided)) /\ csd !! (n1, n2) = Some 0.
Proof. intros HF HW Hb E Hs. exact (C89_vacuum_lem qadd qneg q0 Hz reject tiny phase_deg h_Js c_m_s iwavelen pk_tot pk_in I_ Q_ qu re root fr_i fr_o bk_i bk_o src cmn srcks frks bkks msb r x HF HW Hb E Hs qI qQ p ms F sided adjust expect coupling vs o keys tr cp nm pm n1 n2). Qed.
Print Assumptions C89_vacuum.
Example C89_vacuum_case : power hm (lower_at (field hx) 4%nat) = cre 4 /\
  (forall q G, q ∈ [7; 8]%nat -> G ∈ [1; -1]%Z -> reaches hcoupling hr hx [0%nat] 0%nat q (fun _ _ => 1) hm G) /\ unitary [0%nat] (fun _ _ => 1) hm /\
  sidebands_in Z.add hm hm (lower_at (field hx) 4%nat) 1%Z /\ sidebands_in Z.add hm hm (lower_at (field hx) 4%nat) (-1)%Z /\
  (exists nm, noise_map hcp (vacua [0%nat] (fun v => v) (fun _ => keys_of hm)) = Ok nm) /\ NoDup hcoupling.*1.
Proof. exact h_vacuum_case. Qed.

(** without a port for the local oscillator the light beats with itself: both outputs are the same
    intensity, and at phase 0 the second reads nothing, whatever the light *)
Theorem C89_Q_refuted {P A Q} `{Countable P} `{Countable A} `{Countable Q} (qadd : Q -> Q -> Q) (qneg : Q -> Q) (q0 : Q) (Hz : Q -> R) (reject : Q -> bool)
    (tiny phase_deg h_Js c_m_s : R) (iwavelen : A -> R) (pk_tot pk_in : P * key A Q) (I_ Q_ : P * list Q) (qu re : option ((P * list Q) * (P * list Q)))
    (root : C_fld -> C_fld) (fr_i fr_o bk_i bk_o src : P) (cmn : P * list Q) (srcks frks bkks : list (bool * A * Q)) (msb msa : list (A * Q))
    (r : list (inj C_fld P (key A Q))) (x : gmap (P * key A Q) C_fld) (big : C_fld) (os : list A) (t : R) v :
  frequencies qadd qneg q0 Hz -> wired qneg (hd_outs tiny phase_deg h_Js c_m_s iwavelen pk_tot pk_in I_ Q_ qu re) cmn -> both msb srcks ->
  homodyne qadd qneg reject root pk_tot fr_i fr_o bk_i bk_o src (hd_outs tiny phase_deg h_Js c_m_s iwavelen pk_tot pk_in I_ Q_ qu re) cmn srcks frks bkks = Ok r ->
  shines (field x) src msb -> shines (field x) fr_i msa -> (forall m, m ∈ msa -> reject m.2 = false) -> carriers os msb ->
  src = fr_i -> msa = msb -> x !! pk_tot = Some v -> covers qadd qneg msb msb (lower_at (field x) src) (lower_at (field x) src) I_.2 -> covers qadd qneg msb msb (lower_at (field x) src) (lower_at (field x) src) Q_.2 ->
  plain Hz I_.2 (fun F => reads big r x (I_.1, cls F)) t = cre (cos (phase_deg / 360 * (2 * PI))) * intensity Hz os msb (lower_at (field x) src) t / cre (R_sqrt.sqrt (c_abs v + tiny)) /\
  plain Hz Q_.2 (fun F => reads big r x (Q_.1, cls F)) t = cre (- sin (phase_deg / 360 * (2 * PI))) * intensity Hz os msb (lower_at (field x) src) t / cre (R_sqrt.sqrt (c_abs v + tiny)).
Proof. intros. by eapply (C89_self_lem qadd qneg q0 Hz reject tiny phase_deg h_Js c_m_s iwavelen pk_tot pk_in I_ Q_ qu re root fr_i fr_o bk_i bk_o src cmn srcks frks bkks msb msa r x big os t). Qed.
Print Assumptions C89_Q_refuted.
(** and an oscillating part reads half of what a photodiode reads at the same port *)
Theorem C89_peak_refuted {P A Q} `{Countable P} `{Countable A} `{Countable Q} (qadd : Q -> Q -> Q) (qneg : Q -> Q) (q0 : Q) (Hz : Q -> R) (reject : Q -> bool)
    (big : C_fld) (root : C_fld -> C_fld) (pk : P * key A Q) (fr_i fr_o bk_i bk_o : P) (outputs : list (hout P A Q)) (h : hout P A Q) (N : C_fld) (cmn : P * list Q) (frks bkks : list (bool * A * Q)) (ms : list (A * Q)) (r : list (inj C_fld P (key A Q))) (x : gmap (P * key A Q) C_fld) (F : Q) (pr : list (inj C_fld P (key A Q))) (w ba : P) (wks baks : list Q) :
  frequencies qadd qneg q0 Hz -> wired qneg outputs cmn -> both ms frks -> shines (field x) fr_i ms -> (forall m, m ∈ ms -> reject m.2 = false) ->
  h ∈ outputs -> h_Std h = 1 -> h_StdC h = 1 -> (forall o, h_adjust h o = 1) -> norm_of h x N -> N <> 0 -> F ∈ h_keys h ->
  homodyne qadd qneg reject root pk fr_i fr_o bk_i bk_o fr_i outputs cmn frks frks bkks = Ok r ->
  signal_keys qneg wks -> F ∈ wks -> pd qadd qneg reject fr_i w ba frks wks baks = Ok pr ->
  N * reads big r x (h_port h, cls F) * (if decide (F = q0) then 1 else cre 2) = arrives pr (field x) (w, cls F).
Proof. exact (C89_photodiode_lem qadd qneg q0 Hz reject big root pk fr_i fr_o bk_i bk_o outputs h N cmn frks bkks ms r x F pr w ba wks baks). Qed.
Print Assumptions C89_peak_refuted.
(** the outputs of phase 0 are such *)
Example C89_peak_case : stdcplg 0 = 1 /\ stdcplgC 0 = 1.
Proof. unfold stdcplg, stdcplgC. by destruct (Req_EM_T 0 0). Qed.

(** the common output: the intensities at both ports over the root of the power *)
Theorem C89_common {P A Q} `{Countable P} `{Countable A} `{Countable Q} (qadd : Q -> Q -> Q) (qneg : Q -> Q) (q0 : Q) (Hz : Q -> R) (reject : Q -> bool)
    (root : C_fld -> C_fld) (pk : P * key A Q) (fr_i fr_o bk_i bk_o src : P) (outputs : list (hout P A Q)) (cmn : P * list Q)
    (srcks frks bkks : list (bool * A * Q)) (msb msa : list (A * Q)) (r : list (inj C_fld P (key A Q))) (x : gmap (P * key A Q) C_fld) (big v : C_fld) (osa osb : list A) (t : R) :
  frequencies qadd qneg q0 Hz -> wired qneg outputs cmn -> both msb srcks ->
  homodyne qadd qneg reject root pk fr_i fr_o bk_i bk_o src outputs cmn srcks frks bkks = Ok r ->
  shines (field x) src msb -> shines (field x) fr_i msa -> (forall m, m ∈ msa -> reject m.2 = false) -> (forall m, m ∈ msb -> reject m.2 = false) -> both msa frks ->
  x !! pk = Some v -> carriers osa msa -> carriers osb msb ->
  covers qadd qneg msa msa (lower_at (field x) fr_i) (lower_at (field x) fr_i) cmn.2 -> covers qadd qneg msb msb (lower_at (field x) src) (lower_at (field x) src) cmn.2 ->
  plain Hz cmn.2 (fun F => reads big r x (cmn.1, cls F)) t =
  (intensity Hz osa msa (lower_at (field x) fr_i) t + if decide (src <> fr_i) then intensity Hz osb msb (lower_at (field x) src) t else 0) / root v.
Proof. intros. by eapply (common_lem qadd qneg q0 Hz reject). Qed.
Print Assumptions C89_common.
(** light passes from the front to the back and from the back to the front *)
Theorem C89_through {P A Q} `{Countable P} `{Countable A} `{Countable Q} (qadd : Q -> Q -> Q) (qneg : Q -> Q) (q0 : Q) (Hz : Q -> R) (reject : Q -> bool)
    (big : C_fld) (root : C_fld -> C_fld) (pk : P * key A Q) (fr_i fr_o bk_i bk_o src : P) (outputs : list (hout P A Q)) (cmn : P * list Q) (srcks frks bkks : list (bool * A * Q))
    (r : list (inj C_fld P (key A Q))) (x : gmap (P * key A Q) C_fld) (l : bool) (o : A) (f : Q) :
  frequencies qadd qneg q0 Hz -> wired qneg outputs cmn -> NoDup frks -> NoDup bkks -> bk_o <> fr_o ->
  homodyne qadd qneg reject root pk fr_i fr_o bk_i bk_o src outputs cmn srcks frks bkks = Ok r ->
  reads big r x (bk_o, opt l o f) = (if decide ((l, o, f) ∈ frks) then field x (fr_i, opt l o f) else 0) /\
  reads big r x (fr_o, opt l o f) = (if decide ((l, o, f) ∈ bkks) then field x (bk_i, opt l o f) else 0).
Proof. exact (C89_through_lem qadd qneg q0 Hz reject big root pk fr_i fr_o bk_i bk_o src outputs cmn srcks frks bkks r x l o f). Qed.
Print Assumptions C89_through.

(** the total power photodiode reads the sum of the powers of the modes *)
Theorem C89_power {P A Q} `{Countable P} `{Countable A} `{Countable Q} (q0 : Q) x (port wpd : P) (ms : list (A * Q)) ks : shines x port ms -> both ms ks ->
  arrives (total_power q0 port wpd ks) x (wpd, cls q0) = power ms (lower_at x port).
Proof. exact (wpd_lem q0 x port wpd ms ks). Qed.
Print Assumptions C89_power.
(** its output in quanta is twice the number of photons *)
Theorem C89_photons_twice {P A Q} `{Countable P} `{Countable A} `{Countable Q} (q0 : Q) h_Js c_m_s (iwavelen : A -> R) x (port qp : P) (ms : list (A * Q)) ks :
  shines x port ms -> both ms ks -> (forall o, h_Js * c_m_s * iwavelen o <> 0)%R ->
  arrives (total_quanta q0 h_Js c_m_s iwavelen port qp ks) x (qp, cls q0) = cre 2 * fsum (fun m => lower_at x port m * cconj (lower_at x port m) / cre (h_Js * c_m_s * iwavelen m.1)) ms.
Proof. exact (quanta_lem q0 h_Js c_m_s iwavelen x port qp ms ks). Qed.
Print Assumptions C89_photons_twice.
Theorem C89_photons_refuted {P A Q} `{Countable P} `{Countable A} `{Countable Q} (q0 : Q) h_Js c_m_s (iwavelen : A -> R) x (port qp : P) (ms : list (A * Q)) ks o f :
  shines x port ms -> both ms ks -> (forall o, 0 < h_Js * c_m_s * iwavelen o)%R -> ms = [(o, f)] -> lower_at x port (o, f) <> 0 ->
  arrives (total_quanta q0 h_Js c_m_s iwavelen port qp ks) x (qp, cls q0) <> power ms (lower_at x port) / cre (h_Js * c_m_s * iwavelen o).
Proof. exact (C89_quanta_twice q0 h_Js c_m_s iwavelen x port qp ms ks o f). Qed.
Print Assumptions C89_photons_refuted.
Example C89_photons_case : shines (fun n : nat * key unit Z => if decide (n.2.2 = 0%Z) then 1 else 0) 0%nat [((), 0%Z)] /\ both [((), 0%Z)] [(true, (), 0%Z); (false, (), 0%Z)].
Proof.
  split; [|unfold both; reflexivity]. split; [apply NoDup_singleton| |].
  - intros [[] f] N. unfold lower_at. cbn. rewrite decide_False; [done|]. intros ->. apply N. left.
  - intros [[] f]. unfold lower_at, raise_at. cbn. destruct (decide _); [symmetry; apply SigProofs.cconj_1|symmetry; exact (conj_0 C_herm)].
Qed.
