(** Model of the signal elements in /repo/phasor/signals: ZPSOS.py, siso_filter.py,
    state_space.py, mixer.py (Mixer), RMS.py (MeanSquareMixer), amplifiers.py
    (DistributionAmplifier, SummingAmplifier).  Linear couplings are edges as in ElecModel.v,
    one key at a time; products of fields are the Triplet injections of InjModel.v.
    Values are complex numbers without rounding; the fitting interfaces (fitter_data),
    SBQFCascade, MatrixAmplifier, Harmonic2Generator and the classes of RMS.py marked TODO are
    not modelled. *)
From stdpp Require Import base tactics list numbers gmap.
From Coq Require Import Reals.
From Verif Require Import Fld Py Herm ElecModel InjModel OptModel.

(** 1j and .conjugate() *)
Definition ci : C_fld := C_i.
Definition cconj (x : C_fld) : C_fld := C_conj x.
Definition cre (x : R) : C_fld := C_of x.

Section filters.
  Local Open Scope fld_scope.
  (** ZPSOS.py 157-165 root_xfer *)
  Definition root_xfer (freq : C_fld) (rlist : list C_fld) : C_fld :=
    match rlist with
    | [] => 1
    | r0 :: rs => foldl (fun xfer root => xfer * (1 - ci * freq / root)) (1 - ci * freq / r0) rs
    end.
  (** 167-174 root_xfer2: each root with its conjugate *)
  Definition root_xfer2 (freq : C_fld) (rlist : list C_fld) : C_fld :=
    match rlist with
    | [] => 1
    | r0 :: rs =>
        foldl (fun xfer root => xfer * ((1 - freq / cconj root * ci) * (1 - freq / root * ci)))
          ((1 - freq / cconj r0 * ci) * (1 - freq / r0 * ci)) rs
    end.
  (** SZPCascade 48-82: the roots; 52-65 assert that those of zeros_r and poles_r are real *)
  Record zpk := Zpk { zeros_r : list C_fld; zeros_c : list C_fld; poles_r : list C_fld; poles_c : list C_fld }.
  Definition zpk_assert (z : zpk) : Prop :=
    Forall (fun r : C_fld => r.2 = 0%R) (poles_r z) /\ Forall (fun r : C_fld => r.2 = 0%R) (zeros_r z).
  (** 156-175 filter_func *)
  Definition szp (z : zpk) (freq : C_fld) : C_fld :=
    (root_xfer freq (zeros_r z) * root_xfer2 freq (zeros_c z)) /
    (root_xfer freq (poles_r z) * root_xfer2 freq (poles_c z)).
  (** SRationalFilter 204-241: gain, delay_s (None when left out), gain_F_Hz *)
  Record rational := Rational { r_zpk : zpk; r_gain : C_fld; r_delay : option R; r_gain_F : R }.
  Definition rational_func (r : rational) (freq : R) : C_fld :=
    let pre : C_fld := r_gain r in
    let pre : C_fld := match r_delay r with
                       | Some d => pre * cis (- (2 * PI * freq * d))
                       | None => pre
                       end in
    let xfer : C_fld := szp (r_zpk r) (cre freq) * pre in
    if Req_EM_T (r_gain_F r) 0 then xfer else xfer / (C_abs (szp (r_zpk r) (cre (r_gain_F r))) : C_fld).

  (** siso_filter.py 46-53 filter_func_run at one sample, 75-96 system_setup_coupling: the
      coupling inserted for a key of frequency [freq], [center] when F_AC is left out *)
  Record siso := Siso { no_DC : bool; F_cutoff : option R; F_cutoff_low : R }.
  Definition siso_func_run (a : siso) (filter_func : R -> C_fld) (freq : R) : C_fld :=
    let xfer := filter_func freq in
    if no_DC a then if Req_EM_T freq 0 then 0 else xfer else xfer.
  Definition siso_coupling (a : siso) (filter_func : R -> C_fld) (center freq : R) : list (edge (K := C_fld) unit) :=
    if match F_cutoff a with Some c => if Rlt_dec c (Rabs center) then true else false | None => false end then [] else
    if Rlt_dec (Rabs center) (F_cutoff_low a) then [] else
    if (if no_DC a then if Req_EM_T center 0 then true else false else false) then [] else
    [(I tt, O tt, siso_func_run a filter_func freq)].
  (** siso_filter.py 114-118 Integrator *)
  Definition integrator (freq : R) : C_fld := 1 / (- ci * cre freq).
  (** 132-168 TransferFunctionSISOMechSingleResonance: the width is that of the quality
      factor if given, else FWHM_Hz *)
  Definition mech_FWHM (center : R) (q_factor FWHM : option R) : res R :=
    match q_factor, FWHM with
    | Some q, _ => Ok (center / q)%R
    | None, Some w => Ok w
    | None, None => Err RuntimeError
    end.
  Definition mech_resonance (mass center FWHM freq : R) : C_fld :=
    let gain : C_fld := 1 / cre (mass * (2 * PI * (2 * PI))) in
    gain / (cre (- (freq * freq)) + ci * cre FWHM * cre freq + cre (center * center)).
End filters.

Section linear.
  Context {K : fld}.
  Local Open Scope fld_scope.
  (** state_space.py 149-198 system_setup_coupling for one key; A, B, C, D are arrays given
      by their entries.  Nodes: I input, O output, Sg state.  Line 171 takes the output port
      of D from ports_states: a state node, which has the attribute .o (base/ports.py 99). *)
  Context (s : K).
  Definition nz {X} (c : K) (x : X) : list X := if decide (c = 0) then [] else [x].
  Definition ss_in (Ns No : nat) (B D : nat -> nat -> K) (i : nat) : res (list (edge nat)) :=
    if decide (Ns < No)%nat then Err IndexError else
    Ok ((st ← seq 0 Ns; nz (B st i) (I i, Sg st, B st i / s)) ++
        (o ← seq 0 No; nz (D o i) (I i, Sg o, D o i))).
  Definition ss_state (Ns No : nat) (A C : nat -> nat -> K) (st : nat) : list (edge nat) :=
    (st' ← seq 0 Ns; nz (A st' st) (Sg st, Sg st', A st' st / s)) ++
    (o ← seq 0 No; nz (C o st) (Sg st, O o, C o st)).
  Definition state_space (Ni Ns No : nat) (A B C D : nat -> nat -> K) : res (list (edge nat)) :=
    ins ← mfor (fun acc i => e ← ss_in Ns No B D i; Ok (acc ++ e)) (seq 0 Ni) [];
    Ok (ins ++ (st ← seq 0 Ns; ss_state Ns No A C st)).

  (** amplifiers.py 38-43 DistributionAmplifier, 77-82 SummingAmplifier; the port names of
      port_gains, a dict, are numbers *)
  Definition distribution (gains : list (nat * K)) : list (edge nat) := (fun g => (I 0%nat, O g.1, g.2)) <$> gains.
  Definition summing (gains : list (nat * K)) : list (edge nat) := (fun g => (I g.1, O 0%nat, g.2)) <$> gains.
End linear.

(** frequency keys: FrequencyKey with its sum (KeysModel.v), here any type of keys *)
Section mixers.
  Context {Q : Type} `{Countable Q} (qadd : Q -> Q -> Q) (qneg : Q -> Q) (q0 : Q).
  (** reject_classical_frequency_order, and the sign of classical_frequency_extract *)
  Context (reject : Q -> bool) (Hz : Q -> R).
  Inductive mixport := LO | In | R_I | R_Q | MS.
  #[global] Instance mixport_eq_dec : EqDecision mixport. Proof. solve_decision. Defined.
  Definition mixport_enc (p : mixport) : nat := match p with LO => 0 | In => 1 | R_I => 2 | R_Q => 3 | MS => 4 end.
  Definition mixport_dec (n : nat) : mixport := match n with 0 => LO | 1 => In | 2 => R_I | 3 => R_Q | _ => MS end.
  Lemma mixport_dec_enc p : mixport_dec (mixport_enc p) = p. Proof. by destruct p. Qed.
  #[global] Instance mixport_countable : Countable mixport := inj_countable' mixport_enc mixport_dec mixport_dec_enc.
  Local Open Scope fld_scope.
  (** np.sign *)
  Definition sgn (x : R) : C_fld := if Rlt_dec 0 x then 1 else if Rlt_dec x 0 then - (1) else 0.
  Definition half : C_fld := 1 / (1 + 1).
  Definition quarter : C_fld := 1 / ((1 + 1) * (1 + 1)).
  (** mixer.py 64-106 Mixer.system_setup_coupling; [los], [ins] are the keys of the ports in
      iteration order *)
  Definition mixer (los ins : list Q) : list (inj C_fld mixport Q) :=
    k1 ← los; k2 ← ins;
    let f := qadd k1 k2 in
    if reject f then [] else
    let c := if decide (f = q0) then quarter else half in
    [Triplet (LO, k1) (In, k2) (R_I, f) c;
     Triplet (LO, k1) (In, k2) (R_Q, f) (ci * sgn (Hz k1) * c)].

  (** RMS.py 40-65 MeanSquareMixer.system_setup_coupling *)
  Fixpoint mean_square (ins : list Q) (already : gset Q) : list (inj C_fld mixport Q) :=
    match ins with
    | [] => []
    | k :: ins =>
        if decide (k ∈ already) then mean_square ins already else
        if decide (k = q0) then
          MultiplicativeEdge (In, k) (MS, q0) 1 [(In, k)] :: mean_square ins ({[k]} ∪ already)
        else (if reject (qneg k) then [] else [Triplet (In, k) (In, qneg k) (MS, q0) half]) ++
             mean_square ins ({[k; qneg k]} ∪ already)
    end.
End mixers.
