(** Model of the homodyne readout and the total power photodiode,
    phasor/optics/hidden_variable_homodyne.py.  Not modelled: the keys that are requested (80-174,
    419-436, 463-514), the readouts.  Numbers are exact, values at one point of a sweep. *)
From Coq Require Import Reals.
From stdpp Require Import base tactics numbers gmap list.
From Verif Require Import Fld Py Herm InjModel OptModel SigModel PdModel.
Local Open Scope fld_scope.

(** 179-193 Stdcplg and StdcplgC *)
Definition stdcplg (phase_deg : R) : C_fld :=
  if Req_EM_T phase_deg 0 then 1
  else if Req_EM_T (Rabs (phase_deg + 90)) 180 then ci
  else if Req_EM_T (Rabs phase_deg) 180 then - (1)
  else if Req_EM_T (Rabs (phase_deg - 90)) 180 then - ci
  else cis (phase_deg / 360 * (2 * PI)).
Definition stdcplgC (phase_deg : R) : C_fld :=
  if Req_EM_T phase_deg 0 then 1
  else if Req_EM_T (Rabs (phase_deg + 90)) 180 then - ci
  else if Req_EM_T (Rabs phase_deg) 180 then - (1)
  else if Req_EM_T (Rabs (phase_deg - 90)) 180 then ci
  else cis (- phase_deg / 360 * (2 * PI)).
(** 200, 328, 337: the norms; [tiny] is the literal 1e-20, abs of a complex number is its modulus *)
Definition c_abs (z : C_fld) : R := R_sqrt.sqrt (fst z * fst z + snd z * snd z).
Definition norm1 (tiny : R) (l : list C_fld) : C_fld := match l with [v] => cre (R_sqrt.sqrt (c_abs v + tiny)) | _ => 0 end.
Definition norm2 (tiny : R) (l : list C_fld) : C_fld := match l with [u; v] => cre (R_sqrt.sqrt (c_abs (v * u) + tiny)) | _ => 0 end.

Section homodyne.
  Context {P A Q : Type} `{Countable P} `{Countable A} `{Countable Q}.
  Context (qadd : Q -> Q -> Q) (qneg : Q -> Q) (q0 : Q).
  (** system.reject_classical_frequency_order *)
  Context (reject : Q -> bool).
  Notation node := (P * key A Q)%type.
  Notation js := (list (inj C_fld P (key A Q))).

  (** 202-291 and 530-611, one pass of the loop over the output frequencies: the two functions
      differ only in the injection [mk].  [c] and [cC] are the couplings after division by 2 and
      adjustment *)
  Definition hd_pair (mk : node -> node -> node -> C_fld -> inj C_fld P (key A Q)) (fr src outp : P) (lower : bool) (o : A) (f : Q) (c cC : C_fld) (lk : Q) : js :=
    let fP := qadd f lk in
    let fN := qadd f (qneg lk) in
    let conj := (src, opt (negb lower) o f) in
    if lower then
      (if reject fP then [] else [mk (fr, opt lower o fP) conj (outp, cls lk) c]) ++
      (if decide (qneg lk <> lk) then if reject fN then [] else [mk (fr, opt lower o fN) conj (outp, cls (qneg lk)) c] else [])
    else
      (if reject fP then [] else [mk (fr, opt lower o fP) conj (outp, cls (qneg lk)) cC]) ++
      (if decide (qneg lk <> lk) then if reject fN then [] else [mk (fr, opt lower o fN) conj (outp, cls lk) cC] else []).

  (** the outputs of insert_coupling: port, its keys, the couplings, the norms, and the factor
      cplg_adjust 236-240 of an optical frequency *)
  Record hout := HOut { h_port : P; h_keys : list Q; h_Std : C_fld; h_StdC : C_fld; h_norms : list node; h_func : list C_fld -> C_fld; h_adjust : A -> C_fld }.
  (** 195-291 *)
  Definition insert_coupling (fr src : P) (k : bool * A * Q) (h : hout) : res js :=
    let '(lower, o, f) := k in
    outs qneg (hd_pair (fun p1 p2 t c => TripletNorms p1 p2 t (h_norms h) c (h_func h)) fr src (h_port h) lower o f
      (h_Std h / two_c * h_adjust h o) (h_StdC h / two_c * h_adjust h o)) (h_keys h) (h_keys h) ∅.
  (** 293-338; the keys of the ports are given, None if the output is not included.  238-240: the
      factor 1/(h c iwavelen/2)**.5 *)
  Definition one_adjust (o : A) : C_fld := 1.
  Definition quanta_adjust (h_Js c_m_s : R) (iwavelen : A -> R) (o : A) : C_fld := cre (/ R_sqrt.sqrt (h_Js * c_m_s * iwavelen o / 2)).
  Definition hd_outs (tiny phase_deg h_Js c_m_s : R) (iwavelen : A -> R) (pk_tot pk_in : node)
      (I_ Q_ : P * list Q) (quanta relative : option ((P * list Q) * (P * list Q))) : list hout :=
    let S := stdcplg phase_deg in let SC := stdcplgC phase_deg in
    [HOut I_.1 I_.2 S SC [pk_tot] (norm1 tiny) one_adjust; HOut Q_.1 Q_.2 (ci * S) (- ci * SC) [pk_tot] (norm1 tiny) one_adjust] ++
    (match quanta with
     | Some (qI, qQ) => [HOut qI.1 qI.2 S SC [pk_tot] (norm1 tiny) (quanta_adjust h_Js c_m_s iwavelen);
                         HOut qQ.1 qQ.2 (ci * S) (- ci * SC) [pk_tot] (norm1 tiny) (quanta_adjust h_Js c_m_s iwavelen)]
     | None => [] end) ++
    (match relative with
     | Some (rI, rQ) => [HOut rI.1 rI.2 S SC [pk_tot; pk_in] (norm2 tiny) one_adjust; HOut rQ.1 rQ.2 (ci * S) (- ci * SC) [pk_tot; pk_in] (norm2 tiny) one_adjust]
     | None => [] end).
  (** 517-611 with the arguments of 349-358: one pass of kfrom; v**.5 is [root] *)
  Definition hd_common (root : C_fld -> C_fld) (pk_tot : node) (fr : P) (outp : P * list Q) (k : bool * A * Q) : res js :=
    let '(lower, o, f) := k in
    outs qneg (hd_pair (fun p1 p2 t c => TripletNorm p1 p2 t pk_tot c root) fr fr outp.1 lower o f (1 / two_c) (1 / two_c)) outp.2 outp.2 ∅.
  Definition through (a b : P) (k : bool * A * Q) : js := let '(l, o, f) := k in [ConstantEdge (a, opt l o f) (b, opt l o f) 1].
  (** 176-389 system_setup_coupling *)
  Definition homodyne (root : C_fld -> C_fld) (pk_tot : node) (fr_i fr_o bk_i bk_o src : P) (outputs : list hout) (cmn : P * list Q)
      (srcks frks bkks : list (bool * A * Q)) : res js :=
    a ← each (fun k => each (insert_coupling fr_i src k) outputs) srcks;
    let b := bkks ≫= through bk_i fr_o in
    c ← each (fun k => d ← hd_common root pk_tot fr_i cmn k; Ok (through fr_i bk_o k ++ d)) frks;
    d ← (if decide (src <> fr_i) then each (hd_common root pk_tot src cmn) srcks else Ok []);
    Ok (a ++ b ++ c ++ d).

  (** 438-460 TotalDCPowerPD: WpdDC, and QuantaDC with [quanta] *)
  Definition total_power (port wpd : P) (ks : list (bool * A * Q)) : js :=
    (fun '(l, o, f) => MultiplicativeEdge (port, opt l o f) (wpd, cls q0) (1 / two_c) [(port, opt (negb l) o f)]) <$> ks.
  Definition total_quanta (h_Js c_m_s : R) (iwavelen : A -> R) (port quanta : P) (ks : list (bool * A * Q)) : js :=
    (fun '(l, o, f) => MultiplicativeEdge (port, opt l o f) (quanta, cls q0) (1 / two_c / cre (h_Js * c_m_s * iwavelen o / 2)) [(port, opt (negb l) o f)]) <$> ks.
End homodyne.
Arguments hout : clear implicits.
