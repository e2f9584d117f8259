(** Model of the elements where light meets signals: phasor/optics/nonlinear_utilities.py
    (modulations_fill_2optical_2classical 147-330), photodiode.py (PD 80-99, MagicPD 158-180),
    modulators.py (PM 87-117, AM 125-155, AMPM 237-282) and the reflections of mirror.py (393-448).

    Fields are at nodes (port, key).  A key of light is a quantum key (lowering or raising), what
    is left of it when the classical frequency is taken away (polarization and optical
    frequency), and the classical frequency; a key of a signal is a classical frequency.
    Classical frequencies are any countable type with the operations of FrequencyKey.  The sets of keys
    of the ports are lists in iteration order and do not change while couplings are inserted.
    Not modelled: the backscattered light (its motion is mirror.py 450-473), symbolic values. *)
From stdpp Require Import base tactics list numbers gmap.
From Coq Require Import Reals.
From Verif Require Import Fld Py Herm ElecModel InjModel OptModel SigModel.
Local Open Scope fld_scope.

Section fill.
  Context {P A Q : Type} `{Countable P} `{Countable A} `{Countable Q}.
  Context (qadd : Q -> Q -> Q) (qneg : Q -> Q).
  (** system.reject_classical_frequency_order *)
  Context (reject : Q -> bool).
  Definition key : Type := option (bool * A) * Q.
  Definition opt (lower : bool) (o : A) (f : Q) : key := (Some (lower, o), f).
  Definition cls (f : Q) : key := (None, f).
  Notation js := (list (inj C_fld P key)).

  (** one pass of the loop 167-238: the pair of [lk] and its negative *)
  Definition drive_pair (pfrom pto inp : P) (lower : bool) (o : A) (f lk : Q) (Std StdC CL CLC : C_fld) : js :=
    let fP := qadd f lk in
    let fN := qadd f (qneg lk) in
    if lower then
      (if reject fP then [] else [Triplet (pfrom, opt lower o f) (inp, cls lk) (pto, opt lower o fP) (Std * CL)]) ++
      (if reject fN then [] else [Triplet (pfrom, opt lower o f) (inp, cls (qneg lk)) (pto, opt lower o fN) (Std * CL)])
    else
      (if reject fP then [] else [Triplet (pfrom, opt lower o f) (inp, cls (qneg lk)) (pto, opt lower o fP) (StdC * CLC)]) ++
      (if reject fN then [] else [Triplet (pfrom, opt lower o f) (inp, cls lk) (pto, opt lower o fN) (StdC * CLC)]).
  (** the loop 167-238; [lks] is the key set of the port, [todo] what is left of it *)
  Fixpoint drives (pair : Q -> js) (lks todo : list Q) (completed : gset Q) : res js :=
    match todo with
    | [] => Ok []
    | lk :: todo =>
        if decide (lk ∈ completed) then drives pair lks todo completed else
        if decide (qneg lk = lk) then drives pair lks todo completed else
        if decide (qneg lk ∈ lks) then
          rest ← drives pair lks todo ({[lk; qneg lk]} ∪ completed); Ok (pair lk ++ rest)
        else Err AssertionError
    end.
  (** one pass of the loop 256-330 *)
  Definition two_c : C_fld := 1 + 1.
  Definition out_pair (pfrom outp : P) (lower : bool) (o : A) (f lk : Q) (Std StdC BA BAC : C_fld) : js :=
    let fP := qadd f lk in
    let fN := qadd f (qneg lk) in
    let src := (pfrom, opt (negb lower) o f) in
    if lower then
      if decide (qneg lk <> lk) then
        (if reject fP then [] else [MultiplicativeEdge (pfrom, opt lower o fP) (outp, cls lk) (Std * BA) [src]]) ++
        (if reject fN then [] else [MultiplicativeEdge (pfrom, opt lower o fN) (outp, cls (qneg lk)) (Std * BA) [src]])
      else (if reject fP then [] else [MultiplicativeEdge (pfrom, opt lower o fP) (outp, cls lk) (Std * BA / two_c) [src]])
    else
      if decide (qneg lk <> lk) then
        (if reject fP then [] else [MultiplicativeEdge (pfrom, opt lower o fP) (outp, cls (qneg lk)) (StdC * BAC) [src]]) ++
        (if reject fN then [] else [MultiplicativeEdge (pfrom, opt lower o fN) (outp, cls lk) (StdC * BAC) [src]])
      else (if reject fP then [] else [MultiplicativeEdge (pfrom, opt lower o fP) (outp, cls (qneg lk)) (StdC * BAC / two_c) [src]]).
  (** the loop 256-330 *)
  Fixpoint outs (pair : Q -> js) (lks todo : list Q) (completed : gset Q) : res js :=
    match todo with
    | [] => Ok []
    | lk :: todo =>
        if decide (lk ∈ completed) then outs pair lks todo completed else
        if decide (qneg lk ∈ lks) then
          rest ← outs pair lks todo ({[lk; qneg lk]} ∪ completed); Ok (pair lk ++ rest)
        else Err AssertionError
    end.
  (** 147-330; a port that may be None comes with its keys *)
  Definition modulations_fill (pfrom : P) (kfrom : bool * A * Q) (pto : option P) (inp outp : option (P * list Q))
      (Std StdC CL CLC BA BAC : C_fld) (through : bool) : res js :=
    let '(lower, o, f) := kfrom in
    a ← match pto, inp with
        | Some pto, Some (inp, lks) => drives (fun lk => drive_pair pfrom pto inp lower o f lk Std StdC CL CLC) lks lks ∅
        | _, _ => Ok []
        end;
    b ← match pto with
        | Some pto => Ok (if through then [ConstantEdge (pfrom, opt lower o f) (pto, opt lower o f) (if lower then Std else StdC)] else [])
        | None => Ok []
        end;
    c ← match outp with
        | Some (outp, lks) => outs (fun lk => out_pair pfrom outp lower o f lk Std StdC BA BAC) lks lks ∅
        | None => Ok []
        end;
    Ok (a ++ b ++ c).
  (** for kfrom in ...: insert *)
  Fixpoint each {B} (f : B -> res js) (l : list B) : res js :=
    match l with [] => Ok [] | x :: l => a ← f x; b ← each f l; Ok (a ++ b) end.

  (** photodiode.py 80-99; the port BA is an input without a place for light to go to *)
  Definition pd (fr wpd ba : P) (ks : list (bool * A * Q)) (wks baks : list Q) : res js :=
    each (fun k => modulations_fill fr k None (Some (ba, baks)) (Some (wpd, wks)) 1 1 ci (- ci) 1 1 true) ks.
  (** photodiode.py 158-180 *)
  Definition magic_pd (fr_i fr_o bk_i bk_o wpd : P) (frks bkks : list (bool * A * Q)) (wks : list Q) : res js :=
    a ← each (fun k => modulations_fill fr_i k (Some bk_o) None (Some (wpd, wks)) 1 1 0 0 1 1 true) frks;
    Ok (a ++ ((fun '(l, o, f) => ConstantEdge (bk_i, opt l o f) (fr_o, opt l o f) 1) <$> bkks)).
  (** modulators.py 87-117 PM and 125-155 AM, one direction; [c] is c_m_s *)
  Definition pm (fr bk drv ba : P) (ks : list (bool * A * Q)) (dks bks : list Q) (c : C_fld) : res js :=
    each (fun k => modulations_fill fr k (Some bk) (Some (drv, dks)) (Some (ba, bks)) 1 1 (ci / two_c) (- ci / two_c) (1 / c) (1 / c) true) ks.
  Definition am (fr bk drv ba : P) (ks : list (bool * A * Q)) (dks bks : list Q) (c : C_fld) : res js :=
    each (fun k => modulations_fill fr k (Some bk) (Some (drv, dks)) (Some (ba, bks)) 1 1 (1 / two_c) (1 / two_c) (ci / c) (- ci / c) true) ks.
  (** modulators.py 237-282 AMPM, one direction *)
  Definition ampm (fr bk drvA drvP : P) (ks : list (bool * A * Q)) (aks pks : list Q) (c : C_fld) : res js :=
    each (fun k =>
      a ← modulations_fill fr k (Some bk) (Some (drvP, pks)) None 1 1 (ci / two_c) (- ci / two_c) (1 / c) (1 / c) true;
      b ← modulations_fill fr k (Some bk) (Some (drvA, aks)) None 1 1 (1 / two_c) (1 / two_c) (ci / c) (- ci / c) false;
      Ok (a ++ b)) ks.
  (** mirror.py 393-448: one surface of a mirror (the part of one port), with the reflection
      r (its sign included), mod_sign, the phase phase_rad, cos of the angle of incidence, and 1 / wavelength,
      which depends on the optical frequency only *)
  Definition mirror_face (fr to d F : P) (ks : list (bool * A * Q)) (dks Fks : list Q) (r sign phase cosA : R) (iwl : A -> R) (c : R) : res js :=
    each (fun k =>
      let index := (-2 * cosA * PI * 2 * iwl k.1.2)%R in
      let force := (-2 * cosA)%R in
      modulations_fill fr k (Some to) (Some (d, dks)) (Some (F, Fks)) (cre r * cis phase) (cre r * cis (- phase))
        (cre (sign * index) * ci) (- (cre (sign * index) * ci)) (cre (sign * force / c)) (cre (sign * force / c)) true) ks.
End fill.
Arguments key : clear implicits.
