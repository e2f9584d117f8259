(** Model of the key requests of the elements where light meets signals:
    phasor/optics/nonlinear_utilities.py (ports_fill_2optical_2classical 11-145), and the
    system_setup_ports methods of photodiode.py (PD 64-78, MagicPD 134-156) and modulators.py
    (PM and AM 39-63, AMPM 199-233).

    Keys are those of PdModel.v.  Keys at optical ports which are not keys of light, and keys
    at signal ports which are not keys of signals, are skipped.  A port of light has an input
    and an output; pmap is a dictionary, here a function.  The methods return the requests they
    make, in order, or the exception they raise. *)
From stdpp Require Import base tactics list numbers gmap fin_sets.
From Verif Require Import Py PortModel PdModel.

Section fill.
  Context {P A Q : Type} `{Countable P} `{Countable A} `{Countable Q}.
  Context (qadd : Q -> Q -> Q) (qneg : Q -> Q).
  (** system.reject_classical_frequency_order *)
  Context (reject : Q -> bool).
  Notation K := (key A Q).
  Notation reqs := (list (P * K)).
  Implicit Types (u c : P -> gset K).

  (** kfrom.contains(LOWER), kfrom.contains(RAISE) and kfrom[ClassicalFreqKey] *)
  Definition light_of (k : K) : option (bool * A * Q) :=
    match k with (Some (l, o), f) => Some (l, o, f) | (None, _) => None end.
  Definition signal_of (k : K) : option Q :=
    match k with (Some _, _) => None | (None, f) => Some f end.
  Definition qsub (a b : Q) : Q := qadd a (qneg b).

  Fixpoint gather {B} (f : B -> res reqs) (l : list B) : res reqs :=
    match l with [] => Ok [] | x :: l => a ← f x; b ← gather f l; Ok (a ++ b) end.

  (** 22-27 *)
  Definition fill_through u (ptos : list P) (pfrom : P) : reqs :=
    pto ← ptos; k ← elements (u pfrom); [(pto, k)].
  (** 29-43, one pass: the light and the drive.  Line 43 uses the variable of the loop before
      it, which is not bound when the loop was empty (on a second port it would be left
      over from before, as a list, and raise TypeError) *)
  Definition fill_drive (ptos : list P) (pfrom inp : P) (kk : K * K) : res reqs :=
    match light_of kk.1, signal_of kk.2 with
    | Some (l, o, f), Some lk =>
        let f' := if l then qadd f lk else qsub f lk in
        if reject f' then Ok [] else
        match last ptos with
        | None => Err UnboundLocalError
        | Some pl =>
            Ok ([(pfrom, kk.1); (inp, kk.2)] ++ (pto ← ptos; [(pto, opt l o f'); (pto, kk.1)]) ++ [(pl, opt l o f')])
        end
    | _, _ => Ok []
    end.
  (** 45-57, one pass: the conjugate light for a signal that is read *)
  Definition fill_pair (pfrom : P) (kk : K * K) : reqs :=
    match light_of kk.1, signal_of kk.2 with
    | Some (l, o, f), Some lk =>
        let f' := if l then qsub f lk else qadd f lk in
        if reject f' then [] else [(pfrom, opt (negb l) o f')]
    | _, _ => []
    end.
  (** 59-72 and 90-103: the keys of the pool of the same polarization and carrier, with the opposite
      quantum key, or with the same *)
  Definition of_group (l : bool) (o : A) (k : K) : bool :=
    match light_of k with Some (l', o', _) => bool_decide (l' = l /\ o' = o) | None => false end.
  Definition subset_opposite (pool2 : gset K) (k1 : K) : list K :=
    match light_of k1 with Some (l, o, _) => List.filter (of_group (negb l) o) (elements pool2) | None => [] end.
  Definition subset_same (pool2 : gset K) (k1 : K) : list K :=
    match light_of k1 with Some (l, o, _) => List.filter (of_group l o) (elements pool2) | None => [] end.
  (** 73-87, one pass: the beat note *)
  Definition fill_beat (outp : option P) (kk : K * K) : reqs :=
    match light_of kk.1, light_of kk.2 with
    | Some (l, _, f), Some (_, _, f2) =>
        let fd := if l then qsub f f2 else qsub f2 f in
        if reject fd then [] else match outp with Some outp => [(outp, cls fd)] | None => [] end
    | _, _ => []
    end.
  (** 104-123, one pass: the drive that leads from one to the other *)
  Definition fill_change (inp : option P) (kk : K * K) : reqs :=
    match light_of kk.1, light_of kk.2 with
    | Some (l, _, f), Some (l2, _, f2) =>
        if negb (Bool.eqb l l2) then [] else
        let fd := if l then qsub f2 f else qsub f f2 in
        if reject fd then [] else match inp with Some inp => [(inp, cls fd)] | None => [] end
    | _, _ => []
    end.
  (** 22-123, one port.  Line 107 passes a function for subset_second only *)
  Definition fill_in u c (pmap : P -> list P) (inp outp : option P) (pfrom : P) : res reqs :=
    let ptos := pmap pfrom in
    a ← match inp with
        | Some inp =>
            l ← symmetric_update u c (Some (POne pfrom)) (Some (POne inp)) None None;
            gather (fill_drive ptos pfrom inp) l
        | None => Ok []
        end;
    b ← match outp with
        | Some outp =>
            l ← symmetric_update u c (Some (POne pfrom)) (Some (POne outp)) None None;
            Ok (kk ← l; fill_pair pfrom kk)
        | None => Ok []
        end;
    l ← symmetric_update u c (Some (POne pfrom)) (Some (POne pfrom)) (Some subset_opposite) None;
    l' ← symmetric_update u c (Some (POne pfrom)) (Some (PMany ptos)) (Some subset_same) None;
    Ok (fill_through u ptos pfrom ++ a ++ b ++ (kk ← l; fill_beat outp kk) ++ (kk ← l'; fill_change inp kk)).
  (** 125-145, one port *)
  Definition fill_back (pfroms : list P) (kk : K * K) : reqs :=
    match light_of kk.1, signal_of kk.2 with
    | Some (l, o, f), Some lk =>
        let f' := if l then qsub f lk else qadd f lk in
        if reject f' then [] else p ← pfroms; [(p, opt l o f'); (p, opt l o f')]
    | _, _ => []
    end.
  Definition fill_out u c (pmap : P -> list P) (outp : option P) (pto : P) : res reqs :=
    match outp with
    | Some outp =>
        l ← symmetric_update u c (Some (POne pto)) (Some (POne outp)) None None;
        Ok (kk ← l; fill_back (pmap pto) kk)
    | None => Ok []
    end.
  (** 11-145; [ins] are the inputs of ports_in_optical, [outs] the outputs of ports_out_optical *)
  Definition ports_fill u c (ins outs : list P) (pmap : P -> list P) (inp outp : option P) : res reqs :=
    a ← gather (fill_in u c pmap inp outp) ins;
    b ← gather (fill_out u c pmap outp) outs;
    Ok (a ++ b).

  (** photodiode.py 64-78 *)
  Definition pd_ports (fr ba wpd : P) u c : res reqs :=
    ports_fill u c [fr] [] (fun _ => []) (Some ba) (Some wpd).
  (** the dictionary of modulators.py 39-44 and photodiode.py 135-140 *)
  Definition pmap2 (fri fro bki bko : P) (p : P) : list P :=
    if decide (p = fri) then [bko] else if decide (p = bki) then [fro] else
    if decide (p = fro) then [bki] else if decide (p = bko) then [fri] else [].
  (** modulators.py 46-53: the direct couplings *)
  Definition directs u (pmap : P -> list P) (ports : list P) : reqs :=
    p ← ports; k ← elements (u p); pto ← pmap p; [(pto, k)].
  (** photodiode.py 134-156 *)
  Definition magic_pd_ports (fri fro bki bko wpd : P) u c : res reqs :=
    let pmap := pmap2 fri fro bki bko in
    a ← ports_fill u c [fri] [bko] pmap None (Some wpd);
    Ok (a ++ directs u pmap [bki; bko]).
  (** modulators.py 39-63 *)
  Definition mod_ports (fri fro bki bko drv ba : P) u c : res reqs :=
    let pmap := pmap2 fri fro bki bko in
    a ← ports_fill u c [fri; bki] [fro; bko] pmap (Some drv) (Some ba);
    Ok (directs u pmap [fri; fro; bki; bko] ++ a).
  (** modulators.py 199-233 *)
  Definition ampm_ports (fri fro bki bko drvA drvP : P) u c : res reqs :=
    let pmap := pmap2 fri fro bki bko in
    a ← ports_fill u c [fri; bki] [fro; bko] pmap (Some drvA) None;
    b ← ports_fill u c [fri; bki] [fro; bko] pmap (Some drvP) None;
    Ok (directs u pmap [fri; fro; bki; bko] ++ a ++ b).

  (** the method as the port algorithm runs it; an exception ends the setup *)
  Definition as_rule (m : (P -> gset K) -> (P -> gset K) -> res reqs) (t : nat) u c : reqs :=
    match m u c with Ok l => l | Err _ => [] end.
End fill.
