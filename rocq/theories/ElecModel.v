(** Model of the electrical elements in /repo/phasor/electronics (and their mechanical twins
    in /repo/phasor/mechanical): the couplings each system_setup_coupling inserts.
    Every loop "for kfrom in port_set_get(...)" couples a key to itself, so one key is
    modelled at a time; frequencies enter only through the value s = i2pi * F.  An edge is
    one port_coupling_insert(pfrom, k, pto, k, gain), a source one coherent_sources_insert.
    Python's division by zero is not modelled: theorems assume non-zero denominators. *)
From stdpp Require Import base tactics list numbers.
From Verif Require Import Fld.

(** the nodes of an element: a port's .i and .o, or a signal *)
Inductive nd (P : Type) := I (p : P) | O (p : P) | Sg (n : nat).
Arguments I {_} _. Arguments O {_} _. Arguments Sg {_} _.
#[global] Instance nd_eq_dec {P} `{EqDecision P} : EqDecision (nd P).
Proof. solve_decision. Defined.
Inductive pA := A1. Inductive pAB := AA | BB. Inductive pABCD := PA | PB | PC | PD. Inductive pAmp := InP | InN | Out.
#[global] Instance pA_eq_dec : EqDecision pA. Proof. solve_decision. Defined.
#[global] Instance pAB_eq_dec : EqDecision pAB. Proof. solve_decision. Defined.
#[global] Instance pABCD_eq_dec : EqDecision pABCD. Proof. solve_decision. Defined.
#[global] Instance pAmp_eq_dec : EqDecision pAmp. Proof. solve_decision. Defined.

Section elements.
  Context {K : fld}.
  Local Open Scope fld_scope.
  Definition edge (P : Type) : Type := nd P * nd P * K.
  Definition source (P : Type) : Type := nd P * K.
  Notation two := (1 + 1 : K).
  (** Ze_termination (Zm_termination) and symbols.i2pi * F *)
  Context (Z0 s : K).

  (** electronics/smatrix.py 17-29, mechanical/smatrix.py *)
  Definition smatrix1 (S11 : K) : list (edge pA) := [(I A1, O A1, S11)].
  (** electronics/smatrix.py 63-81 *)
  Definition smatrix2 (S11 S12 S21 S22 : K) : list (edge pAB) :=
    [(I AA, O AA, S11); (I AA, O BB, S12); (I BB, O AA, S21); (I BB, O BB, S22)].
  (** smatrix.py 84-107 *)
  Definition t_matched := smatrix1 0.
  Definition t_open := smatrix1 1.
  Definition t_shorted := smatrix1 (- (1)).
  (** passive.py 66-81; mechanical/passive.py 84-90 is t_admittance with the mobility *)
  Definition t_impedance (Z : K) := smatrix1 ((Z - Z0) / (Z + Z0)).
  Definition t_admittance (Y : K) := smatrix1 ((1 - Y * Z0) / (1 + Y * Z0)).
  (** passive.py 96-135; mechanical/passive.py 105-123 is s_admittance *)
  Definition s_impedance (Z : K) :=
    smatrix2 (Z / (Z + Z0 * two)) ((two * Z0) / (Z + Z0 * two)) ((two * Z0) / (Z + Z0 * two)) (Z / (Z + Z0 * two)).
  Definition s_admittance (Y : K) :=
    smatrix2 (1 / (1 + Y * Z0 * two)) ((two * Y * Z0) / (1 + Y * Z0 * two))
             ((two * Y * Z0) / (1 + Y * Z0 * two)) (1 / (1 + Y * Z0 * two)).
  (** passive.py 21-22, 41-42, 54-55; mechanical/passive.py 22-23, 62-67, 75-76 *)
  Definition resistor (R : K) := R.
  Definition capacitor (C : K) := s * C.
  Definition inductor (R L : K) := R + s * L.
  Definition damper (R : K) := s * R.
  Definition spring (i k : K) (loss : option K) := match loss with Some l => k * (1 + i * l) | None => k end.
  Definition mass (m : K) := s * s * m.

  (** elements.py 139-157: N ports; [n] is the number of ports as a scalar *)
  Fixpoint ofnat (n : nat) : K := match n with 0%nat => 0 | S n => 1 + ofnat n end.
  Definition connection (N : nat) : list (edge nat) :=
    p1 ← seq 0 N; p2 ← seq 0 N;
    [(I p1, O p2, if decide (p1 = p2) then (two - ofnat N) / ofnat N else two / ofnat N)].
  (** elements.py 160-196 and mechanical/elements.py 160-: [ph] is the phase (times loss) *)
  Definition cable (ph : K) : list (edge pAB) := [(I AA, O BB, ph); (I BB, O AA, ph)].

  (** sources.py 12-64: signal 0 is V; [dc] is V_DC at the key of frequency 0 *)
  Definition voltage_source : list (edge pA) := smatrix1 (- (1)) ++ [(Sg 0, O A1, 1)].
  Definition voltage_source_dc (V_DC : K) : list (source pA) := if decide (V_DC = 0) then [] else [(O A1, V_DC)].
  (** 66-118 *)
  Definition current_source : list (edge pA) := smatrix1 1 ++ [(Sg 0, O A1, Z0)].
  Definition current_source_dc (I_DC : K) : list (source pA) := if decide (I_DC = 0) then [] else [(O A1, I_DC * Z0)].
  (** 121-239: signal 0 is V, signal 1 is ps_In *)
  Definition voltage_source_balanced : list (edge pAB) :=
    smatrix2 0 1 1 0 ++ [(Sg 0, O AA, 1 / two); (Sg 0, O BB, - (1) / two); (Sg 1, O AA, Z0 / two); (Sg 1, O BB, Z0 / two)].
  Definition voltage_source_balanced_dc (V_DC I_DC : K) : list (source pAB) :=
    (if decide (V_DC = 0) then [] else [(O AA, V_DC / two); (O BB, - V_DC / two)]) ++
    (if decide (I_DC = 0) then [] else [(O AA, Z0 * I_DC / two); (O BB, Z0 * I_DC / two)]).
  (** 242-313 *)
  Definition current_source_balanced : list (edge pAB) := smatrix2 1 0 0 1 ++ [(Sg 0, O AA, Z0); (Sg 0, O BB, Z0)].
  Definition current_source_balanced_dc (I_DC : K) : list (source pAB) := [(O AA, Z0 * I_DC); (O BB, Z0 * I_DC)].

  (** passive.py 174-232 *)
  Definition z2x2 (Z11 Z12 Z21 Z22 : K) : list (edge pABCD) :=
    let Y := 1 / Z0 in
    let det := Z11 * Z22 - Z12 * Z12 in
    let tr := Z11 + Z22 in
    let four := two * two in
    let N11 := Y * Z11 * Z12 * Z21 * (Y * Z22 + two) in
    let N12 := two * Y * Z12 * Z21 * Z22 - four * det in
    let N33 := Y * Z22 * Z12 * Z21 * (Y * Z11 + two) in
    let N34 := two * Y * Z12 * Z21 * Z11 - four * det in
    let N13 := - two * Y * Z11 * Z22 * Z21 in
    let N31 := - two * Y * Z11 * Z22 * Z12 in
    let D := Y * Y * (Z11 * Z22 * Z12 * Z21) + two * Y * (Z12 * Z21) * tr - four * det in
    let ddiv num := if decide (num = 0) then 0 else num / D in
    (fun e : nd pABCD * nd pABCD * K => (e.1, ddiv e.2)) <$>
    [ (I PA, O PA, N11); (I PA, O PB, N12); (I PB, O PA, N12); (I PB, O PB, N11);
      (I PC, O PC, N33); (I PC, O PD, N34); (I PD, O PC, N34); (I PD, O PD, N33);
      (I PA, O PC, N13); (I PA, O PD, - N13); (I PB, O PC, - N13); (I PB, O PD, N13);
      (I PC, O PA, N31); (I PC, O PB, - N31); (I PD, O PA, - N31); (I PD, O PB, N31) ].

  (** opamps.py 46-95 *)
  Definition opamp (g : K) : list (edge pAmp) :=
    [ (I InP, O Out, g * (1 + 1)); (I InN, O Out, - g * (1 + 1));
      (I InP, O InP, 1); (I InN, O InN, 1); (I Out, O Out, - (1)) ].
  (** opamps.py 129-179 (its system_setup_ports raises AttributeError: ports have no .i.i) *)
  Definition vamp (g Y_input Z_output : K) : list (edge pAmp) :=
    [ (I InN, O Out, - g); (O InN, O Out, - g);
      (I InN, O InN, (1 - Y_input * Z0) / (1 + Y_input * Z0));
      (I Out, O Out, (Z_output - Z0) / (Z_output + Z0)) ].

  (** multimeter.py 46-63: the signal V (5); terminals p and optionally q *)
  Definition voltage_readout {P} (p : P) (q : option P) : list (edge P) :=
    [(I p, Sg 5, 1); (O p, Sg 5, 1)] ++ match q with Some q => [(I q, Sg 5, - (1)); (O q, Sg 5, - (1))] | None => [] end.
  (** multimeter.py 102-117 *)
  Definition current_readout {P} (p : P) (into : bool) : list (edge P) :=
    let d := if into then 1 else - (1) in
    [(I p, Sg 5, d * (1 / Z0)); (O p, Sg 5, d * (- (1) / Z0))].
  (** noise.py 60-78, 140-: the fluctuation's virtual port is signal 7 *)
  Definition voltage_fluctuation {P} (p : P) : list (edge P) := [(Sg 7, I p, 1 / two); (Sg 7, O p, - (1) / two)].
  Definition current_fluctuation {P} (p : P) : list (edge P) := [(Sg 7, I p, 1 / two); (Sg 7, O p, 1 / two)].
End elements.
