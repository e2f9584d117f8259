(** What the passive optical elements should do. *)
From stdpp Require Import base tactics list numbers.
From Coq Require Import QArith Qreals Reals.
From Verif Require Import Fld Herm ElecModel ElecSpec OptModel.

Section spec.
  Context {K : fld} (h : herm K).
  Local Open Scope fld_scope.
  (** power going in and out of the ports of a list *)
  Definition p_in {P} (ports : list P) (w : nd P -> K) : K := fsum (fun p => power h (w (I p))) ports.
  Definition p_out {P} (ports : list P) (w : nd P -> K) : K := fsum (fun p => power h (w (O p))) ports.
  (** the coupling from the input f to the output t *)
  Definition gain {P} `{EqDecision P} (es : list (edge P)) (f t : P) : K :=
    fsum (fun e => if decide (e.1 = (I f, O t)) then e.2 else 0) es.
  (** sensible parameters: all powers non-negative *)
  Definition mirror_ok (m : mirror_args) : Prop :=
    h_nn h (m_T m) /\ h_nn h (m_R m) /\ h_nn h (R_backscatter m) /\ h_nn h (L_hr m) /\ h_nn h (L_t m).
  (** a unit-modulus phase, if any *)
  Definition phase_ok (m : mirror_args) : Prop := match phase m with Some e => power h e = 1 | None => True end.
  (** w is the conjugate of w' *)
  Definition conj_of {P} (w w' : nd P -> K) : Prop := forall n, w n = h_conj h (w' n).
End spec.

(** a polarisation vector (S, P) and its rotation by an angle *)
Definition rot (a : R) (v : C_fld * C_fld) : C_fld * C_fld :=
  let c : C_fld := C_of (cos a) in let s : C_fld := C_of (sin a) in (c * v.1 - s * v.2, s * v.1 + c * v.2)%F.
(** the light arriving at, and leaving, a port *)
Definition vin (w : nd (p2 * pol) -> C_fld) (p : p2) : C_fld * C_fld := (w (I (p, PolS)), w (I (p, PolP))).
Definition vout (w : nd (p2 * pol) -> C_fld) (p : p2) : C_fld * C_fld := (w (O (p, PolS)), w (O (p, PolP))).
Definition all_ports : list (p2 * pol) := [(Fr, PolS); (Fr, PolP); (Bk, PolS); (Bk, PolP)].
Definition radians (deg : Q) : R := (PI * Q2R deg / 180)%R.

(** the single space as long as all of a list *)
Definition total_args (sps : list space_args) : space_args :=
  SpaceArgs (foldr Rplus 0%R (L_m <$> sps)) (foldr Rplus 0%R (L_detune_m <$> sps)).
(** spaces bonded one after the other, each with its waves *)
Fixpoint chained (l : list (space_args * (nd p2 -> C_fld))) : Prop :=
  match l with
  | (_, w) :: (((_, w') :: _) as l') => w (O Bk) = w' (I Fr) /\ w' (O Fr) = w (I Bk) /\ chained l'
  | _ => True
  end.
(** the waves at the ends of a chain from w to w' *)
Definition ends (w w' : nd p2 -> C_fld) (n : nd p2) : C_fld :=
  match n with I Fr | O Fr => w n | _ => w' n end.
(** two polarisation elements bonded Bk to Fr *)
Definition bonded (w w' : nd (p2 * pol) -> C_fld) : Prop := vout w Bk = vin w' Fr /\ vout w' Fr = vin w Bk.
(** linear polarisation at an angle *)
Definition linear (a : R) (x : C_fld) : C_fld * C_fld := let c : C_fld := C_of (cos a) in let s : C_fld := C_of (sin a) in (c * x, s * x)%F.
Definition vpower (v : C_fld * C_fld) : C_fld := (power C_herm v.1 + power C_herm v.2)%F.

(** mirrors for examples: a phase; backscatter *)
Local Open Scope fld_scope.
Definition c3_5 : C_fld := C_of (3 / 5). Definition c4_5 : C_fld := C_of (4 / 5).
Definition m_phase : mirror_args (K := C_fld) := MirrorArgs (c3_5 * c3_5) 0 0 0 false (Some C_i) false false.
Definition m_back : mirror_args (K := C_fld) := MirrorArgs 0 0 0 (c3_5 * c3_5) false None false false.
(** a wave plate in a mount turned by an angle: rotator, plate, counter-rotator *)
Definition mounted (plate : list (edge (K := C_fld) (p2 * pol))) (deg : Q) (w1 w2 w3 : nd (p2 * pol) -> C_fld) : Prop :=
  obeys all_ports (rotator deg false) [] w1 /\ obeys all_ports plate [] w2 /\ obeys all_ports (rotator (- deg) false) [] w3 /\
  bonded w1 w2 /\ bonded w2 w3.
