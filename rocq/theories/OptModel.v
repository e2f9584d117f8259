(** Model of the passive optical elements in /repo/phasor/optics: the couplings their
    system_setup_coupling inserts, one key (one field) at a time.  Nodes, edges and the
    summing of repeated insertions are those of the electrical elements (ElecModel.v).
    The raising (lowering) fields of one key differ in the sign of phases, so elements take
    a flag [lower].  Drives (mirror motion and force) are not modelled here. *)
From stdpp Require Import base tactics list numbers.
From Coq Require Import QArith Qreals Reals.
From Verif Require Import Fld Herm ElecModel.

(** *** mirror.py *)
Inductive p4 := FrA | BkA | FrB | BkB.
#[global] Instance p4_eq_dec : EqDecision p4. Proof. solve_decision. Defined.
(** optical ports and loss ports *)
Inductive mport := Pt (p : p4) | Ls (p : p4).
#[global] Instance mport_eq_dec : EqDecision mport. Proof. solve_decision. Defined.

Section mirror.
  Context {K : fld} (h : herm K).
  Local Open Scope fld_scope.
  Record mirror_args := MirrorArgs {
    T_hr : K; L_hr : K; L_t : K; R_backscatter : K;
    flip_sign : bool;
    (** exp(i phase_rad), None when phase_rad is 0 (443-445) *)
    phase : option K;
    (** backscatter_phase_rad is not 0 (466) *)
    backscatter_phase : bool;
    (** is_4_port: AOI_deg is not 0 *)
    four : bool }.
  Context (m : mirror_args).
  (** 85-197: at normal incidence po_FrA and po_FrB are the one port po_Fr, and so on *)
  Definition al (p : p4) : p4 := if four m then p else match p with FrA | FrB => FrA | BkA | BkB => BkA end.
  (** a dict literal: the last entry of a key counts *)
  Definition dlit {V} (d : list (p4 * V)) (p : p4) : option V :=
    snd <$> last (filter (fun kv => al kv.1 = p) d).
  (** 318-339 *)
  Definition m_T : K := T_hr m - L_t m.
  Definition m_L : K := L_hr m + L_t m.
  Definition m_R : K := 1 - T_hr m - L_hr m - R_backscatter m.
  Definition m_t : K := h_sqrt h m_T.
  Definition m_l : K := h_sqrt h m_L.
  Definition m_r : K := if flip_sign m then - h_sqrt h m_R else h_sqrt h m_R.
  Definition m_b : K := if flip_sign m then - h_sqrt h (R_backscatter m) else h_sqrt h (R_backscatter m).
  (** 221-223 *)
  Definition m_has_loss : bool := negb (bool_decide (L_hr m = 0)) || negb (bool_decide (L_t m = 0)).
  (** 348-371 *)
  Definition m_tmap := dlit [(FrA, (BkA, m_t)); (BkA, (FrA, m_t)); (FrB, (BkB, m_t)); (BkB, (FrB, m_t))].
  Definition m_rmap := dlit [(FrA, (FrB, m_r)); (BkA, (BkB, - m_r)); (FrB, (FrA, m_r)); (BkB, (BkA, - m_r))].
  Definition m_bmap := dlit [(FrA, (FrA, m_b)); (FrB, (FrB, - m_b)); (BkA, (BkA, - m_b)); (BkB, (BkB, m_b))].
  Definition m_ports : list p4 := remove_dups (al <$> [FrA; BkA; FrB; BkB]).
  (** 443-445, 466-468: exp(+-i phase_rad); the second test is on the other phase *)
  Definition m_ph (lower : bool) : K :=
    match phase m with Some e => if lower then e else h_conj h e | None => 1 end.
  Definition m_phb (lower : bool) : K := if backscatter_phase m then m_ph lower else 1.
  Definition m_edge (mp : p4 -> option (p4 * K)) (g : K) (p : p4) : list (edge (K := K) mport) :=
    match mp p with Some (q, c) => [(I (Pt p), O (Pt (al q)), c * g)] | None => [] end.
  (** 406-489 without the motion of the mirror; unitary_loss is off, so lmap (372-377)
      couples only from the loss ports *)
  Definition mirror (lower : bool) : list (edge (K := K) mport) :=
    (p ← m_ports;
      (if decide (m_T = 0) then [] else m_edge m_tmap 1 p) ++
      (if decide (m_R = 0) then [] else m_edge m_rmap (m_ph lower) p) ++
      (if decide (R_backscatter m = 0) then [] else m_edge m_bmap (m_phb lower) p)) ++
    (if m_has_loss then p ← m_ports; [(I (Ls p), O (Pt p), m_l)] else []).
End mirror.

(** *** phases: exp(i x) *)
Definition cis (x : R) : C_fld := (cos x, sin x).

(** *** space.py 31-70; the ports po_Fr and po_Bk *)
Inductive p2 := Fr | Bk.
#[global] Instance p2_eq_dec : EqDecision p2. Proof. solve_decision. Defined.
Record space_args := SpaceArgs { L_m : R; L_detune_m : R }.
Section space.
  Context (c_m_s : R) (sp : space_args).
  Definition phase_arg (iwavelen_m F : R) : R := (2 * PI * (F * L_m sp / c_m_s + L_detune_m sp * iwavelen_m))%R.
  Definition phase_lower (iwavelen_m F : R) : C_fld := cis (- phase_arg iwavelen_m F).
  Definition phase_raise (iwavelen_m F : R) : C_fld := cis (phase_arg iwavelen_m F).
  Definition space (lower : bool) (iwavelen_m F : R) : list (edge (K := C_fld) p2) :=
    let cplg := if lower then phase_lower iwavelen_m F else phase_raise iwavelen_m F in
    [(I Fr, O Bk, cplg); (I Bk, O Fr, cplg)].
End space.

(** *** circulator.py 46-53 *)
Definition circulator {K : fld} (N : nat) : list (edge (K := K) nat) :=
  (fun idx => (I idx, O ((idx + 1) mod N)%nat, 1%F)) <$> seq 0 N.

(** *** polarization.py: the key is a port with a polarisation *)
Inductive pol := PolS | PolP.
#[global] Instance pol_eq_dec : EqDecision pol. Proof. solve_decision. Defined.
Definition opmap (p : p2) : p2 := match p with Fr => Bk | Bk => Fr end.
Definition opol (l : pol) : pol := match l with PolS => PolP | PolP => PolS end.
Section rotator.
  (** rotate_deg, a number of degrees *)
  Context (deg : Q).
  Definition deg_in (l : list Z) : bool := existsb (fun z => Qeq_bool deg (inject_Z z)) l.
  Definition rot_arg : R := (Q2R deg / 180 * PI)%R.
  (** couplings of port p, polarisation l, given the cosine and the sine (signed by port) *)
  Definition rot_same (c : R) : list (edge (K := C_fld) (p2 * pol)) :=
    p ← [Fr; Bk]; l ← [PolS; PolP]; [(I (p, l), O (opmap p, l), C_of c)].
  Definition rot_cross (s : p2 -> R) : list (edge (K := C_fld) (p2 * pol)) :=
    p ← [Fr; Bk]; l ← [PolS; PolP];
    [(I (p, l), O (opmap p, opol l), match l with PolS => C_of (s p) | PolP => C_of (- s p) end)].
  (** 71-146 BaseRotator, 149-225 PolarizationRotator: the sign depends on the port;
      228-295 FaradayRotator: it does not *)
  Definition rotator (faraday : bool) : list (edge (K := C_fld) (p2 * pol)) :=
    let sgn (s : R) (p : p2) := if faraday then s else match p with Fr => s | Bk => (- s)%R end in
    if deg_in [0; 180; -180]%Z then rot_same (if deg_in [0%Z] then 1 else -1)%R
    else if deg_in [90; -90; 270; -270]%Z then rot_cross (sgn (if deg_in [90; -270]%Z then 1 else -1)%R)
    else rot_same (cos rot_arg) ++ rot_cross (sgn (sin rot_arg)).
End rotator.
(** 298-382 WavePlate, 385-402: the plates; the raising field gets the conjugates *)
Definition wave_plate (cplgS cplgP : C_fld) (lower : bool) : list (edge (K := C_fld) (p2 * pol)) :=
  p ← [Fr; Bk]; l ← [PolS; PolP];
  let c := match l with PolS => cplgS | PolP => cplgP end in
  [(I (p, l), O (opmap p, l), if lower then c else C_conj c)].
Definition quarter_wave_plate := wave_plate 1%F C_i.
Definition half_wave_plate := wave_plate 1%F (- (1))%F.
