(** Model of the sources of light and signals: phasor/optics/laser.py, phasor/optics/vacuum.py and
    phasor/signals/signal_generator.py.
    The key sets of the ports and the couplings between them are those of PdModel and NoiModel.
    Numbers are exact; values are at one point of a sweep. *)
From Coq Require Import Reals String.
From stdpp Require Import base tactics numbers gmap list.
From Verif Require Import Fld Py Herm OptModel SigModel PdModel NoiModel.
Local Open Scope fld_scope.

(** ** signal_generator.py *)
(** the ports: ps_Out and OutH{n}, 61-71 *)
Inductive gport := PsOut | OutH (n : Z).
#[global] Instance gport_eq_dec : EqDecision gport. Proof. solve_decision. Defined.
(** phase_rad.val; None: the literal 0 of the default *)
Record generator (Q : Type) := Gen {
  g_key : Q; g_phase : option R; g_amplitude : C_fld; g_amplitudeC : option C_fld;
  g_harmonics : list (Z * C_fld);
}.
Arguments Gen {Q} _ _ _ _ _. Arguments g_key {Q} _. Arguments g_phase {Q} _. Arguments g_amplitude {Q} _.
Arguments g_amplitudeC {Q} _. Arguments g_harmonics {Q} _.
Section generator.
  Context {Q : Type} `{EqDecision Q}.
  (** FrequencyKey: -k and n * k *)
  Context (qneg : Q -> Q) (qmul : Z -> Q -> Q).
  (** 49-54; a conjugate that is given is kept *)
  Definition amplitudeC (g : generator Q) : C_fld := default (cconj (g_amplitude g)) (g_amplitudeC g).
  (** 73-92 coherent_sources_needed *)
  Definition gen_needed (g : generator Q) : list (gport * Q) :=
    [(PsOut, g_key g); (PsOut, qneg (g_key g))] ++
    (h ← g_harmonics g; [(OutH h.1, qmul h.1 (g_key g)); (OutH h.1, qmul (- h.1) (g_key g))]).
  (** 97-103, 116-121: cplg and cplgC of the harmonic n, 1 for ps_Out *)
  Definition gen_cplg (g : generator Q) (n : Z) : C_fld := match g_phase g with Some p => cis (IZR n * p) | None => 1 end.
  Definition gen_cplgC (g : generator Q) (n : Z) : C_fld := match g_phase g with Some p => cis (- (IZR n * p)) | None => 1 end.
  (** 97-132 coherent_sources_insert *)
  Definition gen_sources (g : generator Q) : list (gport * Q * C_fld) :=
    [(PsOut, g_key g, gen_cplg g 1 * g_amplitude g); (PsOut, qneg (g_key g), gen_cplgC g 1 * amplitudeC g)] ++
    (h ← g_harmonics g;
      [(OutH h.1, qmul h.1 (g_key g), gen_cplg g h.1 * h.2); (OutH h.1, qmul (- h.1) (g_key g), gen_cplgC g h.1 * cconj h.2)]).
End generator.
(** system/solver_algorithm.py 173-190: the source at a node is the sum of what is inserted there *)
Definition source_at {N : Type} `{EqDecision N} (l : list (N * C_fld)) (n : N) : C_fld :=
  fsum (fun x => if decide (x.1 = n) then x.2 else 0) l.

(** ** laser.py *)
(** 37-43 polk; another polarization leaves ret without a value *)
Definition polk (polarization : string) : res bool :=
  if String.eqb polarization "S" then Ok true else if String.eqb polarization "P" then Ok false else Err UnboundLocalError.
(** 85-97: the sources at po_Fr.o; the quantum key is true for LOWER *)
Definition laser_sources (power_W : R) (phase : option R) : list (bool * C_fld) :=
  let field_rtW := cre (R_sqrt.sqrt power_W) in
  match phase with
  | Some p => [(true, field_rtW * cis p); (false, field_rtW * cis (- p))]
  | None => [(true, field_rtW); (false, field_rtW)]
  end.
(** 68-71 *)
Definition laser_needed : list bool := [true; false].

(** ** vacuum.py *)
(** 43-46: the key with the other quantum key; keys of signals are not at optical ports *)
Definition quantum_swap {A Q} (k : key A Q) : key A Q :=
  match k.1 with Some (lower, o) => opt (negb lower) o k.2 | None => k end.
Section vacuum.
  Context {P A Q Obj : Type} `{Countable P} `{Countable A} `{Countable Q}.
  (** 40-52 system_setup_noise *)
  Definition vacuum_pairs (nobj : Obj) (port : P) (keys : list (key A Q)) : list (P * key A Q * (P * key A Q) * Obj) :=
    pairs_single quantum_swap nobj port keys.
  (** 54-58; system/system.py 214-221: the inverse wavelength depends on the optical frequency *)
  Definition vacuum_expect (h_Js c_m_s : R) (iwavelen : A -> R) (pk1 pk2 : P * key A Q) : C_fld :=
    match pk1.2.1 with Some (_, o) => cre (h_Js * c_m_s * iwavelen o / 2) | None => 0 end.
End vacuum.
(** system/system.py 112-119 adjust_PSD *)
Definition adjust_PSD (sided_spectra : nat) : res R :=
  match sided_spectra with 1%nat => Ok 2%R | 2%nat => Ok 1%R | _ => Err UnboundLocalError end.
