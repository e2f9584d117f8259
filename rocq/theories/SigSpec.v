(** What the signal elements should do. *)
From stdpp Require Import base tactics list numbers gmap.
From Coq Require Import Reals.
From Verif Require Import Fld Py Herm ElecModel ElecSpec InjModel InjSpec OptModel SigModel.
Local Open Scope fld_scope.

(** all zeros and poles of a filter: the complex ones with their conjugates *)
Definition all_zeros (z : zpk) : list C_fld := zeros_r z ++ zeros_c z ++ (cconj <$> zeros_c z).
Definition all_poles (z : zpk) : list C_fld := poles_r z ++ poles_c z ++ (cconj <$> poles_c z).
Definition roots_ok (z : zpk) : Prop := (0 : C_fld) ∉ all_zeros z /\ (0 : C_fld) ∉ all_poles z.
(** i f is no pole (zero) *)
Definition no_pole (z : zpk) (f : C_fld) : Prop := ci * f ∉ all_poles z.
Definition no_zero (z : zpk) (f : C_fld) : Prop := ci * f ∉ all_zeros z.
(** the roots of two filters together, and the same roots in another order *)
Definition zpk_app (a b : zpk) : zpk :=
  Zpk (zeros_r a ++ zeros_r b) (zeros_c a ++ zeros_c b) (poles_r a ++ poles_r b) (poles_c a ++ poles_c b).
Definition zpk_perm (a b : zpk) : Prop :=
  zeros_r a ≡ₚ zeros_r b /\ zeros_c a ≡ₚ zeros_c b /\ poles_r a ≡ₚ poles_r b /\ poles_c a ≡ₚ poles_c b.
(** a number whose conjugate is itself *)
Definition real_number (x : C_fld) : Prop := cconj x = x.
Definition in_band (a : siso) (center : R) : Prop :=
  (F_cutoff_low a <= Rabs center)%R /\ (forall c, F_cutoff a = Some c -> Rabs center <= c)%R /\ (no_DC a = true -> center <> 0%R).

(** the equations of a linear element at its nodes *)
Definition holds {K : fld} {P} `{EqDecision P} (ns : list (nd P)) (es : list (edge (K := K) P)) (w : nd P -> K) : Prop :=
  forall t, t ∈ ns -> w t = emits es [] w t.
(** row r of a matrix of n columns applied to a vector *)
Definition row {K : fld} (M : nat -> nat -> K) (n : nat) (x : nat -> K) (r : nat) : K :=
  fsum (fun c => M r c * x c) (seq 0 n).
(** the nodes that a state space element drives *)
Definition ss_nodes (Ns No : nat) : list (nd nat) := (Sg <$> seq 0 Ns) ++ (O <$> seq 0 No).

(** the signal of amplitudes x at the keys ks: peak amplitudes, DC as it is *)
Definition wave {Q} `{EqDecision Q} (q0 : Q) (Hz : Q -> R) (ks : list Q) (x : Q -> C_fld) (t : R) : C_fld :=
  fsum (fun k => (if decide (k = q0) then 1 else 1 / (1 + 1)) * x k * cis (2 * PI * Hz k * t)) ks.
(** what arrives at a port from the injections of an element *)
Definition arrives {P Q} `{Countable P} `{Countable Q} (js : list (inj C_fld P Q)) (x : P * Q -> C_fld) (n : P * Q) : C_fld :=
  total 0 js ∅ [] x ∅ n.
(** s = i 2 pi f *)
Definition laplace (f : R) : C_fld := ci * cre (2 * PI) * cre f.
