(** What light, signals and their meeting should be. *)
From stdpp Require Import base tactics list numbers gmap.
From Coq Require Import Reals.
From Verif Require Import Fld Py Herm ElecModel InjModel InjSpec OptModel SigModel SigSpec PdModel.
Local Open Scope fld_scope.

(** frequencies add like numbers, and only 0 is its own negative *)
Record frequencies {Q} (qadd : Q -> Q -> Q) (qneg : Q -> Q) (q0 : Q) (Hz : Q -> R) : Prop := {
  fq_comm : forall a b, qadd a b = qadd b a;
  fq_assoc : forall a b c, qadd a (qadd b c) = qadd (qadd a b) c;
  fq_zero : forall a, qadd a q0 = a;
  fq_neg : forall a, qadd a (qneg a) = q0;
  fq_torsion : forall a, qneg a = a -> a = q0;
  fq_Hz : forall a b, Hz (qadd a b) = (Hz a + Hz b)%R;
}.

Section spec.
  Context {P A Q : Type} `{Countable P} `{Countable A} `{Countable Q}.
  Context (Hz : Q -> R).
  Notation mode := (A * Q)%type.

  (** the light of one polarization and optical frequency, relative to its carrier: the
      amplitudes are those of the complex field *)
  Definition light (ms : list mode) (a : mode -> C_fld) (o : A) (t : R) : C_fld :=
    fsum (fun m => if decide (m.1 = o) then a m * cis (2 * PI * Hz m.2 * t) else 0) ms.
  (** light of different polarization or carrier does not interfere *)
  Definition beat (os : list A) (ms : list mode) (a b : mode -> C_fld) (t : R) : C_fld :=
    fsum (fun o => light ms a o t * cconj (light ms b o t)) os.
  Definition intensity (os : list A) (ms : list mode) (a : mode -> C_fld) (t : R) : C_fld := beat os ms a a t.
  (** a signal without the convention of peak amplitudes *)
  Definition plain (ks : list Q) (x : Q -> C_fld) (t : R) : C_fld := fsum (fun k => x k * cis (2 * PI * Hz k * t)) ks.

  (** the lowering and the raising field of a mode at port p *)
  Definition lower_at (x : P * key A Q -> C_fld) (p : P) (m : mode) : C_fld := x (p, opt true m.1 m.2).
  Definition raise_at (x : P * key A Q -> C_fld) (p : P) (m : mode) : C_fld := x (p, opt false m.1 m.2).
  (** light at the modes [ms] of port p, the raising field being the conjugate *)
  Record shines (x : P * key A Q -> C_fld) (p : P) (ms : list mode) : Prop := {
    sh_modes : NoDup ms;
    sh_else : forall m, m ∉ ms -> lower_at x p m = 0;
    sh_conj : forall m, raise_at x p m = cconj (lower_at x p m);
  }.
  (** the keys of the port: both quantum keys of each mode, in any order *)
  Definition both (ms : list mode) (ks : list (bool * A * Q)) : Prop :=
    ks ≡ₚ ((fun m => (true, m.1, m.2)) <$> ms) ++ ((fun m => (false, m.1, m.2)) <$> ms).
  (** the polarizations and carriers of the light *)
  Definition carriers (os : list A) (ms : list mode) : Prop := NoDup os /\ forall m, m ∈ ms -> m.1 ∈ os.

  (** no light in a mode.  Ports have keys for many modes, up to some order, and the light need not
      reach the last ones *)
  Definition dark (x : P * key A Q -> C_fld) (p : P) (m : mode) : Prop := lower_at x p m = 0.
  (** the modes [ms'] of the light that leaves: the modes of the light that enters and their sidebands *)
  Record sidebands (qadd : Q -> Q -> Q) (q0 : Q) (reject : Q -> bool) (none : mode -> Prop) (ms ms' : list mode) (ds : list Q) : Prop := {
    sb_nodup : NoDup ms';
    sb_carrier : forall m, m ∈ ms -> m ∈ ms';
    sb_side : forall m F, m ∈ ms -> F ∈ ds -> F <> q0 -> none m \/ ((m.1, qadd m.2 F) ∈ ms' /\ reject (qadd m.2 F) = false);
  }.
  (** the signal port sees every difference of the frequencies of the light *)
  Definition differences (qadd : Q -> Q -> Q) (qneg : Q -> Q) (none none' : mode -> Prop) (ms : list mode) (ws : list Q) : Prop :=
    forall m m', m ∈ ms -> m' ∈ ms -> m.1 = m'.1 -> none m \/ none' m' \/ qadd m'.2 (qneg m.2) ∈ ws.
  (** the part of the intensity at one frequency *)
  Definition beat_note (qadd : Q -> Q -> Q) (ms : list mode) (a : mode -> C_fld) (F : Q) : C_fld :=
    fsum (fun m => fsum (fun m' => if decide (m' = (m.1, qadd m.2 F)) then cconj (a m) * a m' else 0) ms) ms.
  (** what a drive shifts into one mode *)
  Definition shifted (qadd : Q -> Q -> Q) (qneg : Q -> Q) (q0 : Q) (x : P * key A Q -> C_fld) (fr drv : P) (ds : list Q) (o : A) (f : Q) : C_fld :=
    fsum (fun F => if decide (F = q0) then 0 else x (drv, cls F) * lower_at x fr (o, qadd f (qneg F))) ds.
  (** the key set of a signal port *)
  Definition signal_keys (qneg : Q -> Q) (ws : list Q) : Prop := NoDup ws /\ forall F, F ∈ ws -> qneg F ∈ ws.
  (** a real signal, and one without a constant part *)
  Definition real_signal (qneg : Q -> Q) (x : P * key A Q -> C_fld) (p : P) : Prop := forall F, x (p, cls (qneg F)) = cconj (x (p, cls F)).
  Definition alternating (q0 : Q) (x : P * key A Q -> C_fld) (p : P) : Prop := x (p, cls q0) = 0.

  (** what the coupling matrix at the fields [x] answers at [n] to small fields [d] *)
  Definition response (js : list (inj C_fld P (key A Q))) (x : gmap (P * key A Q) C_fld) (d : P * key A Q -> C_fld) (n : P * key A Q) : C_fld :=
    fsum (fun j => fsum (fun e => if decide (e.1.2 = n) then e.2.1 x * d e.1.1 else 0) (inj_edges 0 j)) js.
  Definition field (x : gmap (P * key A Q) C_fld) (n : P * key A Q) : C_fld := sget x n 0.
End spec.
