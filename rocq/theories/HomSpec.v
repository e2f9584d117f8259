(** Vocabulary of HomProps.v. *)
From Coq Require Import Reals.
From stdpp Require Import base tactics numbers gmap list.
From Verif Require Import Fld Py Herm InjModel InjSpec OptModel SigModel SigSpec PdModel PdSpec NoiModel NoiSpec SrcModel SrcSpec HomModel.
Local Open Scope fld_scope.

Section spec.
  Context {P A Q : Type} `{Countable P} `{Countable A} `{Countable Q}.
  Context (Hz : Q -> R).
  Notation mode := (A * Q)%type.
  Notation node := (P * key A Q)%type.
  (** what arrives at a node at the solution [x]; [big] is the norm of a node without a value *)
  Definition reads (big : C_fld) (r : list (inj C_fld P (key A Q))) (x : gmap node C_fld) (n : node) : C_fld := total big r ∅ [] (field x) x n.
  (** the product of the light with amplitudes [a] and the conjugate of the local oscillator [b] *)
  Definition product (os : list A) (msb msa : list mode) (b a : mode -> C_fld) (t : R) : C_fld :=
    fsum (fun o => light Hz msa a o t * cconj (light Hz msb b o t)) os.
  (** the output has keys for all their differences *)
  Definition covers (qadd : Q -> Q -> Q) (qneg : Q -> Q) (msb msa : list mode) (b a : mode -> C_fld) (lks : list Q) : Prop :=
    forall m m', m ∈ msb -> m' ∈ msa -> m.1 = m'.1 -> b m = 0 \/ a m' = 0 \/ qadd m'.2 (qneg m.2) ∈ lks.
  (** the light scaled with a factor of its optical frequency *)
  Definition scaled (s : A -> C_fld) (b : mode -> C_fld) (m : mode) : C_fld := s m.1 * b m.
  (** the power *)
  Definition power (ms : list mode) (b : mode -> C_fld) : C_fld := fsum (fun m => b m * cconj (b m)) ms.
  (** the value of the norm of an output *)
  Definition norm_of (h : hout P A Q) (x : gmap node C_fld) (z : C_fld) : Prop :=
    exists vs, Forall2 (fun n v => x !! n = Some v) (h_norms h) vs /\ h_func h vs = z.
  (** the modes at [ms] hold the sidebands of the local oscillator *)
  Definition sidebands_in (qadd : Q -> Q -> Q) (msb ms : list mode) (b : mode -> C_fld) (F : Q) : Prop :=
    forall m, m ∈ msb -> b m = 0 \/ (m.1, qadd m.2 F) ∈ ms.
  (** the outputs have ports of their own, with keys of signals *)
  Record wired (qneg : Q -> Q) (outputs : list (hout P A Q)) (cmn : P * list Q) : Prop := {
    wi_ports : NoDup (h_port <$> outputs);
    wi_keys : forall h, h ∈ outputs -> signal_keys qneg (h_keys h);
    wi_common : cmn.1 ∉ h_port <$> outputs;
    wi_ckeys : signal_keys qneg cmn.2;
  }.
  (** the two couplings of an output are conjugate and its factors are real *)
  Definition hermitian (h : hout P A Q) : Prop := h_StdC h = cconj (h_Std h) /\ forall o, cconj (h_adjust h o) = h_adjust h o.
End spec.
