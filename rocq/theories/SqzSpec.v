(** Vocabulary of SqzProps.v. *)
From Coq Require Import Reals.
From stdpp Require Import base tactics list numbers.
From Verif Require Import Py Fld Herm ElecModel OptModel OptSpec SigModel SqzModel.

(** the arguments with only these given *)
Definition given_V (V1 : R) (V2 loss : option R) : ez_args := EzArgs None None None (Some V1) V2 None None loss.

Section sqz.
  Context {B Q C : Type} (csub : C -> C -> C) (ckey2 : C).
  Local Open Scope fld_scope.
  Notation key := (bool * (B * Q * C))%type.
  (** the field in a quadrature of a mode [m], at the angle phi: the lowering field and the raising
      field of the mirrored sideband, added ([s] = 1) or subtracted ([s] = -1) *)
  Definition quadrature (s : C_fld) (phi_deg : R) (field : key -> C_fld) (m : B * Q * C) : C_fld :=
    cis (- (2 * PI * phi_deg / 360)) * field (true, m) + s * (cis (2 * PI * phi_deg / 360) * field (false, (m.1, csub ckey2 m.2))).
  (** mirroring twice gives the sideband back *)
  Definition mirrors : Prop := forall c, csub ckey2 (csub ckey2 c) = c.
  (** the keys [ks] at the nodes contain all that is requested *)
  Definition ez_closed `{EqDecision Q} (okey : Q) (ks : nd sport -> list key) : Prop :=
    forall n k n' k', k ∈ ks n -> (n', k') ∈ ez_request csub okey ckey2 n k -> k' ∈ ks n'.
End sqz.

(** the commutator of two outgoing fields, when the incoming ones [ins] have the canonical ones:
    1 for a lowering field with its conjugate, -1 for a raising one, 0 for others *)
Section commutators.
  Context {P M : Type} `{EqDecision P} `{EqDecision M}.
  Local Open Scope fld_scope.
  Definition canonical (t t' : P * (bool * M)) : C_fld := if decide (t = t') then if t.2.1 then 1 else - (1) else 0.
  Definition commutator (es : list (edge (K := C_fld) (P * (bool * M)))) (ins : list (P * (bool * M))) (t t' : P * (bool * M)) : C_fld :=
    fsum (fun f => canonical f f * (gain es f t * cconj (gain es f t'))) ins.
End commutators.

(** ** witnesses: optical frequencies and the rest are not distinguished, classical frequencies are integers *)
Notation zkey := (bool * (unit * unit * Z))%type.
Definition zm : unit * unit * Z := ((), (), 3%Z).
Definition zk : list zkey := [(true, zm); (false, ((), (), (-3)%Z))].
Definition way_in (n : nd sport) : list zkey := match n with I Fr | O Bk | O LFr | I LBk => zk | _ => [] end.
Definition zins : list (sport * zkey) := p ← [Fr; Bk; LFr; LBk]; (fun k => (p, k)) <$> zk.
