(** Vocabulary of NoiProps.v. *)
From Coq Require Import Reals.
From stdpp Require Import base tactics numbers gmap list.
From Verif Require Import Fld Py Herm SigModel NoiModel.

Section spec.
  Context {Port Key Obj Name : Type}.
  Context `{Countable Port, Countable Key, Countable Obj, Countable Name}.
  Notation pk := (Port * Key)%type.
  (** the coupling from one node to another; nothing listed is 0 *)
  Definition gain (coupling : list ((pk * pk) * C_fld)) (from to_ : pk) : C_fld :=
    fsum (fun x => if decide (x.1 = (from, to_)) then x.2 else 0%F) coupling.
  (** the cross density of the readouts [a] and [b] due to the pairs [l] *)
  Definition density (adjust : R) (expect : Obj -> pk -> pk -> C_fld) (coupling : list ((pk * pk) * C_fld))
      (l : list (pk * pk * Obj)) (a b : pk) : C_fld :=
    fsum (fun x => let '(p1, p2, o) := x in (cre adjust * expect o p1 p2 * gain coupling p1 a * gain coupling p2 b)%F) l.
  (** the pairs of one source *)
  Definition from_source (o : Obj) (l : list (pk * pk * Obj)) : list (pk * pk * Obj) := List.filter (fun x => bool_decide (x.2 = o)) l.
  (** what is collected for a source at a pair of readouts *)
  Definition by_source (c : gmap Obj (gmap (Name * Name) C_fld)) (o : Obj) (p : Name * Name) : C_fld :=
    default 0%F (c !! o ≫= lookup p).
  (** the part reported: real for one and the same readout *)
  Definition reported (p q : Name) (x : C_fld) : C_fld := if decide (p = q) then cre (fst x) else x.
  (** conjugation of nodes: same port, conjugate key *)
  Definition bar (conj : Key -> Key) (x : pk) : pk := (x.1, conj x.2).
  (** couplings between conjugate nodes are conjugate *)
  Definition real_system (conj : Key -> Key) (coupling : list ((pk * pk) * C_fld)) : Prop :=
    forall a b, gain coupling (bar conj a) (bar conj b) = cconj (gain coupling a b).
  (** the sources are symmetric under exchange of the two nodes with conjugation *)
  Definition symmetric (conj : Key -> Key) (expect : Obj -> pk -> pk -> C_fld) (l : list (pk * pk * Obj)) : Prop :=
    (fun x : pk * pk * Obj => let '(p1, p2, o) := x in (bar conj p2, bar conj p1, o)) <$> l ≡ₚ l /\
    forall p1 p2 o, (p1, p2, o) ∈ l -> expect o (bar conj p2) (bar conj p1) = cconj (expect o p1 p2).
  (** the noise sources: one port, or a fluctuation across two ports, over the registered keys *)
  Inductive source :=
  | Single (o : Obj) (port : Port) (keys : list Key)
  | Voltage2 (o : Obj) (porti porto : Port) (keys : list Key)
  | Current2 (o : Obj) (Z : R) (porti porto : Port) (keys : list Key).
  Definition source_pairs (conj : Key -> Key) (s : source) : list (pk * pk * Obj) :=
    match s with
    | Single o port keys => pairs_single conj o port keys
    | Voltage2 o porti porto keys => pairs_double conj o porti porto keys
    | Current2 o _ porti porto keys => pairs_double conj o porti porto keys
    end.
  Definition source_expects (psd : Obj -> Key -> R) (conversion : R) (expect : Obj -> pk -> pk -> C_fld) (s : source) : Prop :=
    match s with
    | Single o _ _ => expect o = expect_single (psd o) conversion
    | Voltage2 o _ _ _ => expect o = expect_voltage2 (psd o) conversion
    | Current2 o Z _ _ _ => expect o = expect_current2 Z (psd o) conversion
    end.
End spec.
Arguments source : clear implicits.
(** * Examples used in NoiProps.v *)
(** Two voltage sources seen by two readouts; the keys are true for +f and false for -f. *)
Definition ex_cp : nat -> option (gset bool) := fun n => if decide (n < 4) then Some {[true; false]} else None.
Definition ex_ss : list (source nat bool nat) := [Single 0 0 [true; false]; Voltage2 1 0 1 [true; false]].
Definition ex_psd : nat -> bool -> R := fun o _ => INR (S o).
Definition ex_expect : nat -> nat * bool -> nat * bool -> C_fld := fun o => match o with 0 => expect_single (ex_psd 0) 2 | _ => expect_voltage2 (ex_psd o) 2 end.
Definition ex_coupling : list (((nat * bool) * (nat * bool)) * C_fld) :=
  [((0, true), (2, true), ci); ((0, false), (2, false), (- ci)%F); ((1, true), (3, true), 1%F); ((1, false), (3, false), 1%F)].
Definition ex_pm : list (nat * nat) := [(7, 2); (8, 3)].
Definition ex_m : mat2 C_fld := Mt (cre 2) (cre 1) (cre 1) (cre 2).
(** quadratic form of a real matrix with a direction *)
Local Open Scope R_scope.
Definition form (m : mat2 C_fld) (x y : R) : R :=
  fst (e00 m) * (x * x) + (fst (e01 m) + fst (e10 m)) * (x * y) + fst (e11 m) * (y * y).
(** a spectrum: real symmetric part positive definite *)
Definition spectrum (m : mat2 C_fld) : Prop :=
  fst (e01 m) = fst (e10 m) /\ 0 < fst (e00 m) /\ 0 < fst (e00 m) * fst (e11 m) - fst (e01 m) * fst (e10 m).
