(** What a nonlinear crystal should do: mix the fields and keep their energy. *)
From Coq Require Import Reals.
From stdpp Require Import base tactics list numbers gmap.
From Verif Require Import Fld Herm SigModel OdeModel OdeSpec NlcModel.

Section spec.
  Context {B Q : Type} `{Countable B} `{Countable Q}.
  Local Open Scope fld_scope.
  Context (qadd : Q -> Q -> Q) (n : Q -> Z).
  (** the modes: polarization and frequency; both quantum keys of each are there *)
  Definition both (S : list (B * Q)) (ks : list nkey) : Prop := NoDup ks /\ forall l s, (l, s) ∈ ks <-> s ∈ S.
  (** s3 is the sum frequency of s1 and s2, all of one polarization *)
  Definition sums_to (s1 s2 s3 : B * Q) : Prop := s1.1 = s2.1 /\ s3 = (s1.1, qadd s1.2 s2.2).
  (** the raising fields are the conjugates of the lowering ones *)
  Definition conj_fields (S : list (B * Q)) (x : nkey -> C_fld) : Prop := forall s, s ∈ S -> x (false, s) = cconj (x (true, s)).
  (** how fast the energy grows along the crystal, with right-hand sides f *)
  Definition power_rate (S : list (B * Q)) (f : nkey -> list (mono C_fld nkey)) (x : nkey -> C_fld) : C_fld :=
    fsum (fun s => let p := cconj (x (true, s)) * poly_at x (f (true, s)) in p + cconj p) S.
  (** sum over pairs of modes and their sum frequency, with the multiple of the base frequency *)
  Definition mixing (w : B * Q -> B * Q -> bool) (S : list (B * Q)) (x : nkey -> C_fld) : C_fld :=
    fsum (fun s1 => fsum (fun s2 => fsum (fun s3 =>
      if decide (sums_to s1 s2 s3) then
        (if w s1 s2 then cZ (n s3.2) * (x (true, s1) * x (true, s2) * cconj (x (true, s3))) else 0) else 0) S) S) S.
  Definition different (s1 s2 : B * Q) : bool := bool_decide (s1 <> s2).
  (** the right-hand side for one field: from each pair with this sum frequency, its half when
      the two are one mode, and from each mode and a conjugate with this difference frequency *)
  Definition field_rate (g : R) (S : list (B * Q)) (l : bool) (s : B * Q) (x : nkey -> C_fld) : C_fld :=
    (if l then ci else - ci) * cre g * cZ (n s.2) *
    fsum (fun s1 => fsum (fun s2 =>
      (if decide (sums_to s1 s2 s) then (if decide (s1 = s2) then 1 / (1 + 1) else 1) * (x (l, s1) * x (l, s2)) else 0) +
      (if decide (sums_to s s2 s1) then x (l, s1) * x (negb l, s2) else 0)) S) S.
  (** the mode is in a process: a sum of two modes with all three there *)
  Definition takes_part (S : list (B * Q)) (s : B * Q) : Prop :=
    exists s1 s2 s3, s1 ∈ S /\ s2 ∈ S /\ s3 ∈ S /\ sums_to s1 s2 s3 /\ (s = s1 \/ s = s2 \/ s = s3).
End spec.
