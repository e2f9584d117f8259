(** What filters given by zeros, poles and gain are. *)
From Coq Require Import Reals.
From stdpp Require Import base tactics list numbers.
From Verif Require Import Fld Py Herm OptModel SigModel SigSpec ZpkModel.
Local Open Scope fld_scope.

(** k times the product of (s - zero) over the product of (s - pole) *)
Definition product (l : list C_fld) : C_fld := foldr (fun a v => a * v) 1 l.
Definition transfer (t : tri) (s : C_fld) : C_fld :=
  t_k t * product ((fun z => s - z) <$> t_z t) / product ((fun p => s - p) <$> t_p t).
Definition regular (t : tri) (s : C_fld) : Prop := s ∉ t_p t.
Definition nonzero (t : tri) (s : C_fld) : Prop := s ∉ t_p t /\ s ∉ t_z t /\ t_k t <> 0.

(** the roots are real or come with their conjugates, and the gain is real: the filter of a real signal *)
Definition closed (l : list C_fld) : Prop := (cconj <$> l) ≡ₚ l.
Definition real_filter (t : tri) : Prop := closed (t_z t) /\ closed (t_p t) /\ real_number (t_k t).

(** the root is not 0, and not so close to the real axis that sort_roots takes it for real *)
Definition resolved (tiny : R) (r : C_fld) : Prop := r <> 0 /\ (r.2 = 0 \/ tiny * Rabs r.1 <= Rabs r.2)%R.

(** a filter of a real signal with all its zeros and poles in the left half plane *)
Definition good (t : tri) : Prop := real_filter t /\ t_k t <> 0 /\ forall r : C_fld, r ∈ t_z t ++ t_p t -> (r.1 < 0)%R.
