(** Theorems about the measurements on a beam layout.  C96. *)
From stdpp Require Import base tactics list numbers.
From Coq Require Import Reals.
From Verif Require Import Fld Py Herm SigModel AlmModel AlmSpec MeaModel MeaSpec MeaFinal.
Local Open Scope R_scope.

Theorem C96_defined S src p1 p2 : usable S -> known S src -> plain S p1 -> plain S p2 -> name_or_z p1 -> name_or_z p2 ->
  exists g, relative_gouy S src p1 p2 = Ok g /\ mag2 g = 1.
Proof. eapply C96_defined_lem. Qed.
Theorem C96_gouy_chain S src p1 p2 p3 : usable S -> known S src -> plain S p1 -> plain S p2 -> plain S p3 -> name_or_z p1 -> name_or_z p2 -> name_or_z p3 ->
  exists g h, relative_gouy S src p1 p2 = Ok g /\ relative_gouy S src p2 p3 = Ok h /\ relative_gouy S src p1 p3 = Ok (g * h)%F.
Proof. eapply C96_gouy_chain_lem. Qed.
Theorem C96_gouy_back S src p1 p2 : usable S -> known S src -> plain S p1 -> plain S p2 -> name_or_z p1 -> name_or_z p2 ->
  relative_gouy S src p1 p1 = Ok 1%F /\ exists g, relative_gouy S src p1 p2 = Ok g /\ relative_gouy S src p2 p1 = Ok (cconj g).
Proof. eapply C96_gouy_back_lem. Qed.
Theorem C96_gouy_phase S src x p1 p2 : usable S -> target_idx S src = Ok x -> plain S p1 -> plain S p2 -> name_or_z p1 -> name_or_z p2 ->
  exists b1 b2 g, target_q S x p1 = Ok b1 /\ target_q S x p2 = Ok b2 /\ relative_gouy S src p1 p2 = Ok g /\
    same_phase (gouy b2) (gouy b1 * g)%F.
Proof. eapply C96_gouy_phase_lem. Qed.
Theorem C96_target_q S p y pt : usable S -> beam_target S p -> target (tree_of S) y -> plain S pt ->
  exists b m b', target_q S (Tidx p TQ) (AtIdx y) = Ok b /\ matrix_to S y pt = Ok m /\ target_q S (Tidx p TQ) pt = Ok b' /\
    physical b' /\ same_beam (propagate_matrix b (val m)) b'.
Proof. eapply C96_target_q_lem. Qed.
Theorem C96_here S p : usable S -> beam_target S p -> exists b, target_q S (Tidx p TQ) (AtIdx (Tidx p TQ)) = Ok b /\ same_beam b (beam_of S p).
Proof. eapply C96_here_lem. Qed.
Theorem C96_overlap S s1 s2 x1 p2 b : usable S -> target_idx S s1 = Ok x1 -> target_idx S s2 = Ok (Tidx p2 TQ) ->
  target_q S x1 (AtName s2) = Ok b -> wavelen b = wavelen (beam_of S p2) ->
  exists o o', overlap_of S s1 s2 = Ok o /\ overlap_of S s2 s1 = Ok o' /\ mag2 o = mag2 o' /\ mag2 o <= 1 /\
    (mag2 o = 1 <-> value b = value (beam_of S p2)).
Proof. eapply C96_overlap_lem. Qed.
Theorem C96_overlap_self S s : usable S -> known S s -> overlap_of S s s = Ok 1%F.
Proof. eapply C96_overlap_self_lem. Qed.
Theorem C96_source S s1 s2 p1 p2 b pt : usable S -> target_idx S s1 = Ok (Tidx p1 TQ) -> target_idx S s2 = Ok (Tidx p2 TQ) ->
  target_q S (Tidx p1 TQ) (AtName s2) = Ok b -> value b = value (beam_of S p2) -> wavelen b = wavelen (beam_of S p2) -> plain S pt ->
  (exists b1 b2, target_q S (Tidx p1 TQ) pt = Ok b1 /\ target_q S (Tidx p2 TQ) pt = Ok b2 /\ value b1 = value b2 /\ wavelen b1 = wavelen b2) /\
  (forall pt', plain S pt' -> name_or_z pt -> name_or_z pt' -> relative_gouy S s1 pt pt' = relative_gouy S s2 pt pt').
Proof. eapply C96_source_lem. Qed.
(** two targets on both sides of a lens, the second with the beam that comes from the first, and a place between *)
Example C96_example : exists S p1 p2 b z, usable S /\ target_idx S 7 = Ok (Tidx p1 TQ) /\ target_idx S 9 = Ok (Tidx p2 TQ) /\
  target_q S (Tidx p1 TQ) (AtName 9) = Ok b /\ value b = value (beam_of S p2) /\ wavelen b = wavelen (beam_of S p2) /\
  plain S (AtZ z) /\ plain S (AtName 9) /\ beam_of S p1 <> beam_of S p2.
Proof. apply C96_example_lem. Qed.

Print Assumptions C96_defined.
Print Assumptions C96_gouy_chain.
Print Assumptions C96_gouy_back.
Print Assumptions C96_gouy_phase.
Print Assumptions C96_target_q.
Print Assumptions C96_here.
Print Assumptions C96_overlap.
Print Assumptions C96_overlap_self.
Print Assumptions C96_source.
