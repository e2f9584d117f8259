(** Theorems about the waists of a beam layout.  C97. *)
From stdpp Require Import base tactics list numbers.
From Coq Require Import Reals.
From Verif Require Import Fld Py Herm SigModel AlmModel AlmSpec MeaModel MeaSpec MeaFinal2.
Local Open Scope R_scope.

Theorem C97_waists S eps : usable S -> 0 <= eps -> (exists p, beam_target S p) ->
  exists ws (asked : list (list nat * list nat)), waist_descriptions S eps = Ok ws /\
    NoDup (map snd asked) /\ (forall e, e ∈ map snd asked <-> exists L n, space_at S e L n) /\
    (forall p e, (p, e) ∈ asked -> (exists s, target_idx S s = Ok (Tidx p TQ)) /\ next_to S p e) /\
    (length ws <= length asked)%nat /\
    (forall z r, (z, r) ∈ ws -> exists p e a b, (p, e) ∈ asked /\ stretch S e a b /\ waist_at S p e z r /\ a - eps < z < b + eps) /\
    (forall p e a b z r, (p, e) ∈ asked -> stretch S e a b -> waist_at S p e z r -> a < z < b -> (z, r) ∈ ws).
Proof. eapply C97_waists_lem. Qed.
Theorem C97_one S s p e L n : usable S -> target_idx S s = Ok (Tidx p TQ) -> space_at S e L n ->
  exists zw ZR, 0 < ZR /\ forall z r, waist_at S p e z r <-> z = zw /\ r = ZR.
Proof. eapply C97_one_lem. Qed.
Theorem C97_matching S eps s p : usable S -> 0 <= eps -> matching S -> target_idx S s = Ok (Tidx p TQ) ->
  exists ws, waist_descriptions S eps = Ok ws /\
    (forall z r, (z, r) ∈ ws -> exists e a b, stretch S e a b /\ waist_at S p e z r /\ a - eps < z < b + eps) /\
    (forall e a b z r, stretch S e a b -> waist_at S p e z r -> a < z < b -> (z, r) ∈ ws).
Proof. eapply C97_matching_lem. Qed.
Theorem C97_seen S p e L n a b z r : usable S -> beam_target S p -> space_at S e L n -> stretch S e a b -> a <= z <= b -> plain S (AtZ z) ->
  (waist_at S p e z r <-> exists q, target_q S (Tidx p TQ) (AtZ z) = Ok q /\ value q = (0, r)).
Proof. eapply C97_seen_lem. Qed.
Theorem C97_nearest S p e L n a b z z' : usable S -> beam_target S p -> space_at S e L n -> n <> 0 -> stretch S e a b ->
  a <= z <= b -> plain S (AtZ z) -> z_nearest S (Tidx p TQ) z 0 = Ok z' -> a <= z' <= b -> plain S (AtZ z') ->
  exists q q', target_q S (Tidx p TQ) (AtZ z) = Ok q /\ target_q S (Tidx p TQ) (AtZ z') = Ok q' /\ b_ZR q' = b_ZR q /\ (b_Z q' = 0 <-> n = 1 \/ b_Z q = 0).
Proof. eapply C97_nearest_lem. Qed.
Theorem C97_nearest_refuted : exists S p e L n a b z z' q', usable S /\ beam_target S p /\ space_at S e L n /\ stretch S e a b /\
  a < z < b /\ a < z' < b /\ plain S (AtZ z) /\ plain S (AtZ z') /\ z_nearest S (Tidx p TQ) z 0 = Ok z' /\ target_q S (Tidx p TQ) (AtZ z') = Ok q' /\ b_Z q' <> 0.
Proof. eapply C97_nearest_refuted_lem. Qed.
(** a target in front of a block of glass and a lens, with the waist inside the glass *)
Example C97_example : exists S s p e L n a b z r, usable S /\ matching S /\ target_idx S s = Ok (Tidx p TQ) /\ beam_target S p /\ space_at S e L n /\ n <> 1 /\
  stretch S e a b /\ a < z < b /\ plain S (AtZ z) /\ waist_at S p e z r.
Proof. apply C97_example_lem. Qed.

Print Assumptions C97_waists.
Print Assumptions C97_one.
Print Assumptions C97_matching.
Print Assumptions C97_seen.
Print Assumptions C97_nearest.
Print Assumptions C97_nearest_refuted.
