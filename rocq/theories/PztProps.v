(** C82: the piezo. *)
From Coq Require Import Reals Lra.
From stdpp Require Import base tactics list numbers.
From Verif Require Import Py Fld Herm ElecModel ElecSpec SigModel PztModel PztSpec PztProofs.
Local Open Scope fld_scope.

(** C82: the element obeys the piezo equations with force and displacement exchanged: what it
    takes for the force is the displacement at its port, and the other way round *)
Theorem C82_exchanged (K : fld) (Ze Zm s C k d : K) (w : nd pAB -> K) :
  Ze <> 0 -> Zm <> 0 -> 1 + 1 <> (0 : K) -> pzt_den Ze Zm s C k d <> 0 ->
  (obeys [AA; BB] (pzt Ze Zm s C k d) [] w <->
   piezo s C k d (volt w AA) (curr Ze w AA) (volt w BB) (curr Zm w BB)).
Proof. exact (pzt_lem Ze Zm s C k d w). Qed.
Print Assumptions C82_exchanged.
(** with no force on it, it moves by - k d V where it should move by d V *)
Theorem C82_free (K : fld) (Ze Zm s C k d : K) (w : nd pAB -> K) :
  Ze <> 0 -> Zm <> 0 -> 1 + 1 <> (0 : K) -> pzt_den Ze Zm s C k d <> 0 ->
  obeys [AA; BB] (pzt Ze Zm s C k d) [] w -> curr Zm w BB = 0 -> volt w BB = - (k * (d * volt w AA)).
Proof. exact (pzt_free_lem Ze Zm s C k d w). Qed.
Print Assumptions C82_free.
(** every voltage and force occur *)
Theorem C82_waves (K : fld) (Ze Zm s C k d V F : K) :
  Ze <> 0 -> Zm <> 0 -> 1 + 1 <> (0 : K) -> pzt_den Ze Zm s C k d <> 0 ->
  exists w, obeys [AA; BB] (pzt Ze Zm s C k d) [] w /\ volt w AA = V /\ curr Zm w BB = F.
Proof. exact (pzt_wave Ze Zm s C k d V F). Qed.
Print Assumptions C82_waves.
(** a piezo takes up no power; this one does, or gives it away, wherever d k <> 0 and voltage
    and force are not in a fixed phase *)
Theorem C82_lossless (K : fld) (h : herm K) (s C k d V i F x : K) :
  h_conj h C = C -> h_conj h k = k -> h_conj h d = d -> h_conj h s = - s -> k <> 0 ->
  piezo s C k d V i F x -> piezo_power h s V i F x = 0.
Proof. exact (fun HC Hk Hd Hs => piezo_lossless_lem s C k d h HC Hk Hd Hs V i F x). Qed.
Print Assumptions C82_lossless.
Theorem C82_power (K : fld) (h : herm K) (Ze Zm s C k d : K) (w : nd pAB -> K) :
  h_conj h C = C -> h_conj h k = k -> h_conj h d = d -> h_conj h s = - s ->
  Ze <> 0 -> Zm <> 0 -> 1 + 1 <> (0 : K) -> pzt_den Ze Zm s C k d <> 0 ->
  obeys [AA; BB] (pzt Ze Zm s C k d) [] w ->
  let V := volt w AA in let F := curr Zm w BB in let P := s * (k * d * (h_conj h V * F)) in
  piezo_power h s V (curr Ze w AA) F (volt w BB) = (1 + 1) * (P + h_conj h P).
Proof. exact (fun HC Hk Hd Hs => pzt_power_lem Ze Zm s C k d h HC Hk Hd Hs w). Qed.
Print Assumptions C82_power.
(** so the piezo equations fail, even for real parameters on the frequency axis *)
Theorem C82_piezo_refuted : exists (Ze Zm f C k d : R) (w : nd pAB -> C_fld),
  (0 < Ze /\ 0 < Zm /\ 0 < f /\ 0 < C /\ 0 < k /\ 0 < d)%R /\
  let s := ci * cre f in
  obeys [AA; BB] (pzt (cre Ze) (cre Zm) s (cre C) (cre k) (cre d)) [] w /\
  ~ piezo s (cre C) (cre k) (cre d) (volt w AA) (curr (cre Ze) w AA) (curr (cre Zm) w BB) (volt w BB) /\
  piezo_power C_herm s (volt w AA) (curr (cre Ze) w AA) (curr (cre Zm) w BB) (volt w BB) <> 0.
Proof. exact pzt_refuted_lem. Qed.
Print Assumptions C82_piezo_refuted.
(** the displacement per volt: given, or from the full swing in um at the largest voltage *)
Theorem C82_swing (K : fld) (micro um v : K) (d0 : option K) : v <> 0 ->
  pzt_d micro None (Some um) (Some v) = Ok (um * micro / v) /\
  (forall d u, pzt_d micro (Some d) d0 u = Ok d) /\ pzt_d micro None None d0 = Err TypeError.
Proof. intros Hv. unfold pzt_d. rewrite decide_False by done. done. Qed.
Print Assumptions C82_swing.
Example C82_meets : let q := fun n : Z => Qcanon.Q2Qc (QArith_base.inject_Z n) : Qc_fld in
  exists (Ze Zm s C k d : Qc_fld) w, Ze <> 0 /\ Zm <> 0 /\ 1 + 1 <> (0 : Qc_fld) /\ pzt_den Ze Zm s C k d <> 0 /\ k <> 0 /\
  obeys [AA; BB] (pzt Ze Zm s C k d) [] w /\ curr Zm w BB = 0 /\ volt w AA <> 0 /\ volt w BB <> d * volt w AA.
Proof.
  intros q. set (x := q 2%Z).
  assert (x <> 0 /\ q 1%Z <> 0 /\ 1 + 1 <> (0 : Qc_fld) /\ pzt_den x (q 1%Z) (q 1%Z) x x x <> 0) as (H1 & H2 & H3 & H4)
    by (split_and!; intros E; vm_compute in E; discriminate E).
  destruct (C82_waves Qc_fld x (q 1%Z) (q 1%Z) x x x 1 0 H1 H2 H3 H4) as (w & Ho & HV & HF).
  exists x, (q 1%Z), (q 1%Z), x, x, x, w. split_and!; try done.
  - rewrite HV. intros E; vm_compute in E; discriminate E.
  - rewrite (C82_free _ _ _ _ _ _ _ _ H1 H2 H3 H4 Ho HF), HV. intros E; vm_compute in E; discriminate E.
Qed.
