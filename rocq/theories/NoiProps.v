(** Properties C51 and C72: noise readouts and homodyne readouts. *)
From Coq Require Import Reals Lra.
From stdpp Require Import base tactics numbers gmap list.
From Verif Require Import Fld Py Herm SigModel SigProofs NoiModel NoiSpec NoiProofs NoiProofs2 NoiProofs3 NoiProofs4 NoiFinal.

Section C51.
  Context {Port Key Obj Name : Type}.
  Context `{Countable Port, Countable Key, Countable Obj, Countable Name}.
  Notation pk := (Port * Key)%type.
  Implicit Types (cp : Port -> option (gset Key)) (expect : Obj -> pk -> pk -> C_fld) (l : list (pk * pk * Obj))
    (coupling : list ((pk * pk) * C_fld)) (pm : list (Name * Port)) (kP kN : Key).

  (** The reported cross density of two readouts is the sum, over everything the noise sources
      inserted, of the expectation times the two couplings into the readouts. *)
  Theorem C51_value cp adjust expect l nm coupling pm kP kN p q port port' :
    noise_map cp l = Ok nm -> NoDup coupling.*1 -> NoDup pm.*1 -> (p, port) ∈ pm -> (q, port') ∈ pm ->
    (CSD_builds adjust expect nm coupling pm kP kN).1 !! (p, q) =
    Some (reported p q (density adjust expect coupling l (port, kP) (port', kN))).
  Proof. eapply C51_value_lem. Qed.
  (** What is collected for one source is the same sum over that source alone. *)
  Theorem C51_by_source cp adjust expect l nm coupling pm kP kN o p q port port' :
    noise_map cp l = Ok nm -> NoDup coupling.*1 -> NoDup pm.*1 -> (p, port) ∈ pm -> (q, port') ∈ pm ->
    by_source (CSD_builds adjust expect nm coupling pm kP kN).2 o (p, q) =
    reported p q (density adjust expect coupling (from_source o l) (port, kP) (port', kN)).
  Proof. eapply C51_by_source_lem. Qed.
  (** The sources together make the total. *)
  Theorem C51_total cp adjust expect l nm coupling pm kP kN os p q port port' :
    noise_map cp l = Ok nm -> NoDup coupling.*1 -> NoDup pm.*1 -> (p, port) ∈ pm -> (q, port') ∈ pm ->
    NoDup os -> (forall x, x ∈ l -> x.2 ∈ os) ->
    (CSD_builds adjust expect nm coupling pm kP kN).1 !! (p, q) =
    Some (fsum (fun o => by_source (CSD_builds adjust expect nm coupling pm kP kN).2 o (p, q)) os).
  Proof. eapply C51_total_lem. Qed.
  (** A selection of sources is summed: the CSD of a selection is the sum of what it collected. *)
  Theorem C51_selection (c : gmap Obj (gmap (Name * Name) C_fld)) os p :
    default (0%F : C_fld) (CSD_external ((fun o => (o, map_to_list (default ∅ (c !! o)))) <$> os) !! p) = fsum (fun o => by_source c o p) os.
  Proof. eapply C51_selection_lem. Qed.
  (** There is an entry for every pair of readouts and no other. *)
  Theorem C51_entries adjust expect nm coupling pm kP kN p q : NoDup coupling.*1 -> NoDup pm.*1 ->
    is_Some ((CSD_builds adjust expect nm coupling pm kP kN).1 !! (p, q)) <-> p ∈ pm.*1 /\ q ∈ pm.*1.
  Proof. eapply C51_entries_lem. Qed.
  (** A source is accepted exactly when all the nodes it names are registered. *)
  Theorem C51_registered cp l :
    (exists nm, noise_map cp l = Ok nm) <->
    Forall (fun x => (exists s, cp x.1.1.1 = Some s /\ x.1.1.2 ∈ s) /\ (exists s, cp x.1.2.1 = Some s /\ x.1.2.2 ∈ s)) l.
  Proof. eapply C51_registered_lem. Qed.
  (** The elements' own sources are symmetric. *)
  Theorem C51_sources_symmetric conj psd conversion expect (ss : list (source Port Key Obj)) :
    (forall k, conj (conj k) = k) -> Forall (source_expects psd conversion expect) ss -> symmetric conj expect (ss ≫= source_pairs conj).
  Proof. eapply C51_sources_symmetric_lem. Qed.
  (** The table is Hermitian; on the diagonal it is real. *)
  Theorem C51_hermitian conj cp adjust expect l nm coupling pm kP p q :
    (forall k, conj (conj k) = k) -> real_system conj coupling -> symmetric conj expect l ->
    noise_map cp l = Ok nm -> NoDup coupling.*1 -> NoDup pm.*1 -> p ∈ pm.*1 -> q ∈ pm.*1 ->
    let S := (CSD_builds adjust expect nm coupling pm kP (conj kP)).1 in S !! (q, p) = cconj <$> S !! (p, q).
  Proof. eapply C51_hermitian_lem. Qed.
  (** Each source's share is Hermitian as well. *)
  Theorem C51_source_hermitian conj cp adjust expect l nm coupling pm kP o p q :
    (forall k, conj (conj k) = k) -> real_system conj coupling -> symmetric conj expect l ->
    noise_map cp l = Ok nm -> NoDup coupling.*1 -> NoDup pm.*1 -> p ∈ pm.*1 -> q ∈ pm.*1 ->
    let c := (CSD_builds adjust expect nm coupling pm kP (conj kP)).2 in by_source c o (q, p) = cconj (by_source c o (p, q)).
  Proof. eapply C51_source_hermitian_lem. Qed.
  (** No combination of readouts has negative power. *)
  Theorem C51_positive conj cp adjust psd conversion expect (ss : list (source Port Key Obj)) nm coupling pm kP (z : Name -> C_fld) :
    (forall k, conj (conj k) = k) -> real_system conj coupling -> (0 <= adjust)%R -> (0 < conversion)%R -> (forall o k, (0 <= psd o k)%R) ->
    Forall (source_expects psd conversion expect) ss -> noise_map cp (ss ≫= source_pairs conj) = Ok nm -> NoDup coupling.*1 -> NoDup pm.*1 ->
    let S := (CSD_builds adjust expect nm coupling pm kP (conj kP)).1 in
    exists r, (0 <= r)%R /\
      fsum (fun a => fsum (fun b => (z a.1 * cconj (z b.1) * default 0 (S !! (a.1, b.1)))%F) pm) pm = cre r.
  Proof. eapply C51_positive_lem. Qed.
End C51.
Example C51_ex :
  NoDup ex_coupling.*1 /\ NoDup ex_pm.*1 /\ Forall (source_expects ex_psd 2 ex_expect) ex_ss /\ real_system negb ex_coupling /\
  (exists nm, noise_map ex_cp (ex_ss ≫= source_pairs negb) = Ok nm) /\ (forall o k, (0 <= ex_psd o k)%R) /\
  density 1 ex_expect ex_coupling (ex_ss ≫= source_pairs negb) (2, true) (3, false) = (- ci * cre (1 / 4))%F.
Proof. eapply C51_ex_lem. Qed.

(** C72 *)
Local Open Scope R_scope.
(** Changing the readout phase twice is changing it by the sum; zero changes nothing. *)
Theorem C72_rotations a b m : AC_CSD_IQ b (AC_CSD_IQ a m) = AC_CSD_IQ (a + b) m /\ AC_CSD_IQ 0 m = m.
Proof. eapply C72_rotations_lem. Qed.
(** Trace, determinant and the ellipse axes do not depend on the readout phase. *)
Theorem C72_invariants t m : let n := AC_CSD_IQ t m in
  (e00 n + e11 n = e00 m + e11 m)%F /\ (e00 n * e11 n - e01 n * e10 n = e00 m * e11 m - e01 m * e10 m)%F /\
  ell_min n = ell_min m /\ ell_max n = ell_max m.
Proof. eapply C72_invariants_lem. Qed.
(** The noise at a phase is the quadratic form of its direction; it lies between the axes of the
    ellipse, and both are reached, a quarter turn apart. *)
Theorem C72_ellipse m : fst (e01 m) = fst (e10 m) ->
  (forall t, fst (AC_PSD t m) = form m (cos (t * PI / 180)) (sin (t * PI / 180)) /\ ell_min m <= fst (AC_PSD t m) <= ell_max m) /\
  (ell_min m < ell_max m -> exists t, fst (AC_PSD t m) = ell_max m /\ fst (AC_PSD (t + 90) m) = ell_min m) /\
  ell_min m + ell_max m = fst (e00 m) + fst (e11 m) /\ ell_min m * ell_max m = fst (e00 m) * fst (e11 m) - fst (e10 m) * fst (e10 m).
Proof. eapply C72_ellipse_lem. Qed.
(** The largest noise is found at minus the reported angle ... *)
Theorem C72_angle m : fst (e01 m) = fst (e10 m) -> ell_min m < ell_max m -> fst (AC_PSD (- (180 * ell_rad m / PI)) m) = ell_max m.
Proof. eapply C72_angle_lem. Qed.
(** ... and not at the reported angle. *)
Theorem C72_angle_refuted : exists m, spectrum m /\ ell_min m < ell_max m /\ fst (AC_PSD (180 * ell_rad m / PI) m) <> ell_max m.
Proof. eapply C72_angle_refuted_lem. Qed.
(** Imin (Qmin) is the noise of I (Q) when the best multiple of the other is subtracted. *)
Theorem C72_conditional m : spectrum m ->
  (forall x, ell_Imin m <= form m 1 x) /\ (exists x, form m 1 x = ell_Imin m) /\ (forall x, ell_Qmin m <= form m x 1) /\ (exists x, form m x 1 = ell_Qmin m).
Proof. eapply C72_conditional_lem. Qed.
(** No readout phase is more sensitive than the reported optimum, which is real and positive and
    does not depend on the phase used to obtain it. *)
Theorem C72_optimal n s t : spectrum n -> s <> ((0, 0) : C_fld, (0, 0) : C_fld) ->
  snd (optimal2 n s) = 0 /\ 0 < fst (optimal2 n s) /\
  fst (optimal2 n s) * C_sq (AC_sensitivity_IQ t s.1 s.2).1 <= fst (AC_PSD t n) /\
  optimal2 (AC_CSD_IQ t n) (AC_sensitivity_IQ t s.1 s.2) = optimal2 n s.
Proof. eapply C72_optimal_lem. Qed.
(** The responses turn with the phase, keeping their total power. *)
Theorem C72_sensitivity a b i q : let r := AC_sensitivity_IQ a i q in
  AC_sensitivity_IQ b r.1 r.2 = AC_sensitivity_IQ (a + b) i q /\ C_sq r.1 + C_sq r.2 = C_sq i + C_sq q.
Proof. eapply C72_sensitivity_lem. Qed.
Example C72_ex : spectrum ex_m /\ ell_min ex_m < ell_max ex_m /\ ((cre 1, ci) : C_fld * C_fld) <> ((0, 0) : C_fld, (0, 0) : C_fld).
Proof. eapply C72_ex_lem. Qed.

Print Assumptions C51_value.
Print Assumptions C51_by_source.
Print Assumptions C51_total.
Print Assumptions C51_selection.
Print Assumptions C51_entries.
Print Assumptions C51_registered.
Print Assumptions C51_sources_symmetric.
Print Assumptions C51_hermitian.
Print Assumptions C51_source_hermitian.
Print Assumptions C51_positive.
Print Assumptions C72_rotations.
Print Assumptions C72_invariants.
Print Assumptions C72_ellipse.
Print Assumptions C72_angle.
Print Assumptions C72_angle_refuted.
Print Assumptions C72_conditional.
Print Assumptions C72_optimal.
Print Assumptions C72_sensitivity.
