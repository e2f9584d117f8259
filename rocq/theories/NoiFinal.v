(** Proofs of the theorems of NoiProps.v. *)
From Coq Require Import Reals Lra.
From stdpp Require Import base tactics numbers gmap list.
From Verif Require Import Fld Py Herm SigModel SigProofs NoiModel NoiSpec NoiProofs NoiProofs2 NoiProofs3 NoiProofs4.

Section C51.
  Context {Port Key Obj Name : Type}.
  Context `{Countable Port, Countable Key, Countable Obj, Countable Name}.
  Notation pk := (Port * Key)%type.
  Implicit Types (cp : Port -> option (gset Key)) (expect : Obj -> pk -> pk -> C_fld) (l : list (pk * pk * Obj))
    (coupling : list ((pk * pk) * C_fld)) (pm : list (Name * Port)) (kP kN : Key).

  (** The reported cross density of two readouts is the sum, over everything the noise sources
      inserted, of the expectation times the two couplings into the readouts. *)
  Lemma C51_value_lem cp adjust expect l nm coupling pm kP kN p q port port' :
    noise_map cp l = Ok nm -> NoDup coupling.*1 -> NoDup pm.*1 -> (p, port) ∈ pm -> (q, port') ∈ pm ->
    (CSD_builds adjust expect nm coupling pm kP kN).1 !! (p, q) =
    Some (reported p q (density adjust expect coupling l (port, kP) (port', kN))).
  Proof. intros. by eapply CSD_value. Qed.
  (** What is collected for one source is the same sum over that source alone. *)
  Lemma C51_by_source_lem cp adjust expect l nm coupling pm kP kN o p q port port' :
    noise_map cp l = Ok nm -> NoDup coupling.*1 -> NoDup pm.*1 -> (p, port) ∈ pm -> (q, port') ∈ pm ->
    by_source (CSD_builds adjust expect nm coupling pm kP kN).2 o (p, q) =
    reported p q (density adjust expect coupling (from_source o l) (port, kP) (port', kN)).
  Proof. intros. by eapply CSD_source_value. Qed.
  (** The sources together make the total. *)
  Lemma C51_total_lem cp adjust expect l nm coupling pm kP kN os p q port port' :
    noise_map cp l = Ok nm -> NoDup coupling.*1 -> NoDup pm.*1 -> (p, port) ∈ pm -> (q, port') ∈ pm ->
    NoDup os -> (forall x, x ∈ l -> x.2 ∈ os) ->
    (CSD_builds adjust expect nm coupling pm kP kN).1 !! (p, q) =
    Some (fsum (fun o => by_source (CSD_builds adjust expect nm coupling pm kP kN).2 o (p, q)) os).
  Proof. intros. by eapply CSD_total. Qed.
  (** A selection of sources is summed: the CSD of a selection is the sum of what it collected. *)
  Lemma C51_selection_lem (c : gmap Obj (gmap (Name * Name) C_fld)) os p :
    default (0%F : C_fld) (CSD_external ((fun o => (o, map_to_list (default ∅ (c !! o)))) <$> os) !! p) = fsum (fun o => by_source c o p) os.
  Proof. apply external_sources. Qed.
  (** There is an entry for every pair of readouts and no other. *)
  Lemma C51_entries_lem adjust expect nm coupling pm kP kN p q : NoDup coupling.*1 -> NoDup pm.*1 ->
    is_Some ((CSD_builds adjust expect nm coupling pm kP kN).1 !! (p, q)) <-> p ∈ pm.*1 /\ q ∈ pm.*1.
  Proof.
    intros Hc Hm. destruct (decide (p ∈ pm.*1)) as [Hp|Hp]; [destruct (decide (q ∈ pm.*1)) as [Hq|Hq]|].
    - split; [done|]. intros _. rewrite CSD_fst by done. by eexists.
    - rewrite CSD_fst_none by auto. split; [intros [x E]; done|tauto].
    - rewrite CSD_fst_none by auto. split; [intros [x E]; done|tauto].
  Qed.
  (** A source is accepted exactly when all the nodes it names are registered. *)
  Lemma C51_registered_lem cp l :
    (exists nm, noise_map cp l = Ok nm) <->
    Forall (fun x => (exists s, cp x.1.1.1 = Some s /\ x.1.1.2 ∈ s) /\ (exists s, cp x.1.2.1 = Some s /\ x.1.2.2 ∈ s)) l.
  Proof. apply noise_map_ok. Qed.
  (** The elements' own sources are symmetric. *)
  Lemma C51_sources_symmetric_lem conj psd conversion expect (ss : list (source Port Key Obj)) :
    (forall k, conj (conj k) = k) -> Forall (source_expects psd conversion expect) ss -> symmetric conj expect (ss ≫= source_pairs conj).
  Proof. intros. by eapply sources_symmetric. Qed.
  (** The table is Hermitian; on the diagonal it is real. *)
  Lemma C51_hermitian_lem conj cp adjust expect l nm coupling pm kP p q :
    (forall k, conj (conj k) = k) -> real_system conj coupling -> symmetric conj expect l ->
    noise_map cp l = Ok nm -> NoDup coupling.*1 -> NoDup pm.*1 -> p ∈ pm.*1 -> q ∈ pm.*1 ->
    let S := (CSD_builds adjust expect nm coupling pm kP (conj kP)).1 in S !! (q, p) = cconj <$> S !! (p, q).
  Proof.
    intros Hi Hr Hs Hn Hc Hm Hp Hq S. unfold S. apply elem_of_list_fmap in Hp as ([p' port] & -> & Hp). apply elem_of_list_fmap in Hq as ([q' port'] & -> & Hq). cbn [fst].
    rewrite (CSD_value cp adjust expect l nm coupling pm kP (conj kP) Hn Hc Hm p' q' port port' Hp Hq).
    rewrite (CSD_value cp adjust expect l nm coupling pm kP (conj kP) Hn Hc Hm q' p' port' port Hq Hp). cbn [fmap option_fmap option_map]. f_equal.
    assert (Huniq : p' = q' -> port = port').
    { intros ->. pose proof (dict_get_some _ _ _ Hm Hp) as E1. pose proof (dict_get_some _ _ _ Hm Hq) as E2. congruence. }
    change (port, conj kP) with (bar conj (port, kP)). change (port', conj kP) with (bar conj (port', kP)).
    rewrite (reported_density conj Hi) by (done || (intros E; by rewrite (Huniq (eq_sym E)))).
    rewrite (reported_density conj Hi) by (done || (intros E; by rewrite (Huniq E))). by apply density_conj.
  Qed.
  Lemma perm_filter {A} (P : A -> bool) (l1 l2 : list A) : l1 ≡ₚ l2 -> List.filter P l1 ≡ₚ List.filter P l2.
  Proof.
    induction 1 as [|x l1 l2 _ IH|x y l'|l1 l2 l3 _ IH1 _ IH2]; cbn [List.filter]; [done| | |by etransitivity].
    - destruct (P x); [by constructor|done].
    - destruct (P x), (P y); try done. constructor.
  Qed.
  Lemma symmetric_source conj expect l o : symmetric conj expect l -> symmetric conj expect (from_source o l).
  Proof.
    intros [Hp He]. split.
    - unfold from_source. etransitivity; [|apply perm_filter, Hp]. clear Hp He. induction l as [|[[p1 p2] o'] l IH]; [done|]. cbn [List.filter fmap list_fmap snd].
      destruct (bool_decide (o' = o)); [|exact IH]. cbn [fmap list_fmap]. apply Permutation_skip. exact IH.
    - intros p1 p2 o' Hx. apply He. unfold from_source in Hx. apply elem_of_list_In, filter_In in Hx as [Hx _]. by apply elem_of_list_In.
  Qed.
  (** Each source's share is Hermitian as well. *)
  Lemma C51_source_hermitian_lem conj cp adjust expect l nm coupling pm kP o p q :
    (forall k, conj (conj k) = k) -> real_system conj coupling -> symmetric conj expect l ->
    noise_map cp l = Ok nm -> NoDup coupling.*1 -> NoDup pm.*1 -> p ∈ pm.*1 -> q ∈ pm.*1 ->
    let c := (CSD_builds adjust expect nm coupling pm kP (conj kP)).2 in by_source c o (q, p) = cconj (by_source c o (p, q)).
  Proof.
    intros Hi Hr Hs Hn Hc Hm Hp Hq c. unfold c. apply (symmetric_source _ _ _ o) in Hs. apply elem_of_list_fmap in Hp as ([p' port] & -> & Hp). apply elem_of_list_fmap in Hq as ([q' port'] & -> & Hq). cbn [fst].
    rewrite (CSD_source_value cp adjust expect l nm coupling pm kP (conj kP) Hn Hc Hm o p' q' port port' Hp Hq).
    rewrite (CSD_source_value cp adjust expect l nm coupling pm kP (conj kP) Hn Hc Hm o q' p' port' port Hq Hp).
    assert (Huniq : p' = q' -> port = port').
    { intros ->. pose proof (dict_get_some _ _ _ Hm Hp) as E1. pose proof (dict_get_some _ _ _ Hm Hq) as E2. congruence. }
    change (port, conj kP) with (bar conj (port, kP)). change (port', conj kP) with (bar conj (port', kP)).
    rewrite (reported_density conj Hi) by (done || (intros E; by rewrite (Huniq (eq_sym E)))).
    rewrite (reported_density conj Hi) by (done || (intros E; by rewrite (Huniq E))). by apply density_conj.
  Qed.
  (** No combination of readouts has negative power. *)
  Lemma C51_positive_lem conj cp adjust psd conversion expect (ss : list (source Port Key Obj)) nm coupling pm kP (z : Name -> C_fld) :
    (forall k, conj (conj k) = k) -> real_system conj coupling -> (0 <= adjust)%R -> (0 < conversion)%R -> (forall o k, (0 <= psd o k)%R) ->
    Forall (source_expects psd conversion expect) ss -> noise_map cp (ss ≫= source_pairs conj) = Ok nm -> NoDup coupling.*1 -> NoDup pm.*1 ->
    let S := (CSD_builds adjust expect nm coupling pm kP (conj kP)).1 in
    exists r, (0 <= r)%R /\
      fsum (fun a => fsum (fun b => (z a.1 * cconj (z b.1) * default 0 (S !! (a.1, b.1)))%F) pm) pm = cre r.
  Proof.
    intros Hi Hr Ha Hv Hp He Hn Hc Hm S. set (l := ss ≫= source_pairs conj) in *.
    assert (Hs : symmetric conj expect l) by (by eapply sources_symmetric).
    assert (E : fsum (fun a => fsum (fun b => (z a.1 * cconj (z b.1) * default 0 (S !! (a.1, b.1)))%F) pm) pm =
      (fsum (fun a => fsum (fun b => (z a.1 * cconj (z b.1) * density adjust expect coupling l (a.2, kP) (b.2, conj kP))%F) pm) pm : C_fld)).
    { apply fsum_ext. intros [p port] Hp'. apply fsum_ext. intros [q port'] Hq'. cbn [fst snd]. f_equal. unfold S.
      rewrite (CSD_value cp adjust expect l nm coupling pm kP (conj kP) Hn Hc Hm p q port port' Hp' Hq'). cbn [from_option Datatypes.id].
      change (port', conj kP) with (bar conj (port', kP)). apply (reported_density conj Hi); [done|done|]. intros ->.
      pose proof (dict_get_some _ _ _ Hm Hp') as E1. pose proof (dict_get_some _ _ _ Hm Hq') as E2. congruence. }
    rewrite E, (form_density conj Hi) by done. by apply (sources_nn conj Hi adjust psd conversion expect ss _ Ha Hv Hp He).
  Qed.
End C51.
Lemma C51_ex_lem :
  NoDup ex_coupling.*1 /\ NoDup ex_pm.*1 /\ Forall (source_expects ex_psd 2 ex_expect) ex_ss /\ real_system negb ex_coupling /\
  (exists nm, noise_map ex_cp (ex_ss ≫= source_pairs negb) = Ok nm) /\ (forall o k, (0 <= ex_psd o k)%R) /\
  density 1 ex_expect ex_coupling (ex_ss ≫= source_pairs negb) (2, true) (3, false) = (- ci * cre (1 / 4))%F.
Proof.
  split; [vm_decide|]. split; [vm_decide|]. split; [by repeat constructor|]. split.
  { intros [a ka] [b kb]. unfold gain, ex_coupling, bar. cbn [fsum fst snd].
    destruct (decide (a = 0)) as [->|H0]; [destruct (decide (b = 2)) as [->|H2]; [|rewrite !(decide_False (P := _ = ((0, _), (b, _)))) by congruence]|].
    all: try (destruct ka, kb; cbn; apply pair2; simpl; lra).
    all: destruct (decide (a = 1)) as [->|H1]; [destruct (decide (b = 3)) as [->|H3]|].
    all: destruct ka, kb; repeat (rewrite decide_False by congruence); repeat (rewrite decide_True by done); apply pair2; simpl; lra. }
  split; [apply noise_map_ok; repeat constructor; cbn; eexists; split; try done; set_solver|].
  split; [intros; apply pos_INR|].
  unfold density, gain, ex_coupling, ex_ss.
  cbn.
  unfold ex_psd. simpl INR. apply pair2; simpl; field.
Qed.

(** C72 *)
Local Open Scope R_scope.
(** Changing the readout phase twice is changing it by the sum; zero changes nothing. *)
Lemma C72_rotations_lem a b m : AC_CSD_IQ b (AC_CSD_IQ a m) = AC_CSD_IQ (a + b) m /\ AC_CSD_IQ 0 m = m.
Proof. split; [apply rotate_compose|apply rotate_0]. Qed.
(** Trace, determinant and the ellipse axes do not depend on the readout phase. *)
Lemma C72_invariants_lem t m : let n := AC_CSD_IQ t m in
  (e00 n + e11 n = e00 m + e11 m)%F /\ (e00 n * e11 n - e01 n * e10 n = e00 m * e11 m - e01 m * e10 m)%F /\
  ell_min n = ell_min m /\ ell_max n = ell_max m.
Proof. split; [apply rotate_trace|]. split; [apply rotate_det|]. apply rotate_ell. Qed.
(** The noise at a phase is the quadratic form of its direction; it lies between the axes of the
    ellipse, and both are reached, a quarter turn apart. *)
Lemma C72_ellipse_lem m : fst (e01 m) = fst (e10 m) ->
  (forall t, fst (AC_PSD t m) = form m (cos (t * PI / 180)) (sin (t * PI / 180)) /\ ell_min m <= fst (AC_PSD t m) <= ell_max m) /\
  (ell_min m < ell_max m -> exists t, fst (AC_PSD t m) = ell_max m /\ fst (AC_PSD (t + 90) m) = ell_min m) /\
  ell_min m + ell_max m = fst (e00 m) + fst (e11 m) /\ ell_min m * ell_max m = fst (e00 m) * fst (e11 m) - fst (e10 m) * fst (e10 m).
Proof.
  intros Hs. split; [|split; [by apply attained|split; [apply ell_sum|by apply ell_prod]]]. intros t. split; [apply psd_form|by apply psd_bounds].
Qed.
(** The largest noise is found at minus the reported angle ... *)
Lemma C72_angle_lem m : fst (e01 m) = fst (e10 m) -> ell_min m < ell_max m -> fst (AC_PSD (- (180 * ell_rad m / PI)) m) = ell_max m.
Proof. intros. by apply ell_rad_max. Qed.
(** ... and not at the reported angle. *)
Lemma C72_angle_refuted_lem : exists m, spectrum m /\ ell_min m < ell_max m /\ fst (AC_PSD (180 * ell_rad m / PI) m) <> ell_max m.
Proof.
  exists ex_m. assert (Hs : spectrum ex_m) by (repeat split; simpl; lra).
  assert (Ed : ell_disc ex_m = 2). { unfold ell_disc. simpl. replace (_ + _) with (2 * 2) by ring. rewrite sqrt_square; lra. }
  assert (E1 : ell_min ex_m = 1) by (unfold ell_min; rewrite Ed; simpl; lra). assert (E2 : ell_max ex_m = 3) by (unfold ell_max; rewrite Ed; simpl; lra).
  split; [done|]. split; [lra|]. assert (Hl : ell_min ex_m < ell_max ex_m) by lra. rewrite psd_form.
  replace (180 * ell_rad ex_m / PI * PI / 180) with (ell_rad ex_m) by (field; apply PI_neq0).
  pose proof (rat_range ex_m (proj1 Hs) Hl) as Hr. pose proof (rat_sq ex_m (proj1 Hs) Hl) as Hq. pose proof (rat_cross ex_m (proj1 Hs) Hl) as Hc.
  unfold ell_rad. fold (rat ex_m). rewrite Rtrigo_facts.cos_pi_minus, Rtrigo_facts.sin_pi_minus, cos_acos, sin_acos by lra. unfold Rsqr, form.
  rewrite E1, E2 in *. simpl in Hq, Hc. simpl. assert (H1 : 0 <= 1 - rat ex_m * rat ex_m) by nra. rewrite (sqrt_sqrt _ H1). lra.
Qed.
(** Imin (Qmin) is the noise of I (Q) when the best multiple of the other is subtracted. *)
Lemma C72_conditional_lem m : spectrum m ->
  (forall x, ell_Imin m <= form m 1 x) /\ (exists x, form m 1 x = ell_Imin m) /\ (forall x, ell_Qmin m <= form m x 1) /\ (exists x, form m x 1 = ell_Qmin m).
Proof.
  intros Hs. split; [intros x; by apply Imin_form|]. split; [eexists; by apply (Imin_form m 0)|]. split; [intros x; by apply Qmin_form|]. eexists; by apply (Qmin_form m 0).
Qed.
(** No readout phase is more sensitive than the reported optimum, which is real and positive and
    does not depend on the phase used to obtain it. *)
Lemma C72_optimal_lem n s t : spectrum n -> s <> ((0, 0) : C_fld, (0, 0) : C_fld) ->
  snd (optimal2 n s) = 0 /\ 0 < fst (optimal2 n s) /\
  fst (optimal2 n s) * C_sq (AC_sensitivity_IQ t s.1 s.2).1 <= fst (AC_PSD t n) /\
  optimal2 (AC_CSD_IQ t n) (AC_sensitivity_IQ t s.1 s.2) = optimal2 n s.
Proof.
  intros Hn Hs. destruct (optimal_bound n s Hn t Hs) as (A & B & C). repeat split; try done. by apply (optimal_rotate n s t).
Qed.
(** The responses turn with the phase, keeping their total power. *)
Lemma C72_sensitivity_lem a b i q : let r := AC_sensitivity_IQ a i q in
  AC_sensitivity_IQ b r.1 r.2 = AC_sensitivity_IQ (a + b) i q /\ C_sq r.1 + C_sq r.2 = C_sq i + C_sq q.
Proof. split; [apply sens_compose|apply sens_power]. Qed.
Lemma C72_ex_lem : spectrum ex_m /\ ell_min ex_m < ell_max ex_m /\ ((cre 1, ci) : C_fld * C_fld) <> ((0, 0) : C_fld, (0, 0) : C_fld).
Proof.
  assert (Hs : spectrum ex_m) by (repeat split; simpl; lra). split; [done|]. split; [|intros [= E _]; lra].
  unfold ell_min, ell_max. assert (Ed : ell_disc ex_m = 2). { unfold ell_disc. simpl. replace (_ + _) with (2 * 2) by ring. rewrite sqrt_square; lra. } rewrite Ed. simpl. lra.
Qed.
