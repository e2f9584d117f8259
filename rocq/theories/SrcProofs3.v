(** Proofs about sources: shot noise, lasers, generators. *)
From Coq Require Import Reals Lra String.
From stdpp Require Import base tactics numbers gmap.
From Verif Require Import Fld Py Herm ElecModel ElecProofs InjModel InjSpec OptModel OptRot SigModel SigSpec SigProofs PdModel PdSpec PdProofs PdProofs2 PdProofs3 PdFinal NoiModel NoiSpec NoiFinal SrcModel SrcSpec SrcProofs SrcProofs2.
From stdpp Require Import list.
Local Open Scope fld_scope.

Add Field FSrc3 : (f_theory C_fld).
Section shot.
  Context {P A Q Obj : Type} `{Countable P} `{Countable A} `{Countable Q}.
  Context (qadd : Q -> Q -> Q) (qneg : Q -> Q) (q0 : Q) (Hz : Q -> R) (HF : frequencies qadd qneg q0 Hz).
  Context (reject : Q -> bool).
  Notation mode := (A * Q)%type.
  Notation node := (P * key A Q)%type.

  Lemma shot_density (x : gmap node C_fld) (fr w ba : P) (ms : list mode) ks wks baks r F
      (adjust h_Js c_m_s : R) (iwavelen : A -> R) (expect : Obj -> node -> node -> C_fld) coupling vs (o : P -> Obj) keys t :
    shines (field x) fr ms -> (forall m, m ∈ ms -> reject m.2 = false) -> signal_keys qneg wks -> F ∈ wks -> F <> q0 -> both ms ks ->
    pd qadd qneg reject fr w ba ks wks baks = Ok r ->
    (forall v, v ∈ vs -> keys v ≡ₚ keys_of ms /\ expect (o v) = vacuum_expect h_Js c_m_s iwavelen) ->
    reaches coupling r x vs fr w t ms F -> reaches coupling r x vs fr w t ms (qneg F) -> unitary vs t ms ->
    has_sidebands qadd (dark (field x) fr) ms F -> has_sidebands qadd (dark (field x) fr) ms (qneg F) ->
    density adjust expect coupling (vacua vs o keys) (w, cls F) (w, cls (qneg F)) = cre adjust * quanta h_Js c_m_s iwavelen ms (lower_at (field x) fr).
  Proof.
    intros Hs Hr [Hw Hwn] HFw HF0 Hb E Hv R1 R2 HU S1 S2.
    pose proof (sh_modes _ _ _ Hs) as Hnd. pose proof (sh_else _ _ _ Hs) as Helse.
    assert (HN : qneg F <> q0).
    { intros E0. apply HF0. rewrite <- (fq_nn qadd qneg q0 Hz HF F), E0. apply (fq_neg0 qadd qneg q0 Hz HF). }
    assert (Hnn : qneg (qneg F) = F) by apply (fq_nn qadd qneg q0 Hz HF).
    set (g := fun m : mode => cre (h_Js * c_m_s * iwavelen m.1) * (lower_at (field x) fr m * cconj (lower_at (field x) fr m))).
    assert (Hg : forall m, lower_at (field x) fr m = 0 -> g m = 0) by (intros m E0; unfold g; rewrite E0; ring).
    assert (T1 : fsum (fun m => g (m.1, qadd m.2 (qneg F))) ms = fsum g ms).
    { apply (shift_sum qadd qneg q0 Hz HF); [done|intros m N; apply Hg, Helse, N|]. intros m Hm. destruct (S1 m Hm); [left; by apply Hg|by right]. }
    assert (T2 : fsum (fun m => g (m.1, qadd m.2 F)) ms = fsum g ms).
    { transitivity (fsum (fun m => g (m.1, qadd m.2 (qneg (qneg F)))) ms); [by rewrite Hnn|]. apply (shift_sum qadd qneg q0 Hz HF); [done|intros m N; apply Hg, Helse, N|]. intros m Hm. destruct (S2 m Hm); [left; by apply Hg|by right]. }
    unfold density, vacua. rewrite fsum_bind.
    set (half := cre (1 / 2) : C_fld).
    assert (Hh : half + half = 1) by (unfold half; rewrite <- cre_add, one_cre; f_equal; lra).
    transitivity (fsum (fun v => fsum (fun m => cre adjust * half * (g (m.1, qadd m.2 (qneg F)) + g (m.1, qadd m.2 F)) * (t v m * cconj (t v m))) ms) vs).
    { apply fsum_ext. intros v Hvs. destruct (Hv v Hvs) as [Hk He]. unfold vacuum_pairs, pairs_single. rewrite fsum_map, (fsum_perm _ _ _ Hk).
      unfold keys_of. rewrite fsum_app, !fsum_map, <- fsum_add. apply fsum_ext. intros m Hm. rewrite He.
      destruct (R1 v m Hvs Hm) as [-> ->]. destruct (R2 v m Hvs Hm) as [A1 A2].
      cbn [quantum_swap opt fst snd negb]. unfold quantum_swap, opt in *. cbn [fst snd negb]. rewrite A1, A2.
      destruct (resp_unit qadd qneg q0 Hz HF reject fr w ba x ms ks wks baks r m F) as [B1 B2]; try done.
      destruct (resp_unit qadd qneg q0 Hz HF reject fr w ba x ms ks wks baks r m (qneg F)) as [C1 C2]; try done; [by apply Hwn|].
      unfold opt in *. rewrite B1, B2, C1, C2, Hnn. unfold vacuum_expect. cbn [fst snd].
      assert (cre (h_Js * c_m_s * iwavelen m.1 / 2) = cre (h_Js * c_m_s * iwavelen m.1) * half) as -> by (unfold half; rewrite <- cre_mul; f_equal; lra).
      unfold g. cbn [fst]. ring. }
    rewrite fsum_swap.
    transitivity (fsum (fun m => cre adjust * half * (g (m.1, qadd m.2 (qneg F)) + g (m.1, qadd m.2 F))) ms).
    { apply fsum_ext. intros m Hm. rewrite fsum_mul_l, (HU m Hm). ring. }
    rewrite fsum_mul_l, fsum_add, T1, T2. unfold quanta. fold g. transitivity (cre adjust * (half + half) * fsum g ms); [ring|]. rewrite Hh. ring.
  Qed.
  Lemma quanta_real h_Js c_m_s iwavelen ms (a : mode -> C_fld) : real_part (quanta h_Js c_m_s iwavelen ms a) = quanta h_Js c_m_s iwavelen ms a.
  Proof.
    unfold quanta. assert (Ha : forall u v, real_part (u + v) = real_part u + real_part v) by (intros [u1 u2] [v1 v2]; unfold real_part; by rewrite <- cre_add).
    induction ms as [|m ms IH]; cbn [fsum]; [done|]. rewrite Ha, IH. f_equal. destruct (a m) as [u v]. unfold real_part, cre, C_of, cconj, C_conj. cbn. unfold C_mul. cbn. f_equal; ring.
  Qed.
End shot.

Section laser.
  Context {P A Q : Type} `{Countable P} `{Countable A} `{Countable Q}.
  Lemma laser_at P_W phase l : source_at (laser_sources P_W phase) l = cre (R_sqrt.sqrt P_W) * cis (if l then the_phase phase else - the_phase phase).
  Proof.
    unfold source_at, laser_sources, the_phase. destruct phase as [p|], l; cbn [fsum fst snd default]; repeat case_decide; try done; unfold Datatypes.id; rewrite ?Ropp_0, ?cis_0; ring.
  Qed.
  Lemma lases_shines (x : P * key A Q -> C_fld) p P_W phase m0 ms : lases x p P_W phase m0 -> NoDup ms -> m0 ∈ ms -> shines x p ms.
  Proof.
    intros Hl Hn Hm. split; [done| |].
    - intros m N. unfold lower_at. rewrite Hl, decide_False by (by intros ->). done.
    - intros m. unfold lower_at, raise_at. rewrite !Hl. destruct (decide _); [|symmetry; exact (conj_0 C_herm)].
      rewrite !laser_at, cconj_mul, cconj_cre, conj_cis. done.
  Qed.
  Lemma lases_power (x : P * key A Q -> C_fld) p P_W phase m0 ms : lases x p P_W phase m0 -> (0 <= P_W)%R -> NoDup ms -> m0 ∈ ms ->
    fsum (fun m => lower_at x p m * cconj (lower_at x p m)) ms = cre P_W.
  Proof.
    intros Hl HP Hn Hm.
    transitivity (fsum (fun m => if decide (m = m0) then cre P_W else 0) ms).
    - apply fsum_ext. intros m _. unfold lower_at. rewrite Hl. destruct (decide (m = m0)); [|ring].
      rewrite laser_at, cconj_mul, cconj_cre.
      transitivity (cre (R_sqrt.sqrt P_W) * cre (R_sqrt.sqrt P_W) * (cis (the_phase phase) * cconj (cis (the_phase phase)))); [ring|].
      rewrite <- cre_mul, sqrt_sqrt, conj_cis, <- cis_add by done. replace (the_phase phase + - the_phase phase)%R with 0%R by ring. rewrite cis_0. ring.
    - rewrite (fsum_delta _ (fun _ => cre P_W)), decide_True by done. done.
  Qed.
  Lemma lases_light Hz (x : P * key A Q -> C_fld) p P_W phase m0 ms t : lases x p P_W phase m0 -> NoDup ms -> m0 ∈ ms ->
    light Hz ms (lower_at x p) m0.1 t = cre (R_sqrt.sqrt P_W) * cis (2 * PI * Hz m0.2 * t + the_phase phase).
  Proof.
    intros Hl Hn Hm. unfold light.
    transitivity (fsum (fun m => if decide (m = m0) then cre (R_sqrt.sqrt P_W) * cis (2 * PI * Hz m0.2 * t + the_phase phase) else 0) ms).
    - apply fsum_ext. intros m _. unfold lower_at. rewrite Hl. destruct (decide (m = m0)) as [-> |].
      + rewrite decide_True by done. rewrite laser_at, cis_add. ring.
      + destruct (decide _); ring.
    - rewrite (fsum_delta _ (fun _ => _)), decide_True by done. done.
  Qed.
  Lemma lases_intensity Hz (x : P * key A Q -> C_fld) p P_W phase m0 ms os t : lases x p P_W phase m0 -> (0 <= P_W)%R -> NoDup ms -> m0 ∈ ms -> carriers os ms ->
    intensity Hz os ms (lower_at x p) t = cre P_W.
  Proof.
    intros Hl HP Hn Hm [Ho Hc]. unfold intensity, beat.
    transitivity (fsum (fun o => if decide (o = m0.1) then cre P_W else 0) os).
    - apply fsum_ext. intros o _. destruct (decide (o = m0.1)) as [-> |N].
      + rewrite (lases_light Hz x p P_W phase m0) by done. rewrite cconj_mul, cconj_cre, conj_cis. set (u := (2 * PI * Hz m0.2 * t + the_phase phase)%R).
        transitivity (cre (R_sqrt.sqrt P_W) * cre (R_sqrt.sqrt P_W) * (cis u * cis (- u))); [ring|].
        rewrite <- cre_mul, sqrt_sqrt, <- cis_add by done. replace (u + - u)%R with 0%R by ring. rewrite cis_0. ring.
      + assert (light Hz ms (lower_at x p) o t = 0) as ->; [|ring]. apply fsum_0. intros m _. destruct (decide (m.1 = o)) as [E|]; [|done].
        unfold lower_at. rewrite Hl, decide_False by congruence. ring.
    - rewrite (fsum_delta _ (fun _ => cre P_W)), decide_True by (try apply Hc; done). done.
  Qed.
End laser.

Section generator.
  Context {Q : Type} `{Countable Q}.
  Context (qadd : Q -> Q -> Q) (qneg : Q -> Q) (q0 : Q) (Hz : Q -> R) (qmul : Z -> Q -> Q).
  Context (HF : frequencies qadd qneg q0 Hz) (HM : multiples qneg Hz qmul).
  Lemma gen_out (g : generator Q) ks t : NoDup ks -> g_key g ∈ ks -> qneg (g_key g) ∈ ks -> amplitudeC g = cconj (g_amplitude g) ->
    wave q0 Hz ks (gen_at qneg qmul g PsOut) t =
    (if decide (g_key g = q0) then 1 + 1 else 1) * real_part (g_amplitude g * cis (2 * PI * Hz (g_key g) * t + the_phase (g_phase g))).
  Proof.
    intros Hn H1 H2 Ec. rewrite (wave_two qadd qneg q0 Hz HF _ ks (g_key g) (gen_cplg g 1 * g_amplitude g)); [|done..|].
    - rewrite cplg_eq, cis_add, Rmult_1_l. do 2 f_equal. ring.
    - intros k. rewrite at_out, cplgC_eq, Ec, cconj_mul. done.
  Qed.
  Lemma gen_harm (g : generator Q) n z ks t : dict_ok g -> (n, z) ∈ g_harmonics g -> NoDup ks -> qmul n (g_key g) ∈ ks -> qneg (qmul n (g_key g)) ∈ ks ->
    wave q0 Hz ks (gen_at qneg qmul g (OutH n)) t =
    (if decide (qmul n (g_key g) = q0) then 1 + 1 else 1) * real_part (z * cis (IZR n * (2 * PI * Hz (g_key g) * t + the_phase (g_phase g)))).
  Proof.
    intros Hd Hz' Hn H1 H2. rewrite (wave_two qadd qneg q0 Hz HF _ ks (qmul n (g_key g)) (gen_cplg g n * z)); [|done..|].
    - rewrite cplg_eq, (proj1 HM), Rmult_plus_distr_l, cis_add. do 2 f_equal.
      replace (2 * PI * (IZR n * Hz (g_key g)) * t)%R with (IZR n * (2 * PI * Hz (g_key g) * t))%R by ring. ring.
    - intros k. rewrite (at_harm qneg Hz qmul HM g n z k Hd Hz'), cplgC_eq, cconj_mul. done.
  Qed.
  Lemma gen_real (g : generator Q) p k : dict_ok g -> amplitudeC g = cconj (g_amplitude g) ->
    gen_at qneg qmul g p (qneg k) = cconj (gen_at qneg qmul g p k).
  Proof.
    intros Hd Ec.
    assert (T : forall f z, (if decide (f = qneg k) then z else 0) + (if decide (qneg f = qneg k) then cconj z else 0) =
      cconj ((if decide (f = k) then z else 0) + (if decide (qneg f = k) then cconj z else 0))).
    { intros f z. assert (Hnn : forall q, qneg (qneg q) = q) by apply (fq_nn qadd qneg q0 Hz HF).
      rewrite cconj_add. assert (E1 : (f = qneg k) <-> (qneg f = k)) by (split; intros E'; [rewrite E'; apply Hnn|rewrite <- E'; symmetry; apply Hnn]).
      assert (E2 : (qneg f = qneg k) <-> (f = k)) by (split; intros E'; [rewrite <- (Hnn f), E'; apply Hnn|by rewrite E']).
      rewrite (decide_ext _ _ _ _ E1), (decide_ext _ _ _ _ E2).
      destruct (decide (f = k)), (decide (qneg f = k)); rewrite ?cconj_conj, ?(conj_0 C_herm : cconj 0 = 0); ring. }
    destruct p as [|n].
    - rewrite !at_out, cplgC_eq, Ec, <- cconj_mul. apply T.
    - destruct (decide (n ∈ (g_harmonics g).*1)) as [Hi|N].
      + apply elem_of_list_fmap in Hi as [[n' z] [-> Hi]]. rewrite !(at_harm qneg Hz qmul HM g n' z) by done. rewrite !cplgC_eq, <- cconj_mul. apply T.
      + rewrite !at_else by done. symmetry. exact (conj_0 C_herm).
  Qed.
  Lemma gen_requested (g : generator Q) : (gen_sources qneg qmul g).*1 = gen_needed qneg qmul g.
  Proof.
    unfold gen_sources, gen_needed. rewrite fmap_app. f_equal. induction (g_harmonics g) as [|h l IH]; [done|]. cbn. do 2 f_equal. exact IH.
  Qed.
End generator.
