(** Proofs about the homodyne readout: phase, powers, the common output and the noise of vacuum. *)
From stdpp Require Import base tactics numbers gmap sets list.
From Coq Require Import Reals Lra.
From Verif Require Import Fld Py Herm ElecModel ElecProofs InjModel InjSpec OptModel OptRot SigModel SigSpec SigProofs NoiModel NoiSpec NoiProofs3 PdModel PdSpec PdProofs PdProofs2 PdProofs3 SrcModel SrcSpec SrcProofs HomModel HomSpec HomProofs HomProofs2.
Local Open Scope fld_scope.
Add Field FCHom3 : (f_theory C_fld).

Lemma real_part_id z : cconj z = z -> real_part z = z.
Proof. destruct z as [u v]. unfold cconj, C_conj, real_part, cre, C_of. cbn. intros [= E]. f_equal. lra. Qed.
Lemma re_cre (c : R) z : real_part (cre c * z) = cre c * real_part z.
Proof. destruct z as [u v]. unfold real_part, cre, C_of. cbn. unfold C_mul. cbn. f_equal; ring. Qed.
Lemma re_conj z : real_part (cconj z) = real_part z.
Proof. by destruct z. Qed.

(** *** the phase *)
Lemma stdcplg_eq p : stdcplg p = cis (p / 360 * (2 * PI)).
Proof.
  unfold stdcplg. repeat destruct (Req_EM_T _ _); try done.
  - subst p. replace (0 / 360 * (2 * PI))%R with 0%R by field. by rewrite cis_0.
  - unfold cis, ci. assert (p = 90 \/ p = -270)%R as [-> | ->].
    { destruct (Rcase_abs (p + 90)) as [Hl|Hl]; [rewrite Rabs_left in e by done; right; lra|rewrite Rabs_right in e by done; left; lra]. }
    + replace (90 / 360 * (2 * PI))%R with (PI / 2)%R by field. by rewrite cos_PI2, sin_PI2.
    + replace (-270 / 360 * (2 * PI))%R with (- (3 * (PI / 2)))%R by field. rewrite cos_neg, sin_neg.
      rewrite cos_3PI2, sin_3PI2. f_equal. lra.
  - unfold cis. assert (p = 180 \/ p = -180)%R as [-> | ->].
    { destruct (Rcase_abs p) as [Hl|Hl]; [rewrite Rabs_left in e by done; right; lra|rewrite Rabs_right in e by done; left; lra]. }
    + replace (180 / 360 * (2 * PI))%R with PI by field. rewrite cos_PI, sin_PI. cbn. unfold C_opp. cbn. f_equal. lra.
    + replace (-180 / 360 * (2 * PI))%R with (- PI)%R by field. rewrite cos_neg, sin_neg, cos_PI, sin_PI. cbn. unfold C_opp. cbn. f_equal; lra.
  - unfold cis, ci. assert (p = 270 \/ p = -90)%R as [-> | ->].
    { destruct (Rcase_abs (p - 90)) as [Hl|Hl]; [rewrite Rabs_left in e by done; right; lra|rewrite Rabs_right in e by done; left; lra]. }
    + replace (270 / 360 * (2 * PI))%R with (3 * (PI / 2))%R by field. rewrite cos_3PI2, sin_3PI2. cbn. unfold C_opp. cbn. f_equal; lra.
    + replace (-90 / 360 * (2 * PI))%R with (- (PI / 2))%R by field. rewrite cos_neg, sin_neg, cos_PI2, sin_PI2. cbn. unfold C_opp. cbn. f_equal; lra.
Qed.
Lemma stdcplgC_eq p : stdcplgC p = cconj (stdcplg p).
Proof.
  rewrite stdcplg_eq. unfold stdcplgC. repeat destruct (Req_EM_T _ _).
  - rewrite <- stdcplg_eq. unfold stdcplg. destruct (Req_EM_T p 0); [|done]. symmetry. apply cconj_1.
  - rewrite <- stdcplg_eq. unfold stdcplg. destruct (Req_EM_T p 0); [done|]. destruct (Req_EM_T (Rabs (p + 90)) 180); [|done]. symmetry. apply cconj_ci.
  - rewrite <- stdcplg_eq. unfold stdcplg. destruct (Req_EM_T p 0); [done|]. destruct (Req_EM_T (Rabs (p + 90)) 180); [done|]. destruct (Req_EM_T (Rabs p) 180); [|done].
    unfold cconj, C_conj. cbn. unfold C_opp. cbn. f_equal. lra.
  - rewrite <- stdcplg_eq. unfold stdcplg. destruct (Req_EM_T p 0); [done|]. destruct (Req_EM_T (Rabs (p + 90)) 180); [done|]. destruct (Req_EM_T (Rabs p) 180); [done|]. destruct (Req_EM_T (Rabs (p - 90)) 180); [|done].
    unfold cconj, C_conj, ci. cbn. unfold C_opp. cbn. f_equal; lra.
  - rewrite conj_cis. f_equal. field.
Qed.
Lemma stdcplg_unit p : stdcplg p * cconj (stdcplg p) = 1.
Proof. rewrite stdcplg_eq, conj_cis, <- cis_add, Rplus_opp_r. apply cis_0. Qed.

Section hom.
  Context {P A Q : Type} `{Countable P} `{Countable A} `{Countable Q}.
  Context (qadd : Q -> Q -> Q) (qneg : Q -> Q) (q0 : Q) (Hz : Q -> R).
  Context (reject : Q -> bool).
  Notation mode := (A * Q)%type.
  Notation node := (P * key A Q)%type.
  Notation e f t := (cis (2 * PI * Hz f * t)).

  Lemma hd_hermitian tiny phase_deg h_Js c_m_s (iwavelen : A -> R) (pk_tot pk_in : node) I_ Q_ quanta relative (h : hout P A Q) :
    h ∈ hd_outs tiny phase_deg h_Js c_m_s iwavelen pk_tot pk_in I_ Q_ quanta relative -> hermitian h.
  Proof.
    assert (H1' : forall o : A, cconj (one_adjust o) = one_adjust o) by (intros o; apply cconj_1).
    assert (H2' : forall o : A, cconj (quanta_adjust h_Js c_m_s iwavelen o) = quanta_adjust h_Js c_m_s iwavelen o) by (intros o; apply cconj_cre).
    assert (HI : forall s, - ci * stdcplgC s = cconj (ci * stdcplg s)) by (intros s; by rewrite cconj_mul, cconj_ci, stdcplgC_eq).
    unfold hd_outs. cbv zeta. intros Hh. rewrite !elem_of_app in Hh. destruct Hh as [Hh|[Hh|Hh]].
    - repeat (apply elem_of_cons in Hh as [-> |Hh]; [by split; cbn; [auto using stdcplgC_eq|]|]). by apply elem_of_nil in Hh.
    - destruct quanta as [[qI qQ]|]; [|by apply elem_of_nil in Hh].
      repeat (apply elem_of_cons in Hh as [-> |Hh]; [by split; cbn; [auto using stdcplgC_eq|]|]). by apply elem_of_nil in Hh.
    - destruct relative as [[qI qQ]|]; [|by apply elem_of_nil in Hh].
      repeat (apply elem_of_cons in Hh as [-> |Hh]; [by split; cbn; [auto using stdcplgC_eq|]|]). by apply elem_of_nil in Hh.
  Qed.

  (** *** the total power *)
  Lemma power_sum (c : A -> C_fld) x port wpd (ms : list mode) ks : shines x port ms -> both ms ks ->
    arrives ((fun '(l, o, f) => MultiplicativeEdge (port, opt l o f) (wpd, cls q0) (1 / two_c * c o) [(port, opt (negb l) o f)]) <$> ks) x (wpd : P, cls q0) =
    fsum (fun m => c m.1 * (lower_at x port m * cconj (lower_at x port m))) ms.
  Proof.
    intros Hs Hb. rewrite arrives_eq, fsum_map.
    rewrite (fsum_ext _ (fun k : bool * A * Q => let '(l, o, f) := k in 1 / two_c * c o * x (port, opt (negb l) o f) * x (port, opt l o f))).
    - rewrite (both_sum ms ks _ Hb), <- fsum_add. apply fsum_ext. intros [o f] _. cbn [fst snd negb].
      change (x (port, opt true o f)) with (lower_at x port (o, f)). change (x (port, opt false o f)) with (raise_at x port (o, f)). rewrite (sh_conj _ _ _ Hs).
      change two_c with (1 + 1 : C_fld). field. apply two_neq.
    - intros [[l o] f] _. unfold Warr. cbn [target amount foldr]. rewrite decide_True by done. ring.
  Qed.
  Lemma wpd_lem x port wpd (ms : list mode) ks : shines x port ms -> both ms ks ->
    arrives (total_power q0 port wpd ks) x (wpd : P, cls q0) = power ms (lower_at x port).
  Proof.
    intros Hs Hb. transitivity (fsum (fun m : mode => 1 * (lower_at x port m * cconj (lower_at x port m))) ms).
    - rewrite <- (power_sum (fun _ => 1) x port wpd ms ks Hs Hb). unfold total_power. f_equal. apply list_fmap_ext. intros _ [[l o] f] _. f_equal. ring.
    - unfold power. apply fsum_ext. intros m _. ring.
  Qed.
  Lemma quanta_lem h_Js c_m_s (iwavelen : A -> R) x port qp (ms : list mode) ks : shines x port ms -> both ms ks -> (forall o, h_Js * c_m_s * iwavelen o <> 0)%R ->
    arrives (total_quanta q0 h_Js c_m_s iwavelen port qp ks) x (qp : P, cls q0) = cre 2 * fsum (fun m => lower_at x port m * cconj (lower_at x port m) / cre (h_Js * c_m_s * iwavelen m.1)) ms.
  Proof.
    intros Hs Hb Hn. transitivity (fsum (fun m : mode => 1 / cre (h_Js * c_m_s * iwavelen m.1 / 2) * (lower_at x port m * cconj (lower_at x port m))) ms).
    - rewrite <- (power_sum (fun o => 1 / cre (h_Js * c_m_s * iwavelen o / 2)) x port qp ms ks Hs Hb). unfold total_quanta. f_equal. apply list_fmap_ext. intros _ [[l o] f] _. f_equal.
      rewrite !(Fdiv_def (f_theory C_fld)). ring.
    - rewrite <- fsum_mul_l. apply fsum_ext. intros m _.
      assert (Hne : forall c : R, c <> 0%R -> cre c <> 0) by (intros c Hc [=]; done).
      assert (cre (h_Js * c_m_s * iwavelen m.1) = cre 2 * cre (h_Js * c_m_s * iwavelen m.1 / 2)) as -> by (rewrite <- cre_mul; f_equal; field).
      specialize (Hn m.1). field. split; apply Hne; lra.
  Qed.
  Context (HF : frequencies qadd qneg q0 Hz).
  Context (root : C_fld -> C_fld) (pk : node) (fr_i fr_o bk_i bk_o src : P) (outputs : list (hout P A Q)) (cmn : P * list Q).
  Context (srcks frks bkks : list (bool * A * Q)) (msb msa : list mode) (r : list (inj C_fld P (key A Q))) (x : gmap node C_fld) (big : C_fld).
  Context (HW : wired qneg outputs cmn) (Hb : both msb srcks) (E : homodyne qadd qneg reject root pk fr_i fr_o bk_i bk_o src outputs cmn srcks frks bkks = Ok r).

  (** *** the common output *)
  Lemma product_self os (ms : list mode) (a : mode -> C_fld) t : product Hz os ms ms a a t = intensity Hz os ms a t /\ cconj (intensity Hz os ms a t) = intensity Hz os ms a t.
  Proof.
    split; [done|]. unfold intensity, beat. rewrite cconj_fsum. apply fsum_ext. intros o _. rewrite cconj_mul, cconj_conj. ring.
  Qed.
  Lemma common_lem v osa osb t : shines (field x) src msb -> shines (field x) fr_i msa -> (forall m, m ∈ msa -> reject m.2 = false) -> (forall m, m ∈ msb -> reject m.2 = false) -> both msa frks ->
    x !! pk = Some v -> carriers osa msa -> carriers osb msb ->
    covers qadd qneg msa msa (lower_at (field x) fr_i) (lower_at (field x) fr_i) cmn.2 -> covers qadd qneg msb msb (lower_at (field x) src) (lower_at (field x) src) cmn.2 ->
    plain Hz cmn.2 (fun F => reads big r x (cmn.1, cls F)) t =
    (intensity Hz osa msa (lower_at (field x) fr_i) t + if decide (src <> fr_i) then intensity Hz osb msb (lower_at (field x) src) t else 0) / root v.
  Proof.
    intros Hsb Hsa Hra Hrb Hba Hv Hca Hcb Hva Hvb.
    assert (G : forall p ms os, shines (field x) p ms -> (forall m, m ∈ ms -> reject m.2 = false) -> carriers os ms -> covers qadd qneg ms ms (lower_at (field x) p) (lower_at (field x) p) cmn.2 ->
      plain Hz cmn.2 (fun F => fsum (fun m => if reject (qadd m.2 F) then 0 else 1 / two_c * (field x (p, opt true m.1 (qadd m.2 F)) * field x (p, opt false m.1 m.2) / root v)) ms +
        fsum (fun m => if reject (qadd m.2 (qneg F)) then 0 else 1 / two_c * (field x (p, opt false m.1 (qadd m.2 (qneg F))) * field x (p, opt true m.1 m.2) / root v)) ms) t = intensity Hz os ms (lower_at (field x) p) t / root v).
    { intros p ms os Hs Hr Hc Hcov. set (a := lower_at (field x) p) in *. destruct (product_self os ms a t) as [Ep Ec].
      transitivity (1 / (1 + 1) * (product Hz os ms ms a a t + cconj (product Hz os ms ms a a t)) / root v).
      2: { rewrite Ep, Ec. rewrite !(Fdiv_def (f_theory C_fld)). transitivity (intensity Hz os ms a t * finv (root v) * ((1 + 1) * finv (1 + 1))); [ring|].
           assert ((1 + 1) * finv (1 + 1) = (1 : C_fld)) as -> by (field; apply two_neq). ring. }
      rewrite <- (D2_conj qadd qneg q0 Hz HF os ms ms cmn.2 a a t), <- (D2_sum qadd qneg q0 Hz HF os ms ms cmn.2 a a t); try done;
        [|apply (wi_ckeys _ _ _ HW)|apply (sh_modes _ _ _ Hs)|apply (sh_else _ _ _ Hs)|apply (wi_ckeys _ _ _ HW)|apply (sh_modes _ _ _ Hs)|apply (sh_else _ _ _ Hs)].
      unfold plain. rewrite <- fsum_add, <- fsum_mul_l, (Fdiv_def (f_theory C_fld) (fsum _ _)), <- fsum_mul_r. apply fsum_ext. intros F _.
      transitivity ((1 / (1 + 1) * D2 qadd ms a a F / root v + 1 / (1 + 1) * cconj (D2 qadd ms a a (qneg F)) / root v) * e F t); [|rewrite !(Fdiv_def (f_theory C_fld)); ring].
      f_equal. unfold D2. rewrite cconj_fsum, <- !fsum_mul_l, !(Fdiv_def (f_theory C_fld) (fsum _ _)), <- !fsum_mul_r.
      f_equal; apply fsum_ext; intros [o f] _; cbn [fst snd]; change two_c with (1 + 1 : C_fld).
      - change (field x (p, opt true o (qadd f F))) with (a (o, qadd f F)). change (field x (p, opt false o f)) with (raise_at (field x) p (o, f)). rewrite (sh_conj _ _ _ Hs).
        destruct (reject (qadd f F)) eqn:Er; [|unfold a; rewrite !(Fdiv_def (f_theory C_fld)); ring].
        unfold a. rewrite (sh_else _ _ _ Hs (o, qadd f F)); [ring|]. intros Hin. apply Hr in Hin. cbn in Hin. congruence.
      - change (field x (p, opt false o (qadd f (qneg F)))) with (raise_at (field x) p (o, qadd f (qneg F))). change (field x (p, opt true o f)) with (a (o, f)). rewrite (sh_conj _ _ _ Hs), cconj_mul, cconj_conj.
        destruct (reject (qadd f (qneg F))) eqn:Er; [|unfold a; rewrite !(Fdiv_def (f_theory C_fld)); ring].
        unfold a. rewrite (sh_else _ _ _ Hs (o, qadd f (qneg F))); [rewrite (conj_0 C_herm : cconj 0 = 0); ring|]. intros Hin. apply Hr in Hin. cbn in Hin. congruence. }
    rewrite dist_d, <- (G fr_i msa osa) by done.
    assert (G2 : (if decide (src <> fr_i) then intensity Hz osb msb (lower_at (field x) src) t else 0) / root v = plain Hz cmn.2 (fun F => if decide (src <> fr_i) then
        fsum (fun m => if reject (qadd m.2 F) then 0 else 1 / two_c * (field x (src, opt true m.1 (qadd m.2 F)) * field x (src, opt false m.1 m.2) / root v)) msb +
        fsum (fun m => if reject (qadd m.2 (qneg F)) then 0 else 1 / two_c * (field x (src, opt false m.1 (qadd m.2 (qneg F))) * field x (src, opt true m.1 m.2) / root v)) msb else 0) t).
    { destruct (decide (src <> fr_i)); [by rewrite <- (G src msb osb)|]. unfold plain. rewrite fsum_0 by (intros; ring). rewrite (Fdiv_def (f_theory C_fld)). ring. }
    rewrite G2. clear G G2. unfold plain. rewrite <- fsum_add. apply fsum_ext. intros F HFk. rewrite <- dist_m. f_equal. rewrite reads_eq.
    rewrite (common_at qadd qneg q0 Hz HF reject _ F _ _ root pk fr_i fr_o bk_i bk_o src outputs cmn srcks frks bkks msb msa r (reads_sees big x cmn.1 F)); try done;
      [|apply (wired_keys qneg outputs cmn HW)|apply (wi_ckeys _ _ _ HW)|apply (wi_common _ _ _ HW)].
    assert (sget x pk big = v) as -> by (unfold sget; by rewrite Hv). done.
  Qed.

  (** *** the noise of vacuum *)
  Context {Obj : Type}.
  Lemma vac_density h1 h2 N1 N2 (ms : list mode) F (adjust h_Js c_m_s : R) (iwavelen : A -> R) (expect : Obj -> node -> node -> C_fld) coupling vs (o : P -> Obj) keys t :
    shines (field x) src msb -> src <> fr_i -> h1 ∈ outputs -> h2 ∈ outputs -> hermitian h1 -> hermitian h2 -> norm_of h1 x N1 -> norm_of h2 x N2 -> N1 <> 0 -> N2 <> 0 -> F ∈ h_keys h1 -> F ∈ h_keys h2 ->
    NoDup ms -> (forall m, m ∈ ms -> reject m.2 = false) ->
    (forall v, v ∈ vs -> keys v ≡ₚ keys_of ms /\ expect (o v) = vacuum_expect h_Js c_m_s iwavelen) ->
    reaches coupling r x vs fr_i (h_port h1) t ms F -> reaches coupling r x vs fr_i (h_port h2) t ms (qneg F) -> unitary vs t ms ->
    sidebands_in qadd msb ms (lower_at (field x) src) F -> sidebands_in qadd msb ms (lower_at (field x) src) (qneg F) ->
    density adjust expect coupling (vacua vs o keys) (h_port h1, cls F) (h_port h2, cls (qneg F)) =
    cre (adjust / 2) * real_part (h_Std h1 * cconj (h_Std h2)) * fsum (fun m => cre (h_Js * c_m_s * iwavelen m.1 / 2) * (h_adjust h1 m.1 * h_adjust h2 m.1) * (lower_at (field x) src m * cconj (lower_at (field x) src m))) msb / (N1 * N2).
  Proof.
    intros Hs Hne Hh1 Hh2 He1 He2 HN1 HN2 Hn1 Hn2 HF1 HF2 Hnd Hr Hv R1 R2 HU S1 S2.
    pose proof (sh_modes _ _ _ Hs) as Hndb. pose proof (sh_else _ _ _ Hs) as Helse.
    assert (Hnn : qneg (qneg F) = F) by apply (fq_nn qadd qneg q0 Hz HF).
    set (b := lower_at (field x) src) in *.
    set (g := fun m : mode => cre (h_Js * c_m_s * iwavelen m.1 / 2) * (h_adjust h1 m.1 * h_adjust h2 m.1) * (b m * cconj (b m))).
    assert (Hg : forall m, b m = 0 -> g m = 0) by (intros m E0; unfold g; rewrite E0; ring).
    assert (T1 : fsum (fun m => g (m.1, qadd m.2 (qneg F))) ms = fsum g msb).
    { apply (shift_sum2 qadd qneg q0 Hz HF); try done; [intros m N; apply Hg, Helse, N|]. intros m Hm. destruct (S1 m Hm); [left; by apply Hg|by right]. }
    assert (T2 : fsum (fun m => g (m.1, qadd m.2 F)) ms = fsum g msb).
    { transitivity (fsum (fun m => g (m.1, qadd m.2 (qneg (qneg F)))) ms); [by rewrite Hnn|]. apply (shift_sum2 qadd qneg q0 Hz HF); try done; [intros m N; apply Hg, Helse, N|]. intros m Hm. destruct (S2 m Hm); [left; by apply Hg|by right]. }
    unfold density, vacua. rewrite fsum_bind.
    set (u := h_Std h1 * cconj (h_Std h2)). set (q := 1 / two_c * (1 / two_c) / (N1 * N2) : C_fld).
    transitivity (fsum (fun v => fsum (fun m => cre adjust * q * (u * g (m.1, qadd m.2 (qneg F)) + cconj u * g (m.1, qadd m.2 F)) * (t v m * cconj (t v m))) ms) vs).
    { apply fsum_ext. intros v Hvs. destruct (Hv v Hvs) as [Hk He]. unfold vacuum_pairs, pairs_single. rewrite fsum_map, (fsum_perm _ _ _ Hk).
      unfold keys_of. rewrite fsum_app, !fsum_map, <- fsum_add. apply fsum_ext. intros m Hm. rewrite He.
      destruct (R1 v m Hvs Hm) as [-> ->]. destruct (R2 v m Hvs Hm) as [A1 A2].
      cbn [quantum_swap opt fst snd negb]. unfold quantum_swap, opt in *. cbn [fst snd negb]. rewrite A1, A2.
      destruct (vac_unit qadd qneg q0 Hz HF reject root pk fr_i fr_o bk_i bk_o src outputs cmn srcks frks bkks msb r x HW Hb E h1 N1 F m) as [B1 B2]; try done; [by apply Hr|].
      destruct (vac_unit qadd qneg q0 Hz HF reject root pk fr_i fr_o bk_i bk_o src outputs cmn srcks frks bkks msb r x HW Hb E h2 N2 (qneg F) m) as [C1 C2]; try done; [by apply (wi_keys _ _ _ HW h2 Hh2)|by apply Hr|].
      unfold opt in *. rewrite B1, B2, C1, C2, Hnn. unfold vacuum_expect. cbn [fst snd]. fold b. unfold g, u, q. cbn [fst].
      destruct He1 as [-> _], He2 as [-> _]. rewrite cconj_mul, cconj_conj, !(Fdiv_def (f_theory C_fld)).
      assert (Hi : finv (N1 * N2) = finv N1 * finv N2) by (field; done). rewrite Hi. ring. }
    rewrite fsum_swap.
    transitivity (fsum (fun m => cre adjust * q * (u * g (m.1, qadd m.2 (qneg F)) + cconj u * g (m.1, qadd m.2 F))) ms).
    { apply fsum_ext. intros m Hm. rewrite fsum_mul_l, (HU m Hm). ring. }
    rewrite fsum_mul_l, fsum_add, !fsum_mul_l, T1, T2.
    transitivity (cre adjust * q * (u + cconj u) * fsum g msb); [ring|]. rewrite re_double. unfold q. change two_c with (1 + 1 : C_fld).
    assert (cre (adjust / 2) = cre adjust * (1 / (1 + 1))) as ->.
    { assert (Htw : (1 + 1 : C_fld) = cre 2) by (rewrite one_cre, <- cre_add; f_equal; lra).
      assert (cre adjust = (1 + 1) * cre (adjust / 2)) as -> by (rewrite Htw, <- cre_mul; f_equal; lra). field. apply two_neq. }
    rewrite !(Fdiv_def (f_theory C_fld)).
    transitivity (cre adjust * finv (1 + 1) * finv (N1 * N2) * real_part u * fsum g msb * ((1 + 1) * finv (1 + 1))); [ring|].
    assert ((1 + 1) * finv (1 + 1) = (1 : C_fld)) as -> by (field; apply two_neq). ring.
  Qed.
End hom.
