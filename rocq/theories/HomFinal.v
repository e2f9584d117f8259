(** The lemmas behind HomProps.v. *)
From stdpp Require Import base tactics numbers gmap sets list.
From Coq Require Import Reals Lra.
From Verif Require Import Fld Py Herm ElecModel ElecProofs InjModel InjSpec OptModel OptRot SigModel SigSpec SigProofs NoiModel NoiSpec NoiProofs3 NoiFinal PdModel PdSpec PdProofs PdProofs2 PdProofs3 PdFinal SrcModel SrcSpec SrcProofs SrcFinal HomModel HomSpec HomProofs HomProofs2 HomProofs3.
Local Open Scope fld_scope.
Add Field FCHomF : (f_theory C_fld).

Lemma C89_phase_lem p : stdcplg p = cis (p / 360 * (2 * PI)) /\ stdcplgC p = cconj (cis (p / 360 * (2 * PI))).
Proof. by rewrite stdcplgC_eq, stdcplg_eq. Qed.

Lemma mul_1_r' (u v : C_fld) : u * 1 * v = u * v. Proof. ring. Qed.

Section hom.
  Context {P A Q : Type} `{Countable P} `{Countable A} `{Countable Q}.
  Context (qadd : Q -> Q -> Q) (qneg : Q -> Q) (q0 : Q) (Hz : Q -> R) (reject : Q -> bool).
  Notation mode := (A * Q)%type.
  Notation node := (P * key A Q)%type.
  Notation js := (list (InjModel.inj C_fld P (key A Q))).
  Lemma C89_ok_lem root (pk : node) fr_i fr_o bk_i bk_o src outputs cmn srcks frks bkks : wired qneg outputs cmn ->
    exists r, homodyne qadd qneg reject root pk fr_i fr_o bk_i bk_o src outputs cmn srcks frks bkks = Ok r.
  Proof.
    intros HW. unfold homodyne.
    assert (Hc : forall fr k, exists r, hd_common qadd qneg reject root pk fr cmn k = Ok r).
    { intros fr [[l o] f]. apply outs_ok. apply (wi_ckeys _ _ _ HW). }
    destruct (each_ok (fun k => each (insert_coupling qadd qneg reject fr_i src k) outputs) srcks) as [a ->].
    { intros [[l o] f] _. apply each_ok. intros h Hh. apply outs_ok. apply (wi_keys _ _ _ HW h Hh). }
    cbn [mbind res_bind]. edestruct (each_ok (fun k => d ← hd_common qadd qneg reject root pk fr_i cmn k; Ok (through fr_i bk_o k ++ d)) frks) as [c ->].
    { intros k _. destruct (Hc fr_i k) as [d ->]. by eexists. }
    cbn [mbind res_bind]. destruct (decide _); [|by eexists].
    destruct (each_ok (hd_common qadd qneg reject root pk src cmn) srcks) as [d ->]; [by intros k _; apply Hc|]. by eexists.
  Qed.

  Lemma product_one os (msb msa : list mode) b a t : product Hz os msb msa (scaled one_adjust b) a t = product Hz os msb msa b a t.
  Proof.
    unfold product. apply fsum_ext. intros o _. f_equal. f_equal. unfold light. apply fsum_ext. intros m _. unfold scaled, one_adjust. destruct (decide _); [ring|done].
  Qed.
  (** what passes *)
  Lemma reads_cls (big : C_fld) (root : C_fld -> C_fld) (pk : node) (fr_i fr_o bk_i bk_o src : P) (outputs : list (hout P A Q)) (cmn : P * list Q) (srcks frks bkks : list (bool * A * Q)) (r : js) (x : gmap node C_fld) (q : P) (l : bool) (o : A) (f : Q) :
    frequencies qadd qneg q0 Hz -> wired qneg outputs cmn -> homodyne qadd qneg reject root pk fr_i fr_o bk_i bk_o src outputs cmn srcks frks bkks = Ok r ->
    reads big r x (q, opt l o f) = fsum (Wr big x (q, opt l o f)) ((bkks ≫= through bk_i fr_o) ++ (frks ≫= through fr_i bk_o)).
  Proof.
    intros HF HW E. rewrite reads_eq. set (W := Wr big x (q, opt l o f)). unfold homodyne in E. apply bind_ok in E as (a & Ea & E). apply bind_ok in E as (c & Ec & E). apply bind_ok in E as (d & Ed & E). simplify_eq.
    assert (HW0 : forall mk fr src outp k c cC lks r, (forall n1 n2 G c, W (mk n1 n2 (outp : P, cls G) c) = 0) -> NoDup lks -> outs qneg (hd_pair qadd qneg reject mk fr src outp k.1.1 k.1.2 k.2 c cC) lks lks ∅ = Ok r -> fsum W r = 0).
    { clear -HF. intros mk fr src outp k c cC lks r Hm Hn E. rewrite (outs_eq qadd qneg q0 Hz HF reject W mk fr src outp k c cC lks r Hn E). apply fsum_0. intros G _. unfold g1. destruct k as [[l' o'] f']. rewrite Hm. by destruct (reject _). }
    assert (Hcm : forall fr k r, hd_common qadd qneg reject root pk fr cmn k = Ok r -> fsum W r = 0).
    { intros fr [[l' o'] f'] r E. apply (HW0 _ fr fr cmn.1 (l', o', f') _ _ cmn.2 r) in E; [done| |apply (wi_ckeys _ _ _ HW)].
      intros n1 n2 G c'. unfold W, Wr. cbn [target]. by rewrite decide_False by (unfold cls, opt; congruence). }
    assert (fsum W a = 0) as Za.
    { apply (each_0 W _ srcks a) in Ea; [done|]. intros [[l' o'] f'] r' _ Er. apply (each_0 W _ outputs r') in Er; [done|]. intros h r'' Hh Eh.
      apply (HW0 _ fr_i src (h_port h) (l', o', f') _ _ (h_keys h) r'') in Eh; [done| |apply (wi_keys _ _ _ HW h Hh)].
      intros n1 n2 G c'. unfold W, Wr. cbn [target]. by rewrite decide_False by (unfold cls, opt; congruence). }
    assert (fsum W d = 0) as Zd.
    { destruct (decide _); [|by simplify_eq]. exact (each_0 W _ _ d (fun k r' _ => Hcm src k r') Ed). }
    assert (fsum W c = fsum W (frks ≫= through fr_i bk_o)) as Zc.
    { rewrite fsum_bind. apply (each_sum W (fun k => d0 ← hd_common qadd qneg reject root pk fr_i cmn k; Ok (through fr_i bk_o k ++ d0)) (fun k => fsum W (through fr_i bk_o k)) frks c); [|done].
      intros k r' _ Ek. apply bind_ok in Ek as (d' & Ed' & Ek). simplify_eq. rewrite fsum_app, (Hcm fr_i k d' Ed'). ring. }
    rewrite !fsum_app, Za, Zd, Zc. ring.
  Qed.
  Lemma C89_through_lem (big : C_fld) (root : C_fld -> C_fld) (pk : node) (fr_i fr_o bk_i bk_o src : P) (outputs : list (hout P A Q)) (cmn : P * list Q) (srcks frks bkks : list (bool * A * Q)) (r : js) (x : gmap node C_fld) (l : bool) (o : A) (f : Q) :
    frequencies qadd qneg q0 Hz -> wired qneg outputs cmn -> NoDup frks -> NoDup bkks -> bk_o <> fr_o ->
    homodyne qadd qneg reject root pk fr_i fr_o bk_i bk_o src outputs cmn srcks frks bkks = Ok r ->
    reads big r x (bk_o, opt l o f) = (if decide ((l, o, f) ∈ frks) then field x (fr_i, opt l o f) else 0) /\
    reads big r x (fr_o, opt l o f) = (if decide ((l, o, f) ∈ bkks) then field x (bk_i, opt l o f) else 0).
  Proof.
    intros HF HW N1 N2 Hne E.
    assert (T : forall (q a b : P) (ks : list (bool * A * Q)), NoDup ks -> fsum (Wr big x (q, opt l o f)) (ks ≫= through a b) = if decide (b = q) then if decide ((l, o, f) ∈ ks) then field x (a, opt l o f) else 0 else 0).
    { clear. intros q a b ks Hn. rewrite fsum_bind.
      rewrite (fsum_ext _ (fun k : bool * A * Q => if decide (k = (l, o, f)) then if decide (b = q) then field x (a, opt l o f) else 0 else 0)).
      - rewrite (fsum_delta (l, o, f) (fun _ => if decide (b = q) then field x (a, opt l o f) else 0)) by done. by repeat destruct (decide _).
      - intros [[l' o'] f'] _. cbn [through fsum]. unfold Wr. cbn [target amount].
        destruct (decide ((l', o', f') = (l, o, f))) as [E'|N'].
        + injection E' as -> -> ->. destruct (decide (b = q)) as [-> |]; [rewrite decide_True by done; ring|rewrite decide_False by congruence; ring].
        + rewrite decide_False by (unfold opt; congruence). ring. }
    rewrite !(reads_cls big root pk fr_i fr_o bk_i bk_o src outputs cmn srcks frks bkks r x _ l o f HF HW E), !fsum_app, !T by done.
    rewrite !(decide_True (P := bk_o = bk_o)), !(decide_True (P := fr_o = fr_o)), (decide_False (P := fr_o = bk_o)), (decide_False (P := bk_o = fr_o)) by done. split; ring.
  Qed.
  (** a photodiode and the homodyne without a port for the local oscillator *)
  Lemma C89_photodiode_lem (big : C_fld) (root : C_fld -> C_fld) (pk : node) (fr_i fr_o bk_i bk_o : P) (outputs : list (hout P A Q)) (h : hout P A Q) (N : C_fld) (cmn : P * list Q) (frks bkks : list (bool * A * Q)) (ms : list mode) (r : js) (x : gmap node C_fld) (F : Q) (pr : js) (w ba : P) (wks baks : list Q) :
    frequencies qadd qneg q0 Hz -> wired qneg outputs cmn -> both ms frks -> shines (field x) fr_i ms -> (forall m, m ∈ ms -> reject m.2 = false) ->
    h ∈ outputs -> h_Std h = 1 -> h_StdC h = 1 -> (forall o, h_adjust h o = 1) -> norm_of h x N -> N <> 0 -> F ∈ h_keys h ->
    homodyne qadd qneg reject root pk fr_i fr_o bk_i bk_o fr_i outputs cmn frks frks bkks = Ok r ->
    signal_keys qneg wks -> F ∈ wks -> pd qadd qneg reject fr_i w ba frks wks baks = Ok pr ->
    N * reads big r x (h_port h, cls F) * (if decide (F = q0) then 1 else cre 2) = arrives pr (field x) (w, cls F).
  Proof.
    intros HF HW Hb Hs Hr Hh HS HSC Hadj HN HN0 HFk E [Hw Hwn] HFw Ep. set (a := lower_at (field x) fr_i).
    assert (Hbn : forall G, D2 qadd ms (scaled (h_adjust h) a) a G = beat_note qadd ms a G).
    { intros G. unfold D2, beat_note. apply fsum_ext. intros m _. rewrite (fsum_delta (m.1, qadd m.2 G) (fun m' => cconj (a m) * a m')) by apply (sh_modes _ _ _ Hs).
      unfold scaled. rewrite Hadj. destruct (decide _) as [|Nn]; [f_equal; f_equal; ring|]. unfold a. rewrite (sh_else _ _ _ Hs (m.1, qadd m.2 G)) by done. ring. }
    assert (Hbc : cconj (beat_note qadd ms a (qneg F)) = beat_note qadd ms a F).
    { rewrite <- !Hbn. unfold D2, scaled. rewrite cconj_fsum.
      set (g := fun m : mode => cconj (h_adjust h m.1 * a m) * a (m.1, qadd m.2 F)).
      change (fsum _ ms) with (fsum g ms) at 2.
      rewrite <- (shift_sum2 qadd qneg q0 Hz HF ms ms g F); [| apply (sh_modes _ _ _ Hs)..| |].
      - apply fsum_ext. intros [o f] _. unfold g. cbn [fst snd]. rewrite (fq_forth _ _ _ _ HF), !Hadj, cconj_mul, cconj_conj.
        transitivity (a (o, f) * cconj (a (o, qadd f (qneg F)))); [ring|]. rewrite cconj_mul, cconj_1. ring.
      - intros m Nm. unfold g, a. rewrite (sh_else _ _ _ Hs m) by done. rewrite cconj_mul, (conj_0 C_herm : cconj 0 = 0). ring.
      - intros m _. destruct (decide ((m.1, qadd m.2 F) ∈ ms)); [by right|left]. unfold g, a. rewrite (sh_else _ _ _ Hs (m.1, qadd m.2 F)) by done. ring. }
    rewrite (read_at qadd qneg q0 Hz HF reject root pk fr_i fr_o bk_i bk_o fr_i outputs cmn frks frks bkks ms ms r x big HW Hb E h N F); try done.
    2: { split; [by rewrite HS, HSC, cconj_1|]. intros o. rewrite Hadj. apply cconj_1. }
    fold a. rewrite !Hbn, Hbc, HS, HSC. rewrite pd_fills in Ep.
    rewrite (out_note qadd qneg q0 Hz HF reject (field x) fr_i w ms frks wks None None 1 1 (fun _ => ci) (fun _ => - ci) 1 1 true pr F Hs Hb Hr Hw Logic.I HFw Ep). fold a.
    assert (cre 2 = (1 + 1 : C_fld)) as -> by (rewrite one_cre, <- cre_add; f_equal; lra). change two_c with (1 + 1 : C_fld).
    pose proof two_neq. destruct (decide (F = q0)); field; done.
  Qed.
  Section outs.
    Context (tiny phase_deg h_Js c_m_s : R) (iwavelen : A -> R) (pk_tot pk_in : node) (I_ Q_ : P * list Q) (qu re : option ((P * list Q) * (P * list Q))).
    Notation outputs := (hd_outs tiny phase_deg h_Js c_m_s iwavelen pk_tot pk_in I_ Q_ qu re).
    Context (root : C_fld -> C_fld) (fr_i fr_o bk_i bk_o src : P) (cmn : P * list Q) (srcks frks bkks : list (bool * A * Q)) (msb msa : list mode) (r : js) (x : gmap node C_fld) (big : C_fld) (os : list A) (t : R).
    Context (HF : frequencies qadd qneg q0 Hz) (HW : wired qneg outputs cmn) (Hb : both msb srcks).
    Context (E : homodyne qadd qneg reject root pk_tot fr_i fr_o bk_i bk_o src outputs cmn srcks frks bkks = Ok r).
    Context (Hsb : shines (field x) src msb) (Hsa : shines (field x) fr_i msa) (Hr : forall m, m ∈ msa -> reject m.2 = false) (Hc : carriers os msb).
    Notation b := (lower_at (field x) src).
    Notation a := (lower_at (field x) fr_i).
    Notation read p := (plain Hz p.2 (fun F => reads big r x (p.1, cls F)) t).
    Lemma reads_lem h N : h ∈ outputs -> norm_of h x N -> covers qadd qneg msb msa b a (h_keys h) ->
      plain Hz (h_keys h) (fun F => reads big r x (h_port h, cls F)) t = real_part (h_Std h * product Hz os msb msa (scaled (h_adjust h) b) a t) / N.
    Proof.
      intros Hh HN Hv. eapply (reading qadd qneg q0 Hz HF reject root pk_tot fr_i fr_o bk_i bk_o src outputs cmn srcks frks bkks msb msa r x big HW Hb E h N os t); try done.
      by eapply hd_hermitian.
    Qed.
    Lemma C89_IQ_lem v : x !! pk_tot = Some v -> covers qadd qneg msb msa b a I_.2 -> covers qadd qneg msb msa b a Q_.2 ->
      read I_ = real_part (cis (phase_deg / 360 * (2 * PI)) * product Hz os msb msa b a t) / cre (R_sqrt.sqrt (c_abs v + tiny)) /\
      read Q_ = real_part (ci * cis (phase_deg / 360 * (2 * PI)) * product Hz os msb msa b a t) / cre (R_sqrt.sqrt (c_abs v + tiny)).
    Proof.
      intros Hv H1' H2'. rewrite <- stdcplg_eq, <- (product_one os msb msa b a t). split.
      - refine (reads_lem (HOut I_.1 I_.2 (stdcplg phase_deg) (stdcplgC phase_deg) [pk_tot] (norm1 tiny) one_adjust) _ _ _ H1').
        + left.
        + exists [v]. split; [by repeat constructor|done].
      - refine (reads_lem (HOut Q_.1 Q_.2 (ci * stdcplg phase_deg) (- ci * stdcplgC phase_deg) [pk_tot] (norm1 tiny) one_adjust) _ _ _ H2').
        + right. left.
        + exists [v]. split; [by repeat constructor|done].
    Qed.
    Lemma C89_quanta_lem v qI qQ : qu = Some (qI, qQ) -> x !! pk_tot = Some v -> covers qadd qneg msb msa b a qI.2 -> covers qadd qneg msb msa b a qQ.2 ->
      let b' m := cre (/ R_sqrt.sqrt (h_Js * c_m_s * iwavelen m.1 / 2)) * b m in
      read qI = real_part (cis (phase_deg / 360 * (2 * PI)) * product Hz os msb msa b' a t) / cre (R_sqrt.sqrt (c_abs v + tiny)) /\
      read qQ = real_part (ci * cis (phase_deg / 360 * (2 * PI)) * product Hz os msb msa b' a t) / cre (R_sqrt.sqrt (c_abs v + tiny)).
    Proof.
      intros Eq Hv H1' H2' b'. rewrite <- stdcplg_eq. split.
      - refine (reads_lem (HOut qI.1 qI.2 (stdcplg phase_deg) (stdcplgC phase_deg) [pk_tot] (norm1 tiny) (quanta_adjust h_Js c_m_s iwavelen)) _ _ _ H1').
        + unfold hd_outs. rewrite Eq. right. right. left.
        + exists [v]. split; [by repeat constructor|done].
      - refine (reads_lem (HOut qQ.1 qQ.2 (ci * stdcplg phase_deg) (- ci * stdcplgC phase_deg) [pk_tot] (norm1 tiny) (quanta_adjust h_Js c_m_s iwavelen)) _ _ _ H2').
        + unfold hd_outs. rewrite Eq. right. right. right. left.
        + exists [v]. split; [by repeat constructor|done].
    Qed.
    Lemma C89_relative_lem v w rI rQ : re = Some (rI, rQ) -> x !! pk_tot = Some v -> x !! pk_in = Some w -> covers qadd qneg msb msa b a rI.2 -> covers qadd qneg msb msa b a rQ.2 ->
      read rI = real_part (cis (phase_deg / 360 * (2 * PI)) * product Hz os msb msa b a t) / cre (R_sqrt.sqrt (c_abs (w * v) + tiny)) /\
      read rQ = real_part (ci * cis (phase_deg / 360 * (2 * PI)) * product Hz os msb msa b a t) / cre (R_sqrt.sqrt (c_abs (w * v) + tiny)).
    Proof.
      intros Eq Hv Hw H1' H2'. rewrite <- stdcplg_eq, <- (product_one os msb msa b a t). split.
      - refine (reads_lem (HOut rI.1 rI.2 (stdcplg phase_deg) (stdcplgC phase_deg) [pk_tot; pk_in] (norm2 tiny) one_adjust) _ _ _ H1').
        + unfold hd_outs. rewrite Eq. apply elem_of_app. right. apply elem_of_app. right. left.
        + exists [v; w]. split; [by repeat constructor|done].
      - refine (reads_lem (HOut rQ.1 rQ.2 (ci * stdcplg phase_deg) (- ci * stdcplgC phase_deg) [pk_tot; pk_in] (norm2 tiny) one_adjust) _ _ _ H2').
        + unfold hd_outs. rewrite Eq. apply elem_of_app. right. apply elem_of_app. right. right. left.
        + exists [v; w]. split; [by repeat constructor|done].
    Qed.
    (** without a port for the local oscillator *)
    Lemma re_real z w : cconj w = w -> real_part (z * w) = real_part z * w.
    Proof. destruct z as [u v], w as [u' v']. unfold cconj, C_conj, real_part, cre, C_of. cbn. intros [= E']. unfold C_mul. cbn. assert (v' = 0)%R as -> by lra. f_equal; ring. Qed.
    Lemma C89_self_lem v : src = fr_i -> msa = msb -> x !! pk_tot = Some v -> covers qadd qneg msb msb b b I_.2 -> covers qadd qneg msb msb b b Q_.2 ->
      read I_ = cre (cos (phase_deg / 360 * (2 * PI))) * intensity Hz os msb b t / cre (R_sqrt.sqrt (c_abs v + tiny)) /\
      read Q_ = cre (- sin (phase_deg / 360 * (2 * PI))) * intensity Hz os msb b t / cre (R_sqrt.sqrt (c_abs v + tiny)).
    Proof.
      intros Es Em Hv H1' H2'. destruct (product_self Hz os msb b t) as [Ep Ec].
      destruct (C89_IQ_lem v Hv) as [-> ->]; [by rewrite Em, <- Es|by rewrite Em, <- Es|].
      rewrite Em, <- Es, Ep, !(re_real _ _ Ec). split; [done|]. do 2 f_equal. unfold cis, ci, real_part, cre, C_of. cbn. unfold C_mul. cbn. f_equal. ring.
    Qed.
    (** vacuum *)
    Context {Obj Name : Type} `{Countable Obj} `{Countable Name}.
    Lemma power_real (ms : list mode) (c : mode -> C_fld) : power ms c = cre (fst (power ms c)) /\ (0 <= fst (power ms c))%R.
    Proof.
      unfold power. induction ms as [|m ms [IH1 IH2]]; cbn [fsum]; [split; [done|cbn; lra]|]. rewrite IH1. revert IH2. generalize (fst (fsum (K := C_fld) (fun m => c m * cconj (c m)) ms)). intros s IH2. destruct (c m) as [u v]. unfold cconj, C_conj, cre, C_of. cbn. unfold C_mul, C_add. cbn.
      split; [f_equal; ring|]. assert (0 <= u * u)%R by apply Rle_0_sqr. assert (0 <= v * v)%R by apply Rle_0_sqr. lra.
    Qed.
    Lemma c_abs_pos (p : R) : (0 <= p)%R -> c_abs (cre p) = p.
    Proof. intros Hp. unfold c_abs, cre, C_of. cbn. rewrite Rmult_0_r, Rplus_0_r. by apply sqrt_square. Qed.
    Lemma C89_vacuum_lem qI qQ p (ms : list mode) F sided (adjust : R) (expect : Obj -> node -> node -> C_fld) coupling vs (o : P -> Obj) keys tr cp nm (pm : list (Name * P)) n1 n2 :
      qu = Some (qI, qQ) ->
      (forall o, 0 < h_Js * c_m_s * iwavelen o)%R -> (0 < tiny)%R -> x !! pk_tot = Some (power msb b) -> power msb b = cre p -> src <> fr_i ->
      F ∈ qI.2 -> F ∈ qQ.2 -> NoDup ms -> (forall m, m ∈ ms -> reject m.2 = false) ->
      (forall v, v ∈ vs -> keys v ≡ₚ keys_of ms /\ expect (o v) = vacuum_expect h_Js c_m_s iwavelen) ->
      (forall q G, q ∈ [qI.1; qQ.1] -> G ∈ [F; qneg F] -> reaches coupling r x vs fr_i q tr ms G) -> unitary vs tr ms ->
      sidebands_in qadd msb ms b F -> sidebands_in qadd msb ms b (qneg F) ->
      adjust_PSD sided = Ok adjust -> noise_map cp (vacua vs o keys) = Ok nm -> NoDup coupling.*1 -> NoDup pm.*1 -> (n1, qI.1) ∈ pm -> (n2, qQ.1) ∈ pm -> n1 <> n2 ->
      let csd := (CSD_builds adjust expect nm coupling pm (cls F) (cls (qneg F))).1 in
      csd !! (n1, n1) = Some (cre (p / (p + tiny) / INR sided)) /\ csd !! (n2, n2) = Some (cre (p / (p + tiny) / INR sided)) /\ csd !! (n1, n2) = Some 0.
    Proof.
      intros Eq Hh Ht Hv Hp Hne HF1 HF2 Hnd Hrm Hvs HR HU S1 S2 Ha Hnm Hcn Hpn Hi1 Hi2 Hnn csd.
      destruct (power_real msb b) as [Epr Hp0]. rewrite Hp in Hp0. cbn in Hp0.
      set (g1 := HOut (qI.1) (qI.2) (stdcplg phase_deg) (stdcplgC phase_deg) [pk_tot] (norm1 tiny) (quanta_adjust h_Js c_m_s iwavelen) : hout P A Q).
      set (g2 := HOut (qQ.1) (qQ.2) (ci * stdcplg phase_deg) (- ci * stdcplgC phase_deg) [pk_tot] (norm1 tiny) (quanta_adjust h_Js c_m_s iwavelen) : hout P A Q).
      assert (G1 : g1 ∈ outputs) by (unfold hd_outs; rewrite Eq; right; right; left).
      assert (G2 : g2 ∈ outputs) by (unfold hd_outs; rewrite Eq; right; right; right; left).
      set (N := cre (R_sqrt.sqrt (p + tiny)) : C_fld).
      assert (N1 : norm_of g1 x N) by (exists [cre p]; split; [rewrite Hp in Hv; by repeat constructor|]; cbn; by rewrite c_abs_pos).
      assert (N2 : norm_of g2 x N) by (exists [cre p]; split; [rewrite Hp in Hv; by repeat constructor|]; cbn; by rewrite c_abs_pos).
      assert (Hsq : (R_sqrt.sqrt (p + tiny) * R_sqrt.sqrt (p + tiny) = p + tiny)%R) by (apply sqrt_sqrt; lra).
      assert (HN : N <> 0) by (intros [= E0]; rewrite E0 in Hsq; lra).
      assert (HNN : N * N = cre (p + tiny)) by (unfold N; rewrite <- cre_mul; by rewrite Hsq).
      assert (Es : fsum (fun m => cre (h_Js * c_m_s * iwavelen m.1 / 2) * (quanta_adjust h_Js c_m_s iwavelen m.1 * quanta_adjust h_Js c_m_s iwavelen m.1) * (b m * cconj (b m))) msb = cre p).
      { rewrite <- Hp. unfold power. apply fsum_ext. intros m _. unfold quanta_adjust. rewrite <- !cre_mul. rewrite <- Rinv_mult, sqrt_sqrt by (specialize (Hh m.1); lra).
        rewrite Rinv_r by (specialize (Hh m.1); lra). change (cre 1) with (1 : C_fld). ring. }
      assert (Hadj : adjust = (2 / INR sided)%R).
      { destruct sided as [|[|[|n]]]; cbn in Ha; try discriminate; injection Ha as <-; cbn; lra. }
      assert (Hsd : INR sided <> 0%R).
      { destruct sided as [|[|[|n]]]; cbn in Ha; try discriminate; cbn; lra. }
      assert (Dn : forall h h', h ∈ [g1; g2] -> h' ∈ [g1; g2] -> density adjust expect coupling (vacua vs o keys) (h_port h, cls F) (h_port h', cls (qneg F)) =
        cre (adjust / 2) * real_part (h_Std h * cconj (h_Std h')) * cre p / (N * N)).
      { intros h h' I1 I2. rewrite <- Es.
        assert (D1 : forall h, h ∈ [g1; g2] -> h ∈ outputs /\ norm_of h x N /\ F ∈ h_keys h /\ h_port h ∈ [qI.1; qQ.1] /\ h_adjust h = quanta_adjust h_Js c_m_s iwavelen).
        { clear h h' I1 I2. intros h I1. apply elem_of_cons in I1 as [-> |I1]; [split_and!; try done; left|]. apply elem_of_list_singleton in I1 as ->. split_and!; try done. right. left. }
        destruct (D1 h I1) as (A1 & A2 & A3 & A4 & A5), (D1 h' I2) as (B1 & B2 & B3 & B4 & B5).
        rewrite (vac_density qadd qneg q0 Hz reject HF root pk_tot fr_i fr_o bk_i bk_o src outputs cmn srcks frks bkks msb r x HW Hb E h h' N N ms F adjust h_Js c_m_s iwavelen expect coupling vs o keys tr); try done.
        - by rewrite A5, B5.
        - by eapply hd_hermitian.
        - by eapply hd_hermitian.
        - apply HR; [done|left].
        - apply HR; [done|right; left]. }
      assert (U1 : real_part (stdcplg phase_deg * cconj (stdcplg phase_deg)) = 1) by (by rewrite stdcplg_unit).
      assert (U2 : real_part (ci * stdcplg phase_deg * cconj (ci * stdcplg phase_deg)) = 1).
      { rewrite cconj_mul, cconj_ci. transitivity (real_part (- (ci * ci) * (stdcplg phase_deg * cconj (stdcplg phase_deg)))); [f_equal; ring|]. rewrite stdcplg_unit, ci_sq.
        transitivity (real_part 1); [f_equal; ring|done]. }
      assert (U3 : real_part (stdcplg phase_deg * cconj (ci * stdcplg phase_deg)) = 0).
      { rewrite cconj_mul, cconj_ci. transitivity (real_part (- ci * (stdcplg phase_deg * cconj (stdcplg phase_deg)))); [f_equal; ring|]. rewrite stdcplg_unit.
        unfold real_part, ci, cre, C_of. cbn. unfold C_mul, C_opp. cbn. f_equal. ring. }
      assert (Val : cre (adjust / 2) * 1 * cre p / (N * N) = cre (p / (p + tiny) / INR sided)).
      { rewrite HNN, Hadj. assert (cre (p / (p + tiny) / INR sided) * cre (p + tiny) = cre (2 / INR sided / 2) * cre p) as Ev.
        { rewrite <- !cre_mul. f_equal. field. split; [done|lra]. }
        assert (cre (p + tiny) <> 0) as Hn0 by (intros [= E0]; lra).
        rewrite mul_1_r', <- Ev. field. done. }
      unfold csd. rewrite !(C51_value_lem cp adjust expect _ nm coupling pm (cls F) (cls (qneg F)) n1 n1 qI.1 qI.1 Hnm Hcn Hpn Hi1 Hi1), !(C51_value_lem cp adjust expect _ nm coupling pm (cls F) (cls (qneg F)) n2 n2 qQ.1 qQ.1 Hnm Hcn Hpn Hi2 Hi2),
        !(C51_value_lem cp adjust expect _ nm coupling pm (cls F) (cls (qneg F)) n1 n2 qI.1 qQ.1 Hnm Hcn Hpn Hi1 Hi2).
      unfold reported. rewrite !(decide_True (P := _ = _)), (decide_False (P := n1 = n2)) by done.
      split_and!.
      - pose proof (Dn g1 g1 ltac:(left) ltac:(left)) as D1. cbn [h_port h_Std g1] in D1. rewrite D1, U1, Val. done.
      - pose proof (Dn g2 g2 ltac:(right; left) ltac:(right; left)) as D1. cbn [h_port h_Std g2] in D1. rewrite D1, U2, Val. done.
      - pose proof (Dn g1 g2 ltac:(left) ltac:(right; left)) as D1. cbn [h_port h_Std g1 g2] in D1. rewrite D1, U3, (Fdiv_def (f_theory C_fld)). f_equal. ring.
    Qed.
  End outs.
End hom.
(** the number of quanta *)
Lemma C89_quanta_twice {P A Q} `{Countable P} `{Countable A} `{Countable Q} (q0 : Q) h_Js c_m_s (iwavelen : A -> R) x (port qp : P) (ms : list (A * Q)) ks o f :
  shines x port ms -> both ms ks -> (forall o, 0 < h_Js * c_m_s * iwavelen o)%R -> ms = [(o, f)] -> lower_at x port (o, f) <> 0 ->
  arrives (total_quanta q0 h_Js c_m_s iwavelen port qp ks) x (qp, cls q0) <> power ms (lower_at x port) / cre (h_Js * c_m_s * iwavelen o).
Proof.
  intros Hs Hb Hh -> Ha. rewrite (quanta_lem q0 h_Js c_m_s iwavelen x port qp _ ks Hs Hb) by (intros o'; specialize (Hh o'); lra).
  unfold power. cbn [fsum fst]. set (z := lower_at x port (o, f) * cconj (lower_at x port (o, f))). set (d := cre (h_Js * c_m_s * iwavelen o)). intros E.
  assert (Hd : d <> 0) by (intros [= E0]; specialize (Hh o); lra).
  assert (E2 : cre 2 * z = z). { transitivity (cre 2 * (z / d + 0) * d); [field; done|]. rewrite E. field. done. }
  destruct (lower_at x port (o, f)) as [u v]. unfold z, cconj, C_conj, cre, C_of in E2. cbn in E2. unfold C_mul in E2. cbn in E2. injection E2 as E2 _.
  apply Ha. assert (u * u + v * v = 0)%R by lra. assert (0 <= u * u)%R by apply Rle_0_sqr. assert (0 <= v * v)%R by apply Rle_0_sqr.
  assert (u * u = 0)%R as H1' by lra. assert (v * v = 0)%R as H2' by lra. apply Rmult_integral in H1', H2'. change (0 : C_fld) with ((0, 0)%R : C_fld). f_equal; tauto.
Qed.

(** *** a case: 4 W of local oscillator at port 4, light in one sideband at port 0 *)
Definition hm : list (unit * Z) := [((), -1); ((), 0); ((), 1)]%Z.
Definition hk : list (bool * unit * Z) := [(true, (), -1); (true, (), 0); (true, (), 1); (false, (), -1); (false, (), 0); (false, (), 1)]%Z.
Definition hs : list Z := [-1; 0; 1]%Z.
Definition hx : gmap (nat * key unit Z) C_fld :=
  {[ (4%nat, opt true () 0%Z) := cre 2; (4%nat, opt false () 0%Z) := cre 2; (0%nat, opt true () 1%Z) := ci; (0%nat, opt false () 1%Z) := - ci; (10%nat, cls 0%Z) := cre 4 ]}.
Definition houts : list (hout nat unit Z) :=
  hd_outs 1 30 2 3 (fun _ => 5%R) (10%nat, cls 0%Z) (11%nat, cls 0%Z) (5%nat, hs) (6%nat, hs) (Some ((7%nat, hs), (8%nat, hs))) None.
Definition hr : list (InjModel.inj C_fld nat (key unit Z)) :=
  match homodyne Z.add Z.opp (fun _ => false) (fun z => z) (10%nat, cls 0%Z) 0%nat 1%nat 2%nat 3%nat 4%nat houts (9%nat, hs) hk hk hk with Ok r => r | Err _ => [] end.
Definition hpairs : list ((nat * key unit Z) * (nat * key unit Z)) := k ← keys_of hm; q ← [7; 8]%nat; G ← [1; -1]%Z; [((0%nat, k), (q, cls G))].
Definition hgain (e : (nat * key unit Z) * (nat * key unit Z)) : C_fld := response hr hx (unit_at e.1) e.2.
Definition hcoupling : list (((nat * key unit Z) * (nat * key unit Z)) * C_fld) := (fun e => (e, hgain e)) <$> hpairs.
Definition hcp : nat -> option (gset (key unit Z)) := fun _ => Some (list_to_set (keys_of hm)).
Lemma h_freq : frequencies Z.add Z.opp 0%Z IZR.
Proof. split; intros; try lia; apply plus_IZR. Qed.
Lemma h_wired : wired Z.opp houts (9%nat, hs).
Proof.
  assert (Hk : signal_keys Z.opp hs).
  { split; [apply (bool_decide_unpack _); vm_compute; exact Logic.I|]. apply Forall_forall. by apply (bool_decide_unpack _). }
  assert (Ep : h_port <$> houts = [5; 6; 7; 8]%nat) by done.
  split; [rewrite Ep; apply (bool_decide_unpack _); vm_compute; exact Logic.I| |rewrite Ep; apply (bool_decide_unpack _); vm_compute; exact Logic.I|done].
  intros h Hh. assert (h_keys h = hs) as ->; [|done]. unfold houts, hd_outs in Hh. cbn [app] in Hh. by repeat (apply elem_of_cons in Hh as [-> |Hh]; [done|]); apply elem_of_nil in Hh.
Qed.
Lemma h_runs : homodyne Z.add Z.opp (fun _ => false) (fun z => z) (10%nat, cls 0%Z) 0%nat 1%nat 2%nat 3%nat 4%nat houts (9%nat, hs) hk hk hk = Ok hr.
Proof.
  unfold hr. by destruct (C89_ok_lem Z.add Z.opp (fun _ => false) (fun z => z) (10%nat, cls 0%Z) 0%nat 1%nat 2%nat 3%nat 4%nat houts (9%nat, hs) hk hk hk h_wired) as [r ->].
Qed.
Lemma h_src l m : field hx (4%nat, opt l m.1 m.2) = if decide (m = ((), 0%Z)) then cre 2 else 0.
Proof.
  destruct m as [[] f]. unfold field, sget, hx. cbn [fst snd]. destruct (decide (((), f) = ((), 0%Z))) as [Ef|N].
  - injection Ef as ->. destruct l; [by rewrite lookup_insert|]. rewrite lookup_insert_ne by done. by rewrite lookup_insert.
  - by rewrite !lookup_insert_ne, lookup_singleton_ne by (unfold opt, cls; congruence).
Qed.
Lemma h_fr l m : field hx (0%nat, opt l m.1 m.2) = if decide (m = ((), 1%Z)) then if l then ci else - ci else 0.
Proof.
  destruct m as [[] f]. unfold field, sget, hx. cbn [fst snd]. destruct (decide (((), f) = ((), 1%Z))) as [Ef|N].
  - injection Ef as ->. rewrite !(lookup_insert_ne _ (4%nat, _)) by done. destruct l; [by rewrite lookup_insert|]. rewrite lookup_insert_ne by done. by rewrite lookup_insert.
  - by rewrite !lookup_insert_ne, lookup_singleton_ne by (unfold opt, cls; congruence).
Qed.
Lemma h_in m f : m = ((), f) -> f ∈ hs -> m ∈ hm.
Proof. intros -> Hf. unfold hm. apply (elem_of_list_fmap_1 (fun f => ((), f)) hs f Hf). Qed.
Lemma h_shines : shines (field hx) 4%nat hm /\ shines (field hx) 0%nat hm.
Proof.
  assert (Hn : NoDup hm) by (apply (bool_decide_unpack _); vm_compute; exact Logic.I).
  split; (split; [done| |]).
  - intros m N. unfold lower_at. rewrite h_src, decide_False; [done|]. intros ->. apply N. by apply (h_in _ 0%Z); [|apply (bool_decide_unpack _)].
  - intros m. unfold lower_at, raise_at. rewrite !h_src. destruct (decide _); [by rewrite cconj_cre|symmetry; exact (conj_0 C_herm)].
  - intros m N. unfold lower_at. rewrite h_fr, decide_False; [done|]. intros ->. apply N. by apply (h_in _ 1%Z); [|apply (bool_decide_unpack _)].
  - intros m. unfold lower_at, raise_at. rewrite !h_fr. destruct (decide _); [by rewrite cconj_ci|symmetry; exact (conj_0 C_herm)].
Qed.
Lemma h_case : frequencies Z.add Z.opp 0%Z IZR /\ wired Z.opp houts (9%nat, hs) /\ both hm hk /\ carriers [()] hm /\
  homodyne Z.add Z.opp (fun _ => false) (fun z => z) (10%nat, cls 0%Z) 0%nat 1%nat 2%nat 3%nat 4%nat houts (9%nat, hs) hk hk hk = Ok hr /\
  shines (field hx) 4%nat hm /\ shines (field hx) 0%nat hm /\ hx !! (10%nat, cls 0%Z) = Some (cre 4) /\
  covers Z.add Z.opp hm hm (lower_at (field hx) 4%nat) (lower_at (field hx) 0%nat) hs /\ covers Z.add Z.opp hm hm (lower_at (field hx) 4%nat) (lower_at (field hx) 4%nat) hs /\
  covers Z.add Z.opp hm hm (lower_at (field hx) 0%nat) (lower_at (field hx) 0%nat) hs /\
  lower_at (field hx) 4%nat ((), 0%Z) = cre 2 /\ lower_at (field hx) 0%nat ((), 1%Z) = ci.
Proof.
  destruct h_shines as [S1 S2]. split_and!; try done.
  - exact h_freq.
  - exact h_wired.
  - unfold both. reflexivity.
  - split; [apply (bool_decide_unpack _); vm_compute; exact Logic.I|]. intros [[] f] _. left.
  - intros m m' _ _ _. unfold lower_at. rewrite h_src, h_fr. destruct (decide (m = _)) as [-> |]; [|by left]. destruct (decide (m' = _)) as [-> |]; [|by right; left]. right. right. by apply (bool_decide_unpack _).
  - intros m m' _ _ _. unfold lower_at. rewrite !h_src. destruct (decide (m = _)) as [-> |]; [|by left]. destruct (decide (m' = _)) as [-> |]; [|by right; left]. right. right. by apply (bool_decide_unpack _).
  - intros m m' _ _ _. unfold lower_at. rewrite !h_fr. destruct (decide (m = _)) as [-> |]; [|by left]. destruct (decide (m' = _)) as [-> |]; [|by right; left]. right. right. by apply (bool_decide_unpack _).
Qed.
Lemma h_nodup : NoDup hpairs.
Proof. apply (bool_decide_unpack _). vm_compute. exact Logic.I. Qed.
Lemma hgain_eq e : e ∈ hpairs -> gain hcoupling e.1 e.2 = hgain e.
Proof.
  intros He. unfold gain, hcoupling. rewrite fsum_map. cbn [fst snd].
  rewrite (fsum_ext _ (fun e' => if decide (e' = e) then hgain e' else 0)).
  - by rewrite fsum_delta, decide_True by (done || apply h_nodup).
  - intros e' _. by destruct e.
Qed.
Lemma h_vacuum_case : power hm (lower_at (field hx) 4%nat) = cre 4 /\
  (forall q G, q ∈ [7; 8]%nat -> G ∈ [1; -1]%Z -> reaches hcoupling hr hx [0%nat] 0%nat q (fun _ _ => 1) hm G) /\ unitary [0%nat] (fun _ _ => 1) hm /\
  sidebands_in Z.add hm hm (lower_at (field hx) 4%nat) 1%Z /\ sidebands_in Z.add hm hm (lower_at (field hx) 4%nat) (-1)%Z /\
  (exists nm, noise_map hcp (vacua [0%nat] (fun v => v) (fun _ => keys_of hm)) = Ok nm) /\ NoDup hcoupling.*1.
Proof.
  split_and!.
  - unfold power, hm. cbn [fsum]. unfold lower_at. rewrite !h_src, (decide_True (P := ((), 0%Z) = _)), !decide_False by done.
    assert (cre 4 = cre 2 * cre 2) as -> by (rewrite <- cre_mul; f_equal; lra). rewrite cconj_cre. ring.
  - intros q G Hq HG v m Hv Hm. apply elem_of_list_singleton in Hv as ->.
    assert (Hi : forall l, ((0%nat, opt l m.1 m.2), (q, cls G)) ∈ hpairs).
    { intros l. unfold hpairs. apply elem_of_list_bind. exists (opt l m.1 m.2). split.
      - apply elem_of_list_bind. exists q. split; [|done]. apply elem_of_list_bind. exists G. split; [by apply elem_of_list_singleton|done].
      - unfold keys_of. apply elem_of_app. destruct l; [left|right]; apply elem_of_list_fmap; by exists m. }
    pose proof (hgain_eq _ (Hi true)) as A1. pose proof (hgain_eq _ (Hi false)) as A2. unfold hgain in A1, A2. cbn [fst snd] in A1, A2.
    rewrite A1, A2, cconj_1. split; ring.
  - intros m _. cbn [fsum]. rewrite cconj_1. ring.
  - intros m _. unfold lower_at. rewrite h_src. destruct (decide _) as [-> |]; [right|by left]. by apply (h_in _ 1%Z); [|apply (bool_decide_unpack _)].
  - intros m _. unfold lower_at. rewrite h_src. destruct (decide _) as [-> |]; [right|by left]. by apply (h_in _ (-1)%Z); [|apply (bool_decide_unpack _)].
  - apply C51_registered_lem. apply Forall_forall. intros [[pk1 pk2] o] Hi. unfold vacua in Hi. apply elem_of_list_bind in Hi as (v & Hi & _).
    apply elem_of_list_fmap in Hi as (k & [= -> -> ->] & Hk).
    split; (eexists; split; [done|]); apply elem_of_list_to_set; [done|]. cbn [fst snd].
    clear -Hk. unfold keys_of in *. apply elem_of_app in Hk as [Hk|Hk]; apply elem_of_list_fmap in Hk as (m & -> & Hm); apply elem_of_app; [right|left]; apply elem_of_list_fmap; by exists m.
  - assert (hcoupling.*1 = hpairs) as ->; [|apply h_nodup]. unfold hcoupling. clear. induction hpairs as [|e l IH]; [done|]. cbn. f_equal. exact IH.
Qed.
