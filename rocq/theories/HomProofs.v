(** Proofs about the homodyne readout: what arrives at its outputs. *)
From stdpp Require Import base tactics numbers gmap sets list.
From Coq Require Import Reals Lra.
From Verif Require Import Fld Py Herm ElecModel ElecProofs InjModel InjSpec OptModel SigModel SigSpec SigProofs NoiProofs3 PdModel PdSpec PdProofs PdProofs2 PdProofs3 HomModel HomSpec.
Local Open Scope fld_scope.
Add Field FCHom : (f_theory C_fld).

Section hom.
  Context {P A Q : Type} `{Countable P} `{Countable A} `{Countable Q}.
  Context (qadd : Q -> Q -> Q) (qneg : Q -> Q) (q0 : Q) (Hz : Q -> R) (HF : frequencies qadd qneg q0 Hz).
  Context (reject : Q -> bool).
  Notation mode := (A * Q)%type.
  Notation node := (P * key A Q)%type.
  Implicit Types (W : inj C_fld P (key A Q) -> C_fld) (ms : list mode) (ks : list (bool * A * Q)).

  (** one output frequency *)
  Definition g1 W (mk : node -> node -> node -> C_fld -> inj C_fld P (key A Q)) (fr src outp : P) (k : bool * A * Q) (c cC : C_fld) (F : Q) : C_fld :=
    let '(lower, o, f) := k in
    let f' := qadd f (if lower then F else qneg F) in
    if reject f' then 0 else W (mk (fr, opt lower o f') (src, opt (negb lower) o f) (outp, cls F) (if lower then c else cC)).
  Lemma hd_pair_sum W mk fr src outp lower o f c cC lk :
    fsum W (hd_pair qadd qneg reject mk fr src outp lower o f c cC lk) =
    if decide (qneg lk = lk) then g1 W mk fr src outp (lower, o, f) c cC lk else
    g1 W mk fr src outp (lower, o, f) c cC lk + g1 W mk fr src outp (lower, o, f) c cC (qneg lk).
  Proof.
    unfold hd_pair, g1. cbv zeta. rewrite (fq_nn qadd qneg q0 Hz HF).
    destruct (decide (qneg lk = lk)) as [E|N].
    - destruct lower; rewrite (decide_False (P := qneg lk <> lk)) by tauto; rewrite ?E, app_nil_r; destruct (reject (qadd f lk)); cbn [fsum]; ring.
    - destruct lower; rewrite (decide_True (P := qneg lk <> lk)), fsum_app by done; destruct (reject (qadd f lk)), (reject (qadd f (qneg lk))); cbn [fsum]; ring.
  Qed.
  Lemma outs_eq W mk fr src outp k c cC lks r : NoDup lks ->
    outs qneg (hd_pair qadd qneg reject mk fr src outp k.1.1 k.1.2 k.2 c cC) lks lks ∅ = Ok r ->
    fsum W r = fsum (g1 W mk fr src outp k c cC) lks.
  Proof.
    intros Hn E. destruct k as [[l o] f]. cbn [fst snd] in E.
    rewrite (outs_sum qneg (fq_nn qadd qneg q0 Hz HF) W (hd_pair qadd qneg reject mk fr src outp l o f c cC) (g1 W mk fr src outp (l, o, f) c cC) lks lks ∅ r (hd_pair_sum W mk fr src outp l o f c cC) Hn); try done.
    - intros k Hk. by left.
  Qed.

  (** [W] sees the output (outp, F) only; [V] is what a pair of nodes gives there *)
  Record sees W (outp : P) (F : Q) (V : list node -> (list C_fld -> C_fld) -> node -> node -> C_fld) (V1 : node -> (C_fld -> C_fld) -> node -> node -> C_fld) : Prop := {
    se_norms : forall p p' l o f f' q G pns c h, W (TripletNorms (p, opt l o f) (p', opt (negb l) o f') (q, cls G) pns c h) =
      if decide ((q, G) = (outp, F)) then c * V pns h (p, opt l o f) (p', opt (negb l) o f') else 0;
    se_norm : forall p p' l o f f' q G pn c h, W (TripletNorm (p, opt l o f) (p', opt (negb l) o f') (q, cls G) pn c h) =
      if decide ((q, G) = (outp, F)) then c * V1 pn h (p, opt l o f) (p', opt (negb l) o f') else 0;
    se_edge : forall a p l o f c, W (ConstantEdge a (p, opt l o f) c) = 0;
  }.
  Definition Wr (big : C_fld) (x : gmap node C_fld) (n : node) (j : inj C_fld P (key A Q)) : C_fld := if decide (target j = n) then amount big (field x) x j else 0.
  Lemma reads_eq big r x n : reads big r x n = fsum (Wr big x n) r.
  Proof. unfold reads, total. cbn [fsum]. apply cadd_0. Qed.
  Lemma if_cls (q outp : P) (G F : Q) (z : C_fld) : (if decide ((q, cls (A := A) G) = (outp, cls F)) then z else 0) = if decide ((q, G) = (outp, F)) then z else 0.
  Proof. apply if_iff; [|done]. unfold cls. split; congruence. Qed.
  Lemma reads_sees big x outp F : sees (Wr big x (outp, cls F)) outp F
    (fun pns h p1 p2 => field x p1 * field x p2 / h ((fun n => sget x n big) <$> pns)) (fun pn h p1 p2 => field x p1 * field x p2 / h (sget x pn big)).
  Proof.
    split; intros; unfold Wr; cbn [target amount]; rewrite ?if_cls.
    - destruct (decide _); [|done]. rewrite !(Fdiv_def (f_theory C_fld)). ring.
    - destruct (decide _); [|done]. rewrite !(Fdiv_def (f_theory C_fld)). ring.
    - by rewrite decide_False by (unfold opt, cls; congruence).
  Qed.
  Lemma resp_sees x (d : node -> C_fld) outp F : sees (Wres x d (outp, cls F)) outp F
    (fun pns h p1 p2 => (field x p2 * d p1 + field x p1 * d p2) / h ((fun n => sget x n 0) <$> pns))
    (fun pn h p1 p2 => (field x p2 * d p1 + field x p1 * d p2) / h (sget x pn 0)).
  Proof.
    assert (Hne : forall p p' l (o : A) (f f' : Q), (p : P, opt l o f) <> (p', opt (negb l) o f')) by (intros p p' [] o f f' [=]).
    split; intros; unfold Wres; cbn [inj_edges fst snd].
    - rewrite decide_True by apply Hne. cbn [fsum fst snd]. rewrite !if_cls. destruct (decide _); [|ring]. unfold ts_edge1, ts_edge2, norm_args, field. rewrite !(Fdiv_def (f_theory C_fld)). ring.
    - rewrite decide_True by apply Hne. cbn [fsum fst snd]. rewrite !if_cls. destruct (decide _); [|ring]. unfold tn_edge1, tn_edge2, field. rewrite !(Fdiv_def (f_theory C_fld)). ring.
    - cbn [fsum fst snd]. rewrite decide_False by (unfold opt, cls; congruence). ring.
  Qed.

  (** *** one key of the local oscillator, one output *)
  Lemma insert_eq W outp F V V1 fr src k h r : sees W outp F V V1 -> NoDup (h_keys h) -> insert_coupling qadd qneg reject fr src k h = Ok r ->
    fsum W r = if decide (h_port h = outp /\ F ∈ h_keys h) then
      let '(l, o, f) := k in let f' := qadd f (if l then F else qneg F) in
      if reject f' then 0 else (if l then h_Std h else h_StdC h) / two_c * h_adjust h o * V (h_norms h) (h_func h) (fr, opt l o f') (src, opt (negb l) o f) else 0.
  Proof.
    intros [Hs _ _] Hn E. destruct k as [[l o] f]. unfold insert_coupling in E.
    rewrite (outs_eq W _ fr src (h_port h) (l, o, f) _ _ (h_keys h) r Hn E). unfold g1.
    transitivity (fsum (fun G => if decide (G = F) then if decide (h_port h = outp) then if reject (qadd f (if l then G else qneg G)) then 0 else
      (if l then h_Std h else h_StdC h) / two_c * h_adjust h o * V (h_norms h) (h_func h) (fr, opt l o (qadd f (if l then G else qneg G))) (src, opt (negb l) o f) else 0 else 0) (h_keys h)).
    - apply fsum_ext. intros G _. destruct (reject _); [by repeat destruct (decide _)|]. rewrite Hs.
      destruct (decide (G = F)) as [-> |], (decide (h_port h = outp)) as [-> |]; [rewrite decide_True by done; by destruct l|rewrite decide_False by congruence; done..].
    - rewrite (fsum_delta F (fun G => if decide (h_port h = outp) then if reject (qadd f (if l then G else qneg G)) then 0 else
        (if l then h_Std h else h_StdC h) / two_c * h_adjust h o * V (h_norms h) (h_func h) (fr, opt l o (qadd f (if l then G else qneg G))) (src, opt (negb l) o f) else 0)) by done.
      destruct (decide (F ∈ h_keys h)), (decide (h_port h = outp)); [rewrite decide_True by done; done|rewrite decide_False by tauto; done..].
  Qed.
  Lemma common_eq W outp F V V1 root pk fr k (cmn : P * list Q) r : sees W outp F V V1 -> NoDup cmn.2 -> hd_common qadd qneg reject root pk fr cmn k = Ok r ->
    fsum W r = if decide (cmn.1 = outp /\ F ∈ cmn.2) then
      let '(l, o, f) := k in let f' := qadd f (if l then F else qneg F) in
      if reject f' then 0 else 1 / two_c * V1 pk root (fr, opt l o f') (fr, opt (negb l) o f) else 0.
  Proof.
    intros [_ Hs _] Hn E. destruct k as [[l o] f]. unfold hd_common in E.
    rewrite (outs_eq W _ fr fr cmn.1 (l, o, f) _ _ cmn.2 r Hn E). unfold g1.
    transitivity (fsum (fun G => if decide (G = F) then if decide (cmn.1 = outp) then if reject (qadd f (if l then G else qneg G)) then 0 else
      1 / two_c * V1 pk root (fr, opt l o (qadd f (if l then G else qneg G))) (fr, opt (negb l) o f) else 0 else 0) cmn.2).
    - apply fsum_ext. intros G _. destruct (reject _); [by repeat destruct (decide _)|]. rewrite Hs.
      destruct (decide (G = F)) as [-> |], (decide (cmn.1 = outp)) as [-> |]; [rewrite decide_True by done; by destruct l|rewrite decide_False by congruence; done..].
    - rewrite (fsum_delta F (fun G => if decide (cmn.1 = outp) then if reject (qadd f (if l then G else qneg G)) then 0 else
        1 / two_c * V1 pk root (fr, opt l o (qadd f (if l then G else qneg G))) (fr, opt (negb l) o f) else 0)) by done.
      destruct (decide (F ∈ cmn.2)), (decide (cmn.1 = outp)); [rewrite decide_True by done; done|rewrite decide_False by tauto; done..].
  Qed.
  (** *** the whole element *)
  Lemma through_0 W outp F V V1 a b k : sees W outp F V V1 -> fsum W (through a b k) = 0.
  Proof. intros [_ _ He]. destruct k as [[l o] f]. cbn [through fsum]. rewrite He. ring. Qed.
  Lemma homodyne_parts W outp F V V1 root pk fr_i fr_o bk_i bk_o src outputs cmn srcks frks bkks r : sees W outp F V V1 ->
    homodyne qadd qneg reject root pk fr_i fr_o bk_i bk_o src outputs cmn srcks frks bkks = Ok r ->
    exists a c d, each (fun k => each (insert_coupling qadd qneg reject fr_i src k) outputs) srcks = Ok a /\
      each (hd_common qadd qneg reject root pk fr_i cmn) frks = Ok c /\
      (if decide (src <> fr_i) then each (hd_common qadd qneg reject root pk src cmn) srcks else Ok []) = Ok d /\
      fsum W r = fsum W a + fsum W c + fsum W d.
  Proof.
    intros Hs E. unfold homodyne in E. apply bind_ok in E as (a & Ea & E). apply bind_ok in E as (c & Ec & E). apply bind_ok in E as (d & Ed & E). simplify_eq.
    assert (exists c', each (hd_common qadd qneg reject root pk fr_i cmn) frks = Ok c' /\ fsum W c = fsum W c') as (c' & Ec' & Sc).
    { clear Ea Ed. revert c Ec. induction frks as [|k l IH]; cbn [each]; intros c Ec; [simplify_eq; by exists []|].
      apply bind_ok in Ec as (a' & Ea & Ec). apply bind_ok in Ea as (d' & Ed & Ea). apply bind_ok in Ec as (b' & Eb & Ec). simplify_eq.
      destruct (IH b' Eb) as (c' & -> & Sc). rewrite Ed. exists (d' ++ c'). split; [done|]. rewrite !fsum_app, Sc, (through_0 W outp F V V1 _ _ _ Hs). ring. }
    exists a, c', d. split_and!; try done. rewrite !fsum_app, Sc, fsum_bind, (fsum_0 _ bkks) by (intros k _; by eapply through_0). ring.
  Qed.
  Lemma each_0 {B} W (f : B -> res (list (inj C_fld P (key A Q)))) l r : (forall b r, b ∈ l -> f b = Ok r -> fsum W r = 0) -> each f l = Ok r -> fsum W r = 0.
  Proof. intros Hf E. rewrite (each_sum W f (fun _ => 0) l r Hf E). by apply fsum_0. Qed.
  (** an output of the list *)
  Lemma output_at W F V V1 root pk fr_i fr_o bk_i bk_o src outputs h cmn srcks frks bkks msb r :
    sees W (h_port h) F V V1 -> NoDup (h_port <$> outputs) -> h ∈ outputs -> Forall (fun h => NoDup (h_keys h)) outputs -> NoDup cmn.2 -> cmn.1 <> h_port h -> F ∈ h_keys h ->
    both msb srcks -> homodyne qadd qneg reject root pk fr_i fr_o bk_i bk_o src outputs cmn srcks frks bkks = Ok r ->
    fsum W r = fsum (fun m => if reject (qadd m.2 F) then 0 else h_Std h / two_c * h_adjust h m.1 * V (h_norms h) (h_func h) (fr_i, opt true m.1 (qadd m.2 F)) (src, opt false m.1 m.2)) msb +
      fsum (fun m => if reject (qadd m.2 (qneg F)) then 0 else h_StdC h / two_c * h_adjust h m.1 * V (h_norms h) (h_func h) (fr_i, opt false m.1 (qadd m.2 (qneg F))) (src, opt true m.1 m.2)) msb.
  Proof.
    intros Hs Hnd Hh Hk Hc Hne HFk Hb E. destruct (homodyne_parts W _ _ _ _ _ _ _ _ _ _ _ _ _ _ _ _ _ Hs E) as (a & c & d & Ea & Ec & Ed & ->).
    assert (Hcm : forall fr k r, hd_common qadd qneg reject root pk fr cmn k = Ok r -> fsum W r = 0).
    { intros fr k r' E'. rewrite (common_eq W _ _ _ _ _ _ _ _ _ _ Hs Hc E'). by rewrite decide_False by tauto. }
    rewrite (each_0 W _ _ c (fun k r' _ => Hcm fr_i k r') Ec).
    assert (fsum W d = 0) as ->.
    { destruct (decide _); [|by simplify_eq]. exact (each_0 W _ _ d (fun k r' _ => Hcm src k r') Ed). }
    set (T := fun (h' : hout P A Q) (k : bool * A * Q) => let '(l, o, f) := k in let f' := qadd f (if l then F else qneg F) in
      if reject f' then 0 else (if l then h_Std h' else h_StdC h') / two_c * h_adjust h' o * V (h_norms h') (h_func h') (fr_i, opt l o f') (src, opt (negb l) o f)).
    rewrite (each_sum W (fun k => each (insert_coupling qadd qneg reject fr_i src k) outputs) (T h) srcks a).
    - rewrite (both_sum msb srcks _ Hb). unfold T. cbn [negb]. ring.
    - intros k r' _ Er. rewrite (each_sum W (insert_coupling qadd qneg reject fr_i src k) (fun h' => if decide (h_port h' = h_port h /\ F ∈ h_keys h') then T h' k else 0) outputs r').
      + apply elem_of_list_split in Hh as (l1 & l2 & ->). rewrite fmap_app, fmap_cons in Hnd. apply NoDup_app in Hnd as (_ & Hn1 & Hn2). apply NoDup_cons in Hn2 as [Hn2 _].
        rewrite fsum_app. cbn [fsum]. rewrite decide_True by done. rewrite !fsum_0; [ring| |].
        * intros h' Hh'. rewrite decide_False; [done|]. intros [E' _]. apply Hn2. rewrite <- E'. by apply elem_of_list_fmap_1.
        * intros h' Hh'. rewrite decide_False; [done|]. intros [E' _]. apply (Hn1 (h_port h')); [by apply elem_of_list_fmap_1|]. rewrite E'. left.
      + intros h' r'' Hh' Eh. rewrite (insert_eq W _ _ _ _ _ _ _ _ _ Hs (proj1 (Forall_forall _ _) Hk h' Hh') Eh). by destruct k as [[l o] f].
      + done.
    - done.
  Qed.
  (** the common output *)
  Lemma common_at W F V V1 root pk fr_i fr_o bk_i bk_o src outputs cmn srcks frks bkks msb msa r :
    sees W cmn.1 F V V1 -> Forall (fun h => NoDup (h_keys h)) outputs -> NoDup cmn.2 -> cmn.1 ∉ h_port <$> outputs -> F ∈ cmn.2 ->
    both msb srcks -> both msa frks -> homodyne qadd qneg reject root pk fr_i fr_o bk_i bk_o src outputs cmn srcks frks bkks = Ok r ->
    let part fr ms := fsum (fun m => if reject (qadd m.2 F) then 0 else 1 / two_c * V1 pk root (fr, opt true m.1 (qadd m.2 F)) (fr, opt false m.1 m.2)) ms +
      fsum (fun m => if reject (qadd m.2 (qneg F)) then 0 else 1 / two_c * V1 pk root (fr, opt false m.1 (qadd m.2 (qneg F))) (fr, opt true m.1 m.2)) ms in
    fsum W r = part fr_i msa + (if decide (src <> fr_i) then part src msb else 0).
  Proof.
    intros Hs Hk Hc Hne HFk Hb Hb' E part. destruct (homodyne_parts W _ _ _ _ _ _ _ _ _ _ _ _ _ _ _ _ _ Hs E) as (a & c & d & Ea & Ec & Ed & ->).
    assert (fsum W a = 0) as ->.
    { apply (each_0 W _ srcks a) in Ea; [done|]. intros k r' _ Er. apply (each_0 W _ outputs r') in Er; [done|]. intros h' r'' Hh' Eh.
      rewrite (insert_eq W _ _ _ _ _ _ _ _ _ Hs (proj1 (Forall_forall _ _) Hk h' Hh') Eh). rewrite decide_False; [done|]. intros [E' _]. apply Hne. rewrite <- E'. by apply elem_of_list_fmap_1. }
    assert (Hp : forall fr ms ks c, both ms ks -> each (hd_common qadd qneg reject root pk fr cmn) ks = Ok c -> fsum W c = part fr ms).
    { intros fr ms ks c' Hbb E'.
      rewrite (each_sum W (hd_common qadd qneg reject root pk fr cmn) (fun k : bool * A * Q => let '(l, o, f) := k in let f' := qadd f (if l then F else qneg F) in
        if reject f' then 0 else 1 / two_c * V1 pk root (fr, opt l o f') (fr, opt (negb l) o f)) ks c').
      - rewrite (both_sum ms ks _ Hbb). done.
      - intros k r' _ Ek. rewrite (common_eq W _ _ _ _ _ _ _ _ _ _ Hs Hc Ek). by rewrite decide_True.
      - done. }
    rewrite (Hp fr_i msa frks c Hb' Ec). destruct (decide (src <> fr_i)); [rewrite (Hp src msb srcks d Hb Ed); ring|]. simplify_eq. cbn [fsum]. ring.
  Qed.
End hom.
