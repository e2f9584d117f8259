(** Proofs about the homodyne readout: the product of light and local oscillator, and vacuum. *)
From stdpp Require Import base tactics numbers gmap sets list.
From Coq Require Import Reals Lra.
From Verif Require Import Fld Py Herm ElecModel ElecProofs InjModel InjSpec OptModel SigModel SigSpec SigProofs NoiModel NoiSpec NoiProofs3 PdModel PdSpec PdProofs PdProofs2 PdProofs3 SrcModel SrcSpec SrcProofs HomModel HomSpec HomProofs.
Local Open Scope fld_scope.
Add Field FCHom2 : (f_theory C_fld).

Lemma dist_d (u v w : C_fld) : (u + v) / w = u / w + v / w. Proof. rewrite !(Fdiv_def (f_theory C_fld)). ring. Qed.
Lemma dist_m (u v w : C_fld) : (u + v) * w = u * w + v * w. Proof. ring. Qed.
Lemma add_0_l' (u : C_fld) : 0 + u = u. Proof. ring. Qed.

Section hom.
  Context {P A Q : Type} `{Countable P} `{Countable A} `{Countable Q}.
  Context (qadd : Q -> Q -> Q) (qneg : Q -> Q) (q0 : Q) (Hz : Q -> R) (HF : frequencies qadd qneg q0 Hz).
  Context (reject : Q -> bool).
  Notation mode := (A * Q)%type.
  Notation node := (P * key A Q)%type.
  Notation e f t := (cis (2 * PI * Hz f * t)).

  (** *** sums over two lists of modes *)
  Definition D2 (msb : list mode) (b a : mode -> C_fld) (F : Q) : C_fld := fsum (fun m => cconj (b m) * a (m.1, qadd m.2 F)) msb.
  Lemma product_eq os (msb msa : list mode) (b a : mode -> C_fld) t : carriers os msb ->
    product Hz os msb msa b a t = fsum (fun m => fsum (fun m' => if decide (m'.1 = m.1) then cconj (b m) * a m' * (e m'.2 t * cconj (e m.2 t)) else 0) msa) msb.
  Proof.
    intros [Hno Hin]. unfold product, light.
    rewrite (fsum_ext _ (fun o => fsum (fun m => fsum (fun m' => if decide (o = m.1) then if decide (m'.1 = m.1) then cconj (b m) * a m' * (e m'.2 t * cconj (e m.2 t)) else 0 else 0) msa) msb)).
    - rewrite fsum_swap. apply fsum_ext. intros m Hm. rewrite fsum_swap. apply fsum_ext. intros m' Hm'.
      rewrite (fsum_delta m.1 (fun _ => if decide (m'.1 = m.1) then cconj (b m) * a m' * (e m'.2 t * cconj (e m.2 t)) else 0)) by done.
      by rewrite decide_True by (by apply Hin).
    - intros o _. rewrite cconj_fsum, <- fsum_prod, fsum_swap. apply fsum_ext. intros m _. apply fsum_ext. intros m' _.
      destruct (decide (o = m.1)) as [->|Hne].
      + rewrite (decide_True (P := m.1 = m.1)) by done. destruct (decide (m'.1 = m.1)); [rewrite cconj_mul; ring|ring].
      + rewrite (decide_False (P := m.1 = o)) by congruence. rewrite (conj_0 C_herm : cconj 0 = 0). ring.
  Qed.
  Lemma D2_sum os (msb msa : list mode) lks (b a : mode -> C_fld) t : carriers os msb -> NoDup lks -> NoDup msa -> (forall m, m ∉ msa -> a m = 0) ->
    covers qadd qneg msb msa b a lks -> fsum (fun F => D2 msb b a F * e F t) lks = product Hz os msb msa b a t.
  Proof.
    intros Hc Hl Hna Ha Hdiff. rewrite (product_eq os msb msa b a t Hc). unfold D2.
    rewrite (fsum_ext _ (fun F => fsum (fun m => fsum (fun m' => if decide (F = qadd m'.2 (qneg m.2)) then if decide (m'.1 = m.1) then cconj (b m) * a m' * (e m'.2 t * cconj (e m.2 t)) else 0 else 0) msa) msb)).
    - rewrite fsum_swap. apply fsum_ext. intros m Hm. rewrite fsum_swap. apply fsum_ext. intros m' Hm'.
      rewrite (fsum_delta (qadd m'.2 (qneg m.2)) (fun _ => if decide (m'.1 = m.1) then cconj (b m) * a m' * (e m'.2 t * cconj (e m.2 t)) else 0)) by done.
      destruct (decide (m'.1 = m.1)) as [E|]; [|by destruct (decide _)]. destruct (Hdiff m m' Hm Hm') as [E0|[E0|Hin]]; [done| | |by rewrite decide_True].
      + rewrite E0, (conj_0 C_herm : cconj 0 = 0). destruct (decide _); ring.
      + rewrite E0. destruct (decide _); ring.
    - intros F _. rewrite <- fsum_mul_r. apply fsum_ext. intros m Hm. destruct m as [o f]. cbn [fst snd].
      assert (Ea : a (o, qadd f F) = fsum (fun m' => if decide (m' = (o, qadd f F)) then a m' else 0) msa).
      { rewrite fsum_delta by done. destruct (decide _) as [|N]; [done|]. by apply Ha. }
      rewrite Ea, <- fsum_mul_l, <- fsum_mul_r. apply fsum_ext. intros [o' f'] Hm'. cbn [fst snd].
      destruct (decide ((o', f') = (o, qadd f F))) as [E|E].
      + injection E as -> ->. rewrite (decide_True (P := o = o)) by done.
        rewrite (decide_True (P := F = _)) by (by apply (fq_shift _ _ _ _ HF)).
        rewrite !(e_add qadd qneg q0 Hz HF), <- (e_neg qadd qneg q0 Hz HF).
        transitivity (cconj (b (o, f)) * a (o, qadd f F) * (e F t * (e f t * e (qneg f) t))); [|ring].
        rewrite <- (e_add qadd qneg q0 Hz HF), (fq_neg _ _ _ _ HF), (fq_Hz0 _ _ _ _ HF). replace (2 * PI * 0 * t)%R with 0%R by ring.
        assert (cis 0 = 1) as -> by (unfold cis; by rewrite cos_0, sin_0). ring.
      + rewrite if_and, decide_False; [ring|]. intros [E1 E2]. apply E. f_equal; [done|]. symmetry. by apply (fq_shift _ _ _ _ HF).
  Qed.
  Lemma D2_conj os (msb msa : list mode) lks (b a : mode -> C_fld) t : carriers os msb -> signal_keys qneg lks -> NoDup msa -> (forall m, m ∉ msa -> a m = 0) ->
    covers qadd qneg msb msa b a lks -> fsum (fun F => cconj (D2 msb b a (qneg F)) * e F t) lks = cconj (product Hz os msb msa b a t).
  Proof.
    intros Hc [Hl Hln] Hna Ha Hdiff. rewrite <- (D2_sum os msb msa lks b a t) by done. rewrite (fsum_neg qadd qneg q0 Hz HF) by done.
    rewrite cconj_fsum. apply fsum_ext. intros F _. by rewrite cconj_mul, (fq_nn qadd qneg q0 Hz HF), (e_neg qadd qneg q0 Hz HF).
  Qed.
  Lemma shift_sum2 (msb ms : list mode) (g : mode -> C_fld) F : NoDup ms -> NoDup msb -> (forall m, m ∉ msb -> g m = 0) -> (forall m, m ∈ msb -> g m = 0 \/ (m.1, qadd m.2 F) ∈ ms) ->
    fsum (fun m => g (m.1, qadd m.2 (qneg F))) ms = fsum g msb.
  Proof.
    intros Hn Hnb Hg Hs.
    transitivity (fsum (fun m => fsum (fun m' => if decide (m' = (m.1, qadd m.2 (qneg F))) then g m' else 0) msb) ms).
    { apply fsum_ext. intros m _. rewrite fsum_delta by done. destruct (decide _) as [|N]; [done|]. by apply Hg. }
    rewrite fsum_swap. apply fsum_ext. intros m' Hm'.
    transitivity (fsum (fun m => if decide (m = (m'.1, qadd m'.2 F)) then g m' else 0) ms).
    { apply fsum_ext. intros m _. destruct m as [o f], m' as [o' f']. cbn [fst snd].
      destruct (decide ((o', f') = (o, _))) as [E|N], (decide ((o, f) = (o', _))) as [E'|N']; try done.
      - exfalso. apply N'. injection E as -> ->. by rewrite (fq_forth _ _ _ _ HF).
      - exfalso. apply N. injection E' as -> ->. by rewrite (fq_back _ _ _ _ HF). }
    rewrite (fsum_delta _ (fun _ => g m')) by done. destruct (decide _) as [|N]; [done|]. destruct (Hs m' Hm') as [E|E]; done.
  Qed.

  (** *** what the outputs read *)
  Context (root : C_fld -> C_fld) (pk : node) (fr_i fr_o bk_i bk_o src : P) (outputs : list (hout P A Q)) (cmn : P * list Q).
  Context (srcks frks bkks : list (bool * A * Q)) (msb msa : list mode) (r : list (inj C_fld P (key A Q))) (x : gmap node C_fld) (big : C_fld).
  Context (HW : wired qneg outputs cmn) (Hb : both msb srcks) (E : homodyne qadd qneg reject root pk fr_i fr_o bk_i bk_o src outputs cmn srcks frks bkks = Ok r).
  Notation b := (lower_at (field x) src).
  Notation a := (lower_at (field x) fr_i).

  Lemma norm_val h N z : norm_of h x N -> h_func h ((fun n => sget x n z) <$> h_norms h) = N.
  Proof.
    intros (vs & Hv & <-). f_equal. induction Hv as [|n v ns vs Hn Hv IH]; [done|]. rewrite fmap_cons, IH. unfold sget. by rewrite Hn.
  Qed.
  Lemma wired_keys : Forall (fun h => NoDup (h_keys h)) outputs.
  Proof. apply Forall_forall. intros h Hh. apply (wi_keys _ _ _ HW h Hh). Qed.
  Lemma wired_port h : h ∈ outputs -> cmn.1 <> h_port h.
  Proof. intros Hh E'. apply (wi_common _ _ _ HW). rewrite E'. by apply elem_of_list_fmap_1. Qed.
  Lemma read_at h N F : shines (field x) src msb -> shines (field x) fr_i msa -> (forall m, m ∈ msa -> reject m.2 = false) ->
    h ∈ outputs -> hermitian h -> norm_of h x N -> F ∈ h_keys h ->
    reads big r x (h_port h, cls F) = (h_Std h / two_c * D2 msb (scaled (h_adjust h) b) a F + h_StdC h / two_c * cconj (D2 msb (scaled (h_adjust h) b) a (qneg F))) / N.
  Proof.
    intros Hsb Hsa Hrej Hh [_ Hadj] HN HFk. rewrite reads_eq.
    rewrite (output_at qadd qneg q0 Hz HF reject _ F _ _ root pk fr_i fr_o bk_i bk_o src outputs h cmn srcks frks bkks msb r (reads_sees big x (h_port h) F)); try done;
      [|apply (wi_ports _ _ _ HW)|apply wired_keys|apply (wi_ckeys _ _ _ HW)|by apply wired_port].
    rewrite (norm_val h N big HN). unfold D2. rewrite cconj_fsum.
    assert (Hc0 : cconj 0 = 0) by apply (conj_0 C_herm).
    rewrite <- !fsum_mul_l. rewrite dist_d. f_equal; rewrite (Fdiv_def (f_theory C_fld) (fsum _ _) N), <- fsum_mul_r; apply fsum_ext; intros [o f] _; unfold scaled; cbn [fst snd].
    - change (field x (fr_i, opt true o (qadd f F))) with (a (o, qadd f F)). change (field x (src, opt false o f)) with (raise_at (field x) src (o, f)). rewrite (sh_conj _ _ _ Hsb), cconj_mul, Hadj.
      destruct (reject (qadd f F)) eqn:Er; [|rewrite !(Fdiv_def (f_theory C_fld)); ring].
      rewrite (sh_else _ _ _ Hsa (o, qadd f F)); [ring|]. intros Hin. apply Hrej in Hin. cbn in Hin. congruence.
    - change (field x (fr_i, opt false o (qadd f (qneg F)))) with (raise_at (field x) fr_i (o, qadd f (qneg F))). change (field x (src, opt true o f)) with (b (o, f)). rewrite (sh_conj _ _ _ Hsa), !cconj_mul, !cconj_conj.
      destruct (reject (qadd f (qneg F))) eqn:Er; [|rewrite !(Fdiv_def (f_theory C_fld)); ring].
      rewrite (sh_else _ _ _ Hsa (o, qadd f (qneg F))); [rewrite Hc0; ring|]. intros Hin. apply Hrej in Hin. cbn in Hin. congruence.
  Qed.
  Lemma plain_div (ks : list Q) (g : Q -> C_fld) N t : plain Hz ks (fun F => g F / N) t = plain Hz ks g t / N.
  Proof. unfold plain. rewrite (Fdiv_def (f_theory C_fld)), <- fsum_mul_r. apply fsum_ext. intros F _. rewrite (Fdiv_def (f_theory C_fld)). ring. Qed.
  Lemma reading h N os t : shines (field x) src msb -> shines (field x) fr_i msa -> (forall m, m ∈ msa -> reject m.2 = false) ->
    h ∈ outputs -> hermitian h -> norm_of h x N -> carriers os msb -> covers qadd qneg msb msa b a (h_keys h) ->
    plain Hz (h_keys h) (fun F => reads big r x (h_port h, cls F)) t = real_part (h_Std h * product Hz os msb msa (scaled (h_adjust h) b) a t) / N.
  Proof.
    intros Hsb Hsa Hrej Hh Hherm HN Hc Hcov.
    assert (Hcov' : covers qadd qneg msb msa (scaled (h_adjust h) b) a (h_keys h)).
    { intros m m' Hm Hm' Em. destruct (Hcov m m' Hm Hm' Em) as [E0|Hx]; [left; unfold scaled; rewrite E0; ring|by right]. }
    destruct (wi_keys _ _ _ HW h Hh) as [Hk Hkn].
    transitivity (plain Hz (h_keys h) (fun F => h_Std h / two_c * D2 msb (scaled (h_adjust h) b) a F + h_StdC h / two_c * cconj (D2 msb (scaled (h_adjust h) b) a (qneg F))) t / N).
    { rewrite <- plain_div. unfold plain. apply fsum_ext. intros F HFk. rewrite (read_at h N F) by done. done. }
    f_equal. rewrite <- re_half. unfold plain. rewrite cconj_mul.
    rewrite <- (D2_conj os msb msa (h_keys h) (scaled (h_adjust h) b) a t), <- (D2_sum os msb msa (h_keys h) (scaled (h_adjust h) b) a t); try done;
      [|apply (sh_modes _ _ _ Hsa)|apply (sh_else _ _ _ Hsa)|apply (sh_modes _ _ _ Hsa)|apply (sh_else _ _ _ Hsa)].
    destruct Hherm as [-> _]. rewrite <- !fsum_mul_l, <- fsum_add, <- fsum_mul_l. apply fsum_ext. intros F _. change two_c with (1 + 1 : C_fld). rewrite !(Fdiv_def (f_theory C_fld)). ring.
  Qed.

  (** *** vacuum *)
  Lemma vac_unit h N F m : shines (field x) src msb -> src <> fr_i -> h ∈ outputs -> hermitian h -> norm_of h x N -> F ∈ h_keys h -> reject m.2 = false ->
    response r x (unit_at (fr_i, opt true m.1 m.2)) (h_port h, cls F) = h_Std h / two_c * (h_adjust h m.1 * cconj (b (m.1, qadd m.2 (qneg F)))) / N /\
    response r x (unit_at (fr_i, opt false m.1 m.2)) (h_port h, cls F) = h_StdC h / two_c * (h_adjust h m.1 * b (m.1, qadd m.2 F)) / N.
  Proof.
    intros Hsb Hne Hh [_ Hadj] HN HFk Hrej. destruct m as [o f]. cbn [fst snd] in *. rewrite !response_eq.
    assert (G : forall d, fsum (Wres x d (h_port h, cls F)) r = _) by (intros d; refine (output_at qadd qneg q0 Hz HF reject _ F _ _ root pk fr_i fr_o bk_i bk_o src outputs h cmn srcks frks bkks msb r (resp_sees x d (h_port h) F) _ _ _ _ _ _ _ _);
      try done; [apply (wi_ports _ _ _ HW)|apply wired_keys|apply (wi_ckeys _ _ _ HW)|by apply wired_port]).
    rewrite !G. clear G. rewrite (norm_val h N 0 HN).
    assert (U2 : forall l l' (o' : A) (f' : Q) (o : A) (f : Q), unit_at (fr_i, opt l o' f') (src, opt l' o f) = 0).
    { intros. unfold unit_at. rewrite decide_False; [done|]. intros [= ? _]. done. }
    assert (U3 : forall l l' (o' : A) (f' : Q) (o : A) (f : Q), unit_at (fr_i, opt l o' f') (fr_i, opt l' o f) = if decide (l' = l) then if decide ((o, f) = (o', f')) then 1 else 0 else 0).
    { intros l l' o1 f1 o2 f2. unfold unit_at, opt. repeat case_decide; try done; congruence. }
    split.
    - rewrite (fsum_0 (fun m => if reject (qadd m.2 (qneg F)) then _ else _)).
      2: { intros m _. destruct (reject (qadd m.2 (qneg F))); [done|]. rewrite U2, U3, decide_False by done. rewrite !(Fdiv_def (f_theory C_fld)). ring. }
      transitivity (fsum (fun m => if decide (m = (o, qadd f (qneg F))) then h_Std h / two_c * (h_adjust h o * cconj (b m)) / N else 0) msb).
      + rewrite cadd_0. apply fsum_ext. intros [o' f'] _. cbn [fst snd]. rewrite U2, U3, (decide_True (P := true = true)) by done.
        destruct (decide ((o', f') = _)) as [E'|N'].
        * injection E' as -> ->. rewrite (fq_forth _ _ _ _ HF), Hrej, decide_True by done. change (field x (src, opt false o (qadd f (qneg F)))) with (raise_at (field x) src (o, qadd f (qneg F))). rewrite (sh_conj _ _ _ Hsb), !(Fdiv_def (f_theory C_fld)). ring.
        * rewrite decide_False; [destruct (reject (qadd f' F)); [done|rewrite !(Fdiv_def (f_theory C_fld)); ring]|]. intros [= -> E2]. apply N'. f_equal. rewrite <- E2. by rewrite (fq_back _ _ _ _ HF).
      + rewrite (fsum_delta (o, qadd f (qneg F)) (fun m => h_Std h / two_c * (h_adjust h o * cconj (b m)) / N)) by apply (sh_modes _ _ _ Hsb).
        destruct (decide _) as [|N']; [done|]. rewrite (sh_else _ _ _ Hsb) by done. rewrite (conj_0 C_herm : cconj 0 = 0), !(Fdiv_def (f_theory C_fld)). ring.
    - rewrite (fsum_0 (fun m => if reject (qadd m.2 F) then _ else _)).
      2: { intros m _. destruct (reject (qadd m.2 F)); [done|]. rewrite U2, U3, decide_False by done. rewrite !(Fdiv_def (f_theory C_fld)). ring. }
      transitivity (fsum (fun m => if decide (m = (o, qadd f F)) then h_StdC h / two_c * (h_adjust h o * b m) / N else 0) msb).
      + rewrite add_0_l'. apply fsum_ext. intros [o' f'] _. cbn [fst snd]. rewrite U2, U3, (decide_True (P := false = false)) by done.
        destruct (decide ((o', f') = _)) as [E'|N'].
        * injection E' as -> ->. rewrite (fq_back _ _ _ _ HF), Hrej, decide_True by done. change (field x (src, opt true o (qadd f F))) with (b (o, qadd f F)). rewrite !(Fdiv_def (f_theory C_fld)). ring.
        * rewrite decide_False; [destruct (reject (qadd f' (qneg F))); [done|rewrite !(Fdiv_def (f_theory C_fld)); ring]|]. intros [= -> E2]. apply N'. f_equal. rewrite <- E2. by rewrite (fq_forth _ _ _ _ HF).
      + rewrite (fsum_delta (o, qadd f F) (fun m => h_StdC h / two_c * (h_adjust h o * b m) / N)) by apply (sh_modes _ _ _ Hsb).
        destruct (decide _) as [|N']; [done|]. rewrite (sh_else _ _ _ Hsb) by done. rewrite !(Fdiv_def (f_theory C_fld)). ring.
  Qed.
End hom.
