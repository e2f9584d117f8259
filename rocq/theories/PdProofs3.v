(** Photodiodes, modulators and moving mirrors. *)
From stdpp Require Import base tactics numbers gmap sets list.
From Coq Require Import Reals Lra.
From Verif Require Import Fld Py Herm ElecModel InjModel InjSpec OptModel SigModel SigSpec SigProofs NoiProofs3 PdModel PdSpec PdProofs PdProofs2.
Local Open Scope fld_scope.
Add Field FCPd3 : (f_theory C_fld).

Section pd.
  Context {P A Q : Type} `{Countable P} `{Countable A} `{Countable Q}.
  Context (qadd : Q -> Q -> Q) (qneg : Q -> Q) (q0 : Q) (Hz : Q -> R) (HF : frequencies qadd qneg q0 Hz).
  Context (reject : Q -> bool).
  Notation fill := (modulations_fill (P := P) (A := A) (Q := Q) qadd qneg reject).
  Notation mode := (A * Q)%type.
  Notation node := (P * key A Q)%type.
  Notation e f t := (cis (2 * PI * Hz f * t)).
  Implicit Types (ms : list mode) (ks : list (bool * A * Q)) (x d : node -> C_fld) (r : list (inj C_fld P (key A Q))).

  Definition Warr x (n : node) (j : inj C_fld P (key A Q)) : C_fld := if decide (target j = n) then amount 0 x ∅ j else 0.
  Lemma arrives_eq r x n : arrives r x n = fsum (Warr x n) r.
  Proof. unfold arrives, total. cbn [fsum]. apply cadd_0. Qed.
  Definition Wres (s : gmap node C_fld) d (n : node) (j : inj C_fld P (key A Q)) : C_fld :=
    fsum (fun e => if decide (e.1.2 = n) then e.2.1 s * d e.1.1 else 0) (inj_edges 0 j).
  Lemma response_eq r s d n : response r s d n = fsum (Wres s d n) r.
  Proof. done. Qed.

  Lemma arr_lights x pfrom pto inp l o f' :
    lights (Warr x (pto, opt l o f')) pfrom pto inp (pto, opt l o f')
      (fun k F => x (pfrom, opt k.1.1 k.1.2 k.2) * x (inp, cls F)) (fun k => x (pfrom, opt k.1.1 k.1.2 k.2)).
  Proof.
    split; intros; unfold Warr; cbn [target amount fst snd].
    - destruct (decide _); [ring|done].
    - done.
    - by rewrite decide_False by done.
  Qed.
  Lemma res_lights s d pfrom pto inp l o f' :
    lights (Wres s d (pto, opt l o f')) pfrom pto inp (pto, opt l o f')
      (fun k F => field s (pfrom, opt k.1.1 k.1.2 k.2) * d (inp, cls F) + d (pfrom, opt k.1.1 k.1.2 k.2) * field s (inp, cls F))
      (fun k => d (pfrom, opt k.1.1 k.1.2 k.2)).
  Proof.
    split; intros; unfold Wres; cbn [inj_edges fst snd].
    - rewrite decide_True by done. cbn [fsum fst snd]. unfold t_edge1, t_edge2, field.
      destruct (decide (n' = _)); ring.
    - cbn [fsum fst snd]. destruct (decide (n' = _)); ring.
    - cbn [fsum fst snd]. rewrite decide_False by done. ring.
  Qed.
  Lemma arr_signals x pfrom outp F :
    signals (Warr x (outp, cls F)) pfrom outp (outp, cls F) (fun l o f f' => x (pfrom, opt (negb l) o f) * x (pfrom, opt l o f')).
  Proof.
    split; intros; unfold Warr; cbn [target amount foldr].
    - destruct (decide _); [ring|done].
    - by rewrite decide_False by done.
    - by rewrite decide_False by done.
  Qed.
  Lemma res_signals s d pfrom outp F :
    signals (Wres s d (outp, cls F)) pfrom outp (outp, cls F) (fun l o f f' => field s (pfrom, opt (negb l) o f) * d (pfrom, opt l o f')).
  Proof.
    split; intros; unfold Wres; cbn [inj_edges fst snd].
    - cbn [fsum fst snd]. unfold mult_func, field. cbn [foldl]. destruct (decide (n' = _)); ring.
    - destruct (decide _); cbn [fsum fst snd]; rewrite !decide_False by done; ring.
    - cbn [fsum fst snd]. rewrite !decide_False by done. ring.
  Qed.

  (** the signal at a port, as a function of time *)
  Lemma out_wave x pfrom outp ms os ks lks pto inp Std StdC CL CLC BA BAC (thr : bool) r t :
    shines x pfrom ms -> carriers os ms -> both ms ks -> (forall m, m ∈ ms -> reject m.2 = false) ->
    NoDup lks -> keys_ok inp ->
    differences qadd qneg (dark x pfrom) (dark x pfrom) ms lks ->
    each (fun k => fill pfrom k pto inp (Some (outp, lks)) Std StdC (CL k.1.2) (CLC k.1.2) BA BAC thr) ks = Ok r ->
    wave q0 Hz lks (fun F => arrives r x (outp, cls F)) t = (Std * BA + StdC * BAC) / two_c * intensity Hz os ms (lower_at x pfrom) t.
  Proof.
    intros [Hnd Helse Hconj] Hc Hb Hr Hl Hi Hdiff E. unfold wave, intensity.
    rewrite <- (D_sum qadd qneg q0 Hz HF os ms lks (lower_at x pfrom) (lower_at x pfrom) t Hc Hl Hdiff), <- fsum_mul_l.
    apply fsum_ext. intros F HFl. rewrite arrives_eq.
    rewrite (signal_at qadd qneg q0 Hz HF reject _ pfrom outp _ ms ks lks pto inp Std StdC CL CLC BA BAC thr (lower_at x pfrom) (lower_at x pfrom) r F (arr_signals x pfrom outp F)); try done.
    - rewrite (decide_True (P := _ ∈ lks)) by done. unfold cF. change (1 + 1 : C_fld) with two_c. destruct (decide (F = q0)); field; apply two_c_neq_0.
    - intros o f f'. cbn [negb]. by rewrite <- (Hconj (o, f)).
    - intros o f f'. cbn [negb]. by rewrite <- (Hconj (o, f')).
  Qed.
  Lemma out_mean x pfrom outp ms ks lks pto inp Std StdC CL CLC BA BAC (thr : bool) r :
    shines x pfrom ms -> both ms ks -> (forall m, m ∈ ms -> reject m.2 = false) ->
    NoDup lks -> keys_ok inp -> q0 ∈ lks ->
    each (fun k => fill pfrom k pto inp (Some (outp, lks)) Std StdC (CL k.1.2) (CLC k.1.2) BA BAC thr) ks = Ok r ->
    arrives r x (outp, cls q0) = (Std * BA + StdC * BAC) / two_c * fsum (fun m => lower_at x pfrom m * cconj (lower_at x pfrom m)) ms.
  Proof.
    intros [Hnd Helse Hconj] Hb Hr Hl Hi H0l E. rewrite arrives_eq.
    rewrite (signal_at qadd qneg q0 Hz HF reject _ pfrom outp _ ms ks lks pto inp Std StdC CL CLC BA BAC thr (lower_at x pfrom) (lower_at x pfrom) r q0 (arr_signals x pfrom outp q0)); try done.
    - rewrite (decide_True (P := _ ∈ lks)) by done. unfold cF. rewrite decide_True by done.
      assert (D qadd ms (lower_at x pfrom) (lower_at x pfrom) q0 = fsum (fun m => lower_at x pfrom m * cconj (lower_at x pfrom m)) ms) as ->.
      { unfold D. apply fsum_ext. intros m Hm. rewrite (fq_zero _ _ _ _ HF).
        rewrite (fsum_delta (m.1, m.2) (fun m' => cconj (lower_at x pfrom m) * lower_at x pfrom m')) by done.
        destruct m as [o f]. rewrite decide_True by done. cbn [fst snd]. ring. }
      field. apply two_c_neq_0.
    - intros o f f'. cbn [negb]. by rewrite <- (Hconj (o, f)).
    - intros o f f'. cbn [negb]. by rewrite <- (Hconj (o, f')).
  Qed.
  Lemma out_note x pfrom outp ms ks lks pto inp Std StdC CL CLC BA BAC (thr : bool) r F :
    shines x pfrom ms -> both ms ks -> (forall m, m ∈ ms -> reject m.2 = false) ->
    NoDup lks -> keys_ok inp -> F ∈ lks ->
    each (fun k => fill pfrom k pto inp (Some (outp, lks)) Std StdC (CL k.1.2) (CLC k.1.2) BA BAC thr) ks = Ok r ->
    arrives r x (outp, cls F) = (Std * BA + StdC * BAC) / two_c * ((if decide (F = q0) then 1 else two_c) * beat_note qadd ms (lower_at x pfrom) F).
  Proof.
    intros [Hnd Helse Hconj] Hb Hr Hl Hi HFl E. rewrite arrives_eq.
    rewrite (signal_at qadd qneg q0 Hz HF reject _ pfrom outp _ ms ks lks pto inp Std StdC CL CLC BA BAC thr (lower_at x pfrom) (lower_at x pfrom) r F (arr_signals x pfrom outp F)); try done.
    - rewrite (decide_True (P := _ ∈ lks)) by done. unfold cF. change (D qadd ms (lower_at x pfrom) (lower_at x pfrom) F) with (beat_note qadd ms (lower_at x pfrom) F).
      destruct (decide (F = q0)); field; apply two_c_neq_0.
    - intros o f f'. cbn [negb]. by rewrite <- (Hconj (o, f)).
    - intros o f f'. cbn [negb]. by rewrite <- (Hconj (o, f')).
  Qed.
  Lemma out_response s d pfrom outp ms os ks lks pto inp Std StdC CL CLC BA BAC (thr : bool) r t :
    shines (field s) pfrom ms -> shines d pfrom ms -> carriers os ms -> both ms ks -> (forall m, m ∈ ms -> reject m.2 = false) ->
    NoDup lks -> keys_ok inp ->
    signal_keys qneg lks -> differences qadd qneg (dark (field s) pfrom) (dark d pfrom) ms lks ->
    (forall m, lower_at (field s) pfrom m = 0 \/ lower_at d pfrom m = 0) ->
    each (fun k => fill pfrom k pto inp (Some (outp, lks)) Std StdC (CL k.1.2) (CLC k.1.2) BA BAC thr) ks = Ok r ->
    plain Hz lks (fun F => response r s d (outp, cls F)) t =
    Std * BA * beat Hz os ms (lower_at d pfrom) (lower_at (field s) pfrom) t +
    StdC * BAC * beat Hz os ms (lower_at (field s) pfrom) (lower_at d pfrom) t.
  Proof.
    intros [Hnd Helse Hconj] [_ Helse' Hconj'] Hc Hb Hr Hl Hi [_ Hneg] Hdiff Hdis E. unfold plain.
    rewrite <- (D_sum qadd qneg q0 Hz HF os ms lks (lower_at (field s) pfrom) (lower_at d pfrom) t Hc Hl Hdiff).
    rewrite <- (D_sum qadd qneg q0 Hz HF os ms lks (lower_at d pfrom) (lower_at (field s) pfrom) t Hc Hl).
    2: { intros m m' Hm Hm' Ho. destruct (Hdiff m' m Hm' Hm (eq_sym Ho)) as [?|[?|Hin]]; [by right; left|by left|].
         right; right. apply Hneg in Hin. by rewrite (fq_neg_sub _ _ _ _ HF) in Hin. }
    rewrite <- !fsum_mul_l, <- fsum_add.
    apply fsum_ext. intros F HFl. rewrite response_eq.
    rewrite (signal_at qadd qneg q0 Hz HF reject _ pfrom outp _ ms ks lks pto inp Std StdC CL CLC BA BAC thr (lower_at (field s) pfrom) (lower_at d pfrom) r F (res_signals s d pfrom outp F)); try done.
    - rewrite (decide_True (P := _ ∈ lks)) by done. unfold cF. destruct (decide (F = q0)) as [->|]; [|ring].
      assert (forall a b, (forall m, a m = 0 \/ b m = 0) -> D qadd ms a b q0 = 0) as HD.
      { intros a b Hab. unfold D. apply fsum_0. intros m Hm. apply fsum_0. intros m' Hm'. destruct (decide _) as [->|]; [|done].
        rewrite (fq_zero _ _ _ _ HF). destruct m as [o f]. cbn [fst snd]. destruct (Hab (o, f)) as [-> | ->]; [|ring].
        assert (cconj 0 = 0) as -> by (unfold cconj, C_conj; apply (f_equal2 pair); simpl; ring). ring. }
      rewrite HD, (HD (lower_at d pfrom)); [ring| |done]. intros m. destruct (Hdis m); auto.
    - intros o f f'. cbn [negb]. by rewrite <- (Hconj (o, f)).
    - intros o f f'. cbn [negb]. by rewrite <- (Hconj' (o, f')).
  Qed.

  (** drives *)
  Definition osc (x : node -> C_fld) (inp : P) (lks : list Q) (t : R) : C_fld :=
    fsum (fun F => if decide (F = q0) then 0 else x (inp, cls F) * e F t) lks.
  Lemma osc_wave x inp lks t : (q0 ∈ lks -> x (inp, cls q0) = 0) -> osc x inp lks t = two_c * wave q0 Hz lks (fun F => x (inp, cls F)) t.
  Proof.
    intros Hx. unfold osc, wave. rewrite <- fsum_mul_l. apply fsum_ext. intros F HFl. destruct (decide (F = q0)) as [->|].
    - rewrite Hx by done. ring.
    - change (1 + 1 : C_fld) with two_c. field. apply two_c_neq_0.
  Qed.
  Lemma osc_plain x inp lks t : (q0 ∈ lks -> x (inp, cls q0) = 0) -> osc x inp lks t = plain Hz lks (fun F => x (inp, cls F)) t.
  Proof.
    intros Hx. unfold osc, plain. apply fsum_ext. intros F HFl. destruct (decide (F = q0)) as [->|]; [|done].
    rewrite Hx by done. ring.
  Qed.
  Lemma drive_light x pfrom pto inp ms ms' ks lks outp Std StdC CL CLC BA BAC (thr : bool) r t o :
    NoDup lks -> keys_ok outp -> both ms ks -> NoDup ms' ->
    (forall m F, m ∈ ms -> F ∈ lks -> F <> q0 -> dark x pfrom m \/ ((m.1, qadd m.2 F) ∈ ms' /\ reject (qadd m.2 F) = false)) ->
    (thr = true -> forall m, m ∈ ms -> m ∈ ms') ->
    each (fun k => fill pfrom k (Some pto) (Some (inp, lks)) outp (Std k.1.2) (StdC k.1.2) (CL k.1.2) (CLC k.1.2) BA BAC thr) ks = Ok r ->
    light Hz ms' (fun m => arrives r x (pto, opt true m.1 m.2)) o t =
    Std o * light Hz ms (lower_at x pfrom) o t * ((if thr then 1 else 0) + CL o * osc x inp lks t).
  Proof.
    intros Hl Hk Hb Hn' Hs Ht E.
    transitivity (light Hz ms' (fun m => fsum (Warr x (pto, opt true m.1 m.2)) r) o t).
    { unfold light. apply fsum_ext. intros m _. by rewrite arrives_eq. }
    rewrite (light_out qadd qneg q0 Hz HF reject (fun m => Warr x (pto, opt true m.1 m.2)) pfrom pto inp _ _ ms ms' ks lks outp Std StdC CL CLC BA BAC thr r t o (fun m _ => arr_lights x pfrom pto inp true m.1 m.2)); try done.
    2: { intros m F Hm HFl Hne. cbn [fst snd]. destruct (Hs m F Hm HFl Hne) as [Hdk|?]; [left|by right].
         change (x (pfrom, opt true m.1 m.2)) with (lower_at x pfrom m). rewrite Hdk. ring. }
    unfold light. cbn [fst snd].
    assert (forall a b c z : C_fld, b * c = z -> a * z = a * b * c) as X by (intros a b c z <-; ring). apply X.
    rewrite <- fsum_mul_r. apply fsum_ext. intros m _. destruct (decide (m.1 = o)) as [Eo|]; [|ring]. fold (lower_at x pfrom m).
    assert (fsum (fun F => if decide (F = q0) then 0 else lower_at x pfrom m * x (inp, cls F) * e F t) lks = lower_at x pfrom m * osc x inp lks t) as ->.
    { unfold osc. rewrite <- fsum_mul_l. apply fsum_ext. intros F _. destruct (decide _); ring. }
    destruct thr; ring.
  Qed.
  Lemma drive_response s d pfrom pto inp ms ms' ks lks outp Std StdC CL CLC BA BAC (thr : bool) r t o :
    NoDup lks -> keys_ok outp -> both ms ks -> NoDup ms' ->
    (forall m F, m ∈ ms -> F ∈ lks -> F <> q0 -> (dark (field s) pfrom m /\ dark d pfrom m) \/ ((m.1, qadd m.2 F) ∈ ms' /\ reject (qadd m.2 F) = false)) ->
    (thr = true -> forall m, m ∈ ms -> m ∈ ms') ->
    each (fun k => fill pfrom k (Some pto) (Some (inp, lks)) outp (Std k.1.2) (StdC k.1.2) (CL k.1.2) (CLC k.1.2) BA BAC thr) ks = Ok r ->
    light Hz ms' (fun m => response r s d (pto, opt true m.1 m.2)) o t =
    Std o * (light Hz ms (lower_at d pfrom) o t * ((if thr then 1 else 0) + CL o * osc (field s) inp lks t) +
             light Hz ms (lower_at (field s) pfrom) o t * (CL o * osc d inp lks t)).
  Proof.
    intros Hl Hk Hb Hn' Hs Ht E.
    change (light Hz ms' (fun m => fsum (Wres s d (pto, opt true m.1 m.2)) r) o t =
      Std o * (light Hz ms (lower_at d pfrom) o t * ((if thr then 1 else 0) + CL o * osc (field s) inp lks t) +
             light Hz ms (lower_at (field s) pfrom) o t * (CL o * osc d inp lks t))).
    rewrite (light_out qadd qneg q0 Hz HF reject (fun m => Wres s d (pto, opt true m.1 m.2)) pfrom pto inp _ _ ms ms' ks lks outp Std StdC CL CLC BA BAC thr r t o (fun m _ => res_lights s d pfrom pto inp true m.1 m.2)); try done.
    2: { intros m F Hm HFl Hne. cbn [fst snd]. destruct (Hs m F Hm HFl Hne) as [[Hdk Hdk']|?]; [left|by right].
         change (field s (pfrom, opt true m.1 m.2)) with (lower_at (field s) pfrom m). change (d (pfrom, opt true m.1 m.2)) with (lower_at d pfrom m).
         rewrite Hdk, Hdk'. ring. }
    f_equal. unfold light. cbn [fst snd].
    rewrite <- !fsum_mul_r, <- fsum_add. apply fsum_ext. intros m _. destruct (decide (m.1 = o)) as [Eo|]; [|ring].
    fold (lower_at d pfrom m). fold (lower_at (field s) pfrom m).
    assert (fsum (fun F => if decide (F = q0) then 0 else (lower_at (field s) pfrom m * d (inp, cls F) + lower_at d pfrom m * field s (inp, cls F)) * e F t) lks =
      lower_at (field s) pfrom m * osc d inp lks t + lower_at d pfrom m * osc (field s) inp lks t) as ->.
    { unfold osc. rewrite <- !fsum_mul_l, <- fsum_add. apply fsum_ext. intros F _. destruct (decide _); ring. }
    destruct thr; ring.
  Qed.
  Lemma drive_mode x pfrom pto inp ms ks lks outp Std StdC CL CLC BA BAC (thr : bool) r o f :
    shines x pfrom ms -> NoDup lks -> keys_ok outp -> both ms ks -> reject f = false ->
    each (fun k => fill pfrom k (Some pto) (Some (inp, lks)) outp (Std k.1.2) (StdC k.1.2) (CL k.1.2) (CLC k.1.2) BA BAC thr) ks = Ok r ->
    arrives r x (pto, opt true o f) =
    Std o * ((if thr then lower_at x pfrom (o, f) else 0) + CL o * shifted qadd qneg q0 x pfrom inp lks o f).
  Proof.
    intros [Hnd Helse _] Hl Hk Hb Hr E. rewrite arrives_eq.
    rewrite (light_at qadd qneg q0 Hz HF reject _ pfrom pto inp true o f _ _ ms ks lks outp Std StdC CL CLC BA BAC thr r (arr_lights x pfrom pto inp true o f)) by done.
    cbn [fst snd]. rewrite Hr.
    assert (forall g, fsum (fun m => if decide (m = (o, g)) then lower_at x pfrom m else 0) ms = lower_at x pfrom (o, g)) as Hpick.
    { intros g. rewrite (fsum_delta (o, g) (lower_at x pfrom)) by done. destruct (decide _); [done|]. symmetry. by apply Helse. }
    rewrite (fsum_ext _ (fun m => fsum (fun F => Std o * CL o * (if decide (F = q0) then 0 else x (inp, cls F) * (if decide (m = (o, qadd f (qneg F))) then lower_at x pfrom m else 0))) lks +
      Std o * (if thr then if decide (m = (o, f)) then lower_at x pfrom m else 0 else 0))).
    - rewrite fsum_add, fsum_swap, fsum_mul_l.
      assert (fsum (fun m => if thr then if decide (m = (o, f)) then lower_at x pfrom m else 0 else 0) ms = if thr then lower_at x pfrom (o, f) else 0) as ->.
      { destruct thr; [apply Hpick|by apply fsum_0]. }
      assert (fsum (fun F => fsum (fun m => Std o * CL o * (if decide (F = q0) then 0 else x (inp, cls F) * (if decide (m = (o, qadd f (qneg F))) then lower_at x pfrom m else 0))) ms) lks =
        Std o * CL o * shifted qadd qneg q0 x pfrom inp lks o f) as ->; [|destruct thr; ring].
      unfold shifted. rewrite <- fsum_mul_l. apply fsum_ext. intros F _. rewrite fsum_mul_l. f_equal.
      destruct (decide (F = q0)); [by apply fsum_0|]. by rewrite fsum_mul_l, Hpick.
    - intros [o' f'] _. cbn [fst snd]. destruct (decide (o' = o)) as [->|Hne].
      + f_equal.
        * apply fsum_ext. intros F _. destruct (decide (F = q0)); [ring|].
          destruct (decide (qadd f' F = f)) as [E1|E1].
          -- rewrite decide_True; [unfold lower_at; cbn [fst snd]; ring|]. f_equal. rewrite <- E1. by rewrite (fq_back _ _ _ _ HF).
          -- rewrite decide_False; [ring|]. intros [= ->]. apply E1. by rewrite (fq_forth _ _ _ _ HF).
        * destruct thr; [|ring]. destruct (decide (f' = f)) as [->|Hf]; [by rewrite decide_True|rewrite decide_False by congruence; ring].
      + rewrite fsum_0.
        * destruct thr; [rewrite decide_False by congruence; ring|ring].
        * intros F _. rewrite (decide_False (P := (o', f') = _)) by congruence. destruct (decide _); ring.
  Qed.
  Lemma fsum_neg lks (h : Q -> C_fld) : NoDup lks -> (forall F, F ∈ lks -> qneg F ∈ lks) -> fsum h lks = fsum (fun F => h (qneg F)) lks.
  Proof.
    intros Hn Hc. rewrite <- (fsum_map qneg h). apply fsum_perm. apply NoDup_Permutation; [done| |].
    - apply NoDup_fmap_2; [|done]. intros a b E. by rewrite <- (fq_nn _ _ _ _ HF a), E, (fq_nn _ _ _ _ HF).
    - intros F. rewrite elem_of_list_fmap. split.
      + intros HFl. exists (qneg F). split; [by rewrite (fq_nn _ _ _ _ HF)|by apply Hc].
      + intros (y & -> & Hy). by apply Hc.
  Qed.
  Lemma drive_conj x pfrom pto inp ms ks lks outp Std StdC CL CLC BA BAC (thr : bool) r o f' :
    NoDup lks -> keys_ok outp -> both ms ks -> (forall F, F ∈ lks -> qneg F ∈ lks) ->
    (forall F, x (inp, cls (qneg F)) = cconj (x (inp, cls F))) -> (forall m, raise_at x pfrom m = cconj (lower_at x pfrom m)) ->
    (forall o, StdC o = cconj (Std o)) -> (forall o, CLC o = cconj (CL o)) ->
    each (fun k => fill pfrom k (Some pto) (Some (inp, lks)) outp (Std k.1.2) (StdC k.1.2) (CL k.1.2) (CLC k.1.2) BA BAC thr) ks = Ok r ->
    arrives r x (pto, opt false o f') = cconj (arrives r x (pto, opt true o f')).
  Proof.
    intros Hl Hk Hb Hcl Hx Hc HS HC E. rewrite !arrives_eq.
    rewrite (light_at qadd qneg q0 Hz HF reject _ pfrom pto inp false o f' _ _ ms ks lks outp Std StdC CL CLC BA BAC thr r (arr_lights x pfrom pto inp false o f')) by done.
    rewrite (light_at qadd qneg q0 Hz HF reject _ pfrom pto inp true o f' _ _ ms ks lks outp Std StdC CL CLC BA BAC thr r (arr_lights x pfrom pto inp true o f')) by done.
    cbn [fst snd]. rewrite cconj_fsum. apply fsum_ext. intros m _.
    assert (cconj 0 = 0) as C0 by (unfold cconj, C_conj; apply (f_equal2 pair); simpl; ring).
    destruct (decide (m.1 = o)) as [Eo|]; [|by rewrite C0]. rewrite cconj_add. f_equal.
    - rewrite fsum_neg, cconj_fsum by done. apply fsum_ext. intros F _.
      assert (qneg F = q0 <-> F = q0) as Hq.
      { split; intros EF; [rewrite <- (fq_nn _ _ _ _ HF F), EF|rewrite EF]; apply (fq_neg0 _ _ _ _ HF). }
      destruct (decide (F = q0)) as [EF|EF]; [rewrite decide_True by tauto; by rewrite C0|rewrite decide_False by tauto].
      destruct (reject f'); [by rewrite C0|]. rewrite (fq_nn _ _ _ _ HF). destruct (decide _); [|by rewrite C0].
      change (x (pfrom, opt false m.1 m.2)) with (raise_at x pfrom m). change (x (pfrom, opt true m.1 m.2)) with (lower_at x pfrom m).
      rewrite Hc, Hx, HS, HC, !cconj_mul. ring.
    - destruct thr; [|by rewrite C0]. destruct (decide _); [|by rewrite C0].
      change (x (pfrom, opt false m.1 m.2)) with (raise_at x pfrom m). change (x (pfrom, opt true m.1 m.2)) with (lower_at x pfrom m).
      rewrite Hc, HS, cconj_mul. ring.
  Qed.
  Lemma each_two {B} (f g : B -> res (list (inj C_fld P (key A Q)))) l : forall r,
    each (fun k => a ← f k; b ← g k; Ok (a ++ b)) l = Ok r ->
    exists ra rb, each f l = Ok ra /\ each g l = Ok rb /\ forall W : inj C_fld P (key A Q) -> C_fld, fsum W r = fsum W ra + fsum W rb.
  Proof.
    induction l as [|k l IH]; cbn [each]; intros r E.
    - injection E as <-. exists [], []. split_and!; try done. intros W. cbn [fsum]. ring.
    - apply bind_ok in E as (a & E1 & E). apply bind_ok in E1 as (a1 & F1 & E1). apply bind_ok in E1 as (a2 & F2 & E1). injection E1 as <-.
      apply bind_ok in E as (b & E2 & E). injection E as <-. destruct (IH _ E2) as (ra & rb & -> & -> & HW).
      exists (a1 ++ ra), (a2 ++ rb). rewrite F1, F2. split_and!; try done. intros W. rewrite !fsum_app, HW. ring.
  Qed.
End pd.
