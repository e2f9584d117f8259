(** Light out of an element, and signals out of it. *)
From stdpp Require Import base tactics numbers gmap sets list.
From Coq Require Import Reals Lra.
From Verif Require Import Fld Py Herm ElecModel InjModel InjSpec OptModel SigModel SigSpec SigProofs NoiProofs3 PdModel PdSpec PdProofs.
Local Open Scope fld_scope.
Add Field FCPd2 : (f_theory C_fld).

Lemma cis_add a b : cis (a + b) = cis a * cis b.
Proof. unfold cis. rewrite cos_plus, sin_plus. apply (f_equal2 pair); simpl; ring. Qed.
Lemma two_c_neq_0 : two_c <> 0.
Proof. intros E. apply (f_equal fst) in E. simpl in E. lra. Qed.
Lemma if_and (p q : Prop) `{Decision p, Decision q} (z : C_fld) :
  (if decide p then if decide q then z else 0 else 0) = if decide (p /\ q) then z else 0.
Proof. destruct (decide p), (decide q); destruct (decide (_ /\ _)); tauto || done. Qed.
Lemma if_iff (p q : Prop) `{Decision p, Decision q} (z z' : C_fld) : (p <-> q) -> z = z' -> (if decide p then z else 0) = if decide q then z' else 0.
Proof. intros E ->. destruct (decide p), (decide q); tauto. Qed.
Lemma if_mul (p : Prop) `{Decision p} (c z : C_fld) : c * (if decide p then z else 0) = if decide p then c * z else 0.
Proof. destruct (decide p); [done|ring]. Qed.
Lemma if_mul_r (p : Prop) `{Decision p} (c z : C_fld) : (if decide p then z else 0) * c = if decide p then z * c else 0.
Proof. destruct (decide p); [done|ring]. Qed.

Section out.
  Context {P A Q : Type} `{Countable P} `{Countable A} `{Countable Q}.
  Context (qadd : Q -> Q -> Q) (qneg : Q -> Q) (q0 : Q) (Hz : Q -> R) (HF : frequencies qadd qneg q0 Hz).
  Context (reject : Q -> bool).
  Notation fill := (modulations_fill (P := P) (A := A) (Q := Q) qadd qneg reject).
  Notation mode := (A * Q)%type.
  Notation e f t := (cis (2 * PI * Hz f * t)).
  Implicit Types (W : inj C_fld P (key A Q) -> C_fld) (ms : list mode) (ks : list (bool * A * Q)).

  Lemma e_add f g t : e (qadd f g) t = e f t * e g t.
  Proof. rewrite (fq_Hz _ _ _ _ HF), <- cis_add. f_equal. ring. Qed.
  Lemma e_neg f t : e (qneg f) t = cconj (e f t).
  Proof. rewrite (fq_Hzn qadd qneg q0 Hz HF), conj_cis. f_equal. ring. Qed.

  Lemma both_sum ms ks (h : bool * A * Q -> C_fld) : both ms ks ->
    fsum h ks = fsum (fun m => h (true, m.1, m.2)) ms + fsum (fun m => h (false, m.1, m.2)) ms.
  Proof. intros Hb. by rewrite (fsum_perm _ _ _ Hb), fsum_app, !fsum_map. Qed.

  (** *** light: [T] is what a pair of light and drive gives, [U] what light alone gives *)
  Record lights W (pfrom pto inp : P) (n : P * key A Q) (T : bool * A * Q -> Q -> C_fld) (U : bool * A * Q -> C_fld) : Prop := {
    lt_drive : forall l o f F n' c, W (Triplet (pfrom, opt l o f) (inp, cls F) n' c) = if decide (n' = n) then c * T (l, o, f) F else 0;
    lt_edge : forall l o f n' c, W (ConstantEdge (pfrom, opt l o f) n' c) = if decide (n' = n) then c * U (l, o, f) else 0;
    lt_out : forall a q F c srcs, W (MultiplicativeEdge a (q, cls F) c srcs) = 0;
  }.
  Lemma light_at W pfrom pto inp l o f' T U ms ks lks outp Std StdC CL CLC BA BAC (thr : bool) r :
    lights W pfrom pto inp (pto, opt l o f') T U ->
    NoDup lks -> keys_ok outp -> both ms ks ->
    each (fun k => fill pfrom k (Some pto) (Some (inp, lks)) outp (Std k.1.2) (StdC k.1.2) (CL k.1.2) (CLC k.1.2) BA BAC thr) ks = Ok r ->
    fsum W r = fsum (fun m => if decide (m.1 = o) then
        fsum (fun F => if decide (F = q0) then 0 else if reject f' then 0 else
          if decide (qadd m.2 (if l then F else qneg F) = f') then (if l then Std o * CL o else StdC o * CLC o) * T (l, m.1, m.2) F else 0) lks +
        (if thr then if decide (m.2 = f') then (if l then Std o else StdC o) * U (l, m.1, m.2) else 0 else 0)
      else 0) ms.
  Proof.
    intros [Hd He Ho] Hl Hk Hb E.
    refine (eq_trans (each_sum W _ (fun k => fill_sum qadd qneg q0 reject W pfrom k (Some pto) (Some (inp, lks)) outp (Std k.1.2) (StdC k.1.2) (CL k.1.2) (CLC k.1.2) BA BAC thr) ks r _ E) _).
    { intros b r' _ Eb. by eapply fill_eq. }
    rewrite (both_sum ms ks _ Hb). unfold fill_sum. cbn [fst snd].
    assert (forall k Std StdC, match outp with Some (outp, lks) => fsum (fun F => o1 qadd qneg q0 reject W pfrom outp k Std StdC BA BAC F) lks | None => 0 end = 0) as Hout.
    { intros [[l' o'] f] S SC. destruct outp as [[outp oks]|]; [|done]. apply fsum_0. intros F _. unfold o1.
      destruct (reject _); [done|]. by rewrite Ho. }
    rewrite !(fsum_ext _ _ _ (fun m _ => f_equal (fun z => _ + z) (Hout _ _ _))).
    assert (forall m (l' : bool), (if l' then l = false else l = true) ->
      fsum (fun F => if decide (F = q0) then 0 else d1 qadd qneg reject W pfrom pto inp (l', m.1, m.2) (Std m.1) (StdC m.1) (CL m.1) (CLC m.1) F) lks +
      (if thr then W (ConstantEdge (pfrom, opt l' m.1 m.2) (pto, opt l' m.1 m.2) (if l' then Std m.1 else StdC m.1)) else 0) + 0 = 0) as Hz'.
    { intros m l' Hl'. assert (l' <> l) by (destruct l', l; done). rewrite fsum_0.
      - destruct thr; [|ring]. rewrite He, decide_False; [ring|]. unfold opt. congruence.
      - intros F _. destruct (decide _); [done|]. unfold d1. destruct (reject _); [done|]. rewrite Hd, decide_False; [done|]. unfold opt. congruence. }
    assert (forall m,
      fsum (fun F => if decide (F = q0) then 0 else d1 qadd qneg reject W pfrom pto inp (l, m.1, m.2) (Std m.1) (StdC m.1) (CL m.1) (CLC m.1) F) lks +
      (if thr then W (ConstantEdge (pfrom, opt l m.1 m.2) (pto, opt l m.1 m.2) (if l then Std m.1 else StdC m.1)) else 0) + 0 =
      if decide (m.1 = o) then
        fsum (fun F => if decide (F = q0) then 0 else if reject f' then 0 else
          if decide (qadd m.2 (if l then F else qneg F) = f') then (if l then Std o * CL o else StdC o * CLC o) * T (l, m.1, m.2) F else 0) lks +
        (if thr then if decide (m.2 = f') then (if l then Std o else StdC o) * U (l, m.1, m.2) else 0 else 0)
      else 0) as Hsame.
    { intros [o' f]. cbn [fst snd]. destruct (decide (o' = o)) as [->|Hne].
      - assert (forall a b c : C_fld, a = b -> a + c + 0 = b + c) as X by (intros a b c ->; ring).
        replace (if thr then W (ConstantEdge (pfrom, opt l o f) (pto, opt l o f) (if l then Std o else StdC o)) else 0)
          with (if thr then if decide (f = f') then (if l then Std o else StdC o) * U (l, o, f) else 0 else 0).
        + apply X. apply fsum_ext. intros F _. destruct (decide (F = q0)); [done|]. unfold d1.
          destruct (decide (qadd f (if l then F else qneg F) = f')) as [Ef|Ef].
          * rewrite Ef. destruct (reject f'); [done|]. rewrite Hd, decide_True by done. done.
          * destruct (reject (qadd _ _)); [by destruct (reject f')|]. rewrite Hd, decide_False by (unfold opt; congruence). by destruct (reject f').
        + destruct thr; [|done]. rewrite He. apply if_iff; [|done]. unfold opt. split; [by intros ->|congruence].
      - rewrite fsum_0.
        + destruct thr; [|ring]. rewrite He, decide_False; [ring|]. unfold opt. congruence.
        + intros F _. destruct (decide _); [done|]. unfold d1. destruct (reject _); [done|]. rewrite Hd, decide_False; [done|]. unfold opt. congruence. }
    destruct l.
    - rewrite (fsum_0 _ ms (fun m _ => Hz' m false eq_refl)). rewrite cadd_0. apply fsum_ext. intros m _. apply Hsame.
    - rewrite (fsum_0 _ ms (fun m _ => Hz' m true eq_refl)).
      transitivity (fsum (fun m => if decide (m.1 = o) then
        fsum (fun F => if decide (F = q0) then 0 else if reject f' then 0 else
          if decide (qadd m.2 (qneg F) = f') then StdC o * CLC o * T (false, m.1, m.2) F else 0) lks +
        (if thr then if decide (m.2 = f') then StdC o * U (false, m.1, m.2) else 0 else 0) else 0) ms + 0).
      + rewrite cadd_0. transitivity (0 + fsum (fun m => if decide (m.1 = o) then
        fsum (fun F => if decide (F = q0) then 0 else if reject f' then 0 else
          if decide (qadd m.2 (qneg F) = f') then StdC o * CLC o * T (false, m.1, m.2) F else 0) lks +
        (if thr then if decide (m.2 = f') then StdC o * U (false, m.1, m.2) else 0 else 0) else 0) ms); [|ring].
        f_equal. apply fsum_ext. intros m _. apply Hsame.
      + apply cadd_0.
  Qed.

  (** the light that comes out, as a function of time *)
  Lemma light_out (Wm : mode -> inj C_fld P (key A Q) -> C_fld) pfrom pto inp T U ms ms' ks lks outp Std StdC CL CLC BA BAC (thr : bool) r t o :
    (forall m, m ∈ ms' -> lights (Wm m) pfrom pto inp (pto, opt true m.1 m.2) T U) ->
    NoDup lks -> keys_ok outp -> both ms ks -> NoDup ms' ->
    (forall m F, m ∈ ms -> F ∈ lks -> F <> q0 -> T (true, m.1, m.2) F = 0 \/ ((m.1, qadd m.2 F) ∈ ms' /\ reject (qadd m.2 F) = false)) ->
    (thr = true -> forall m, m ∈ ms -> m ∈ ms') ->
    each (fun k => fill pfrom k (Some pto) (Some (inp, lks)) outp (Std k.1.2) (StdC k.1.2) (CL k.1.2) (CLC k.1.2) BA BAC thr) ks = Ok r ->
    light Hz ms' (fun m => fsum (Wm m) r) o t =
    Std o * fsum (fun m => if decide (m.1 = o) then e m.2 t * ((if thr then U (true, m.1, m.2) else 0) +
       CL o * fsum (fun F => if decide (F = q0) then 0 else T (true, m.1, m.2) F * e F t) lks) else 0) ms.
  Proof.
    intros HW Hl Hk Hb Hn' Hs Ht E. unfold light.
    rewrite (fsum_ext _ (fun m' => fsum (fun m => if decide (m.1 = o) then
        fsum (fun F => if decide (F = q0) then 0 else if decide (m' = (o, qadd m.2 F)) then Std o * CL o * T (true, m.1, m.2) F * e (qadd m.2 F) t else 0) lks +
        (if thr then if decide (m' = (o, m.2)) then Std o * U (true, m.1, m.2) * e m.2 t else 0 else 0) else 0) ms)).
    - rewrite fsum_swap, <- fsum_mul_l. apply fsum_ext. intros m Hm. destruct (decide (m.1 = o)) as [Eo|]; [|rewrite fsum_0; [ring|done]].
      rewrite fsum_add, fsum_swap.
      rewrite (fsum_ext _ (fun F => Std o * CL o * e m.2 t * (if decide (F = q0) then 0 else T (true, m.1, m.2) F * e F t)) lks).
      + rewrite fsum_mul_l.
        assert (fsum (fun m' => if thr then if decide (m' = (o, m.2)) then Std o * U (true, m.1, m.2) * e m.2 t else 0 else 0) ms' =
          if thr then Std o * U (true, m.1, m.2) * e m.2 t else 0) as ->.
        { destruct thr; [|by apply fsum_0]. rewrite (fsum_delta (o, m.2) (fun _ => Std o * U (true, m.1, m.2) * e m.2 t)) by done.
          rewrite decide_True; [done|]. rewrite <- Eo. destruct m. by apply Ht. }
        destruct thr; ring.
      + intros F HFl. destruct (decide (F = q0)); [rewrite fsum_0; [ring|done]|].
        rewrite (fsum_delta (o, qadd m.2 F) (fun _ => Std o * CL o * T (true, m.1, m.2) F * e (qadd m.2 F) t)) by done.
        destruct (Hs m F Hm HFl ltac:(done)) as [HT|[Hin _]].
        * rewrite HT. destruct (decide _); ring.
        * rewrite decide_True by by rewrite <- Eo. rewrite e_add. ring.
    - intros [o' f'] Hm'. cbn [fst snd]. destruct (decide (o' = o)) as [->|Hne].
      + rewrite (light_at (Wm (o, f')) pfrom pto inp true o f' T U ms ks lks outp Std StdC CL CLC BA BAC thr r); [|by apply HW|done|done|done|done].
        rewrite <- fsum_mul_r. apply fsum_ext. intros m Hm. destruct (decide (m.1 = o)) as [Eo|]; [|ring].
        match goal with |- (?a + ?b) * ?c = _ => transitivity (a * c + b * c); [ring|] end. f_equal.
        * rewrite <- fsum_mul_r. apply fsum_ext. intros F HFl. destruct (decide (F = q0)); [ring|].
          destruct (decide (qadd m.2 F = f')) as [<-|Hf].
          -- destruct (Hs m F Hm HFl) as [HT|[_ ->]]; [done| |rewrite decide_True by done; done].
             rewrite HT. destruct (reject _); repeat (destruct (decide _)); ring.
          -- rewrite decide_False by congruence. destruct (reject f'); ring.
        * destruct thr; [|ring]. destruct (decide (m.2 = f')) as [<-|Hf]; [by rewrite decide_True by done|rewrite decide_False by congruence; ring].
      + symmetry. apply fsum_0. intros m _. destruct (decide (m.1 = o)); [|done]. rewrite fsum_0.
        * destruct thr; [rewrite decide_False by congruence; ring|ring].
        * intros F _. destruct (decide _); [done|]. by rewrite decide_False by congruence.
  Qed.

  (** *** signals: [V] is what the light of a conjugate pair of keys gives *)
  Record signals W (pfrom outp : P) (n : P * key A Q) (V : bool -> A -> Q -> Q -> C_fld) : Prop := {
    sg_out : forall l o f f' n' c, W (MultiplicativeEdge (pfrom, opt l o f') n' c [(pfrom, opt (negb l) o f)]) = if decide (n' = n) then c * V l o f f' else 0;
    sg_drive : forall a b p l o f c, W (Triplet a b (p, opt l o f) c) = 0;
    sg_edge : forall a p l o f c, W (ConstantEdge a (p, opt l o f) c) = 0;
  }.
  (** the beat notes at F *)
  Definition D ms (a d : mode -> C_fld) (F : Q) : C_fld :=
    fsum (fun m => fsum (fun m' => if decide (m' = (m.1, qadd m.2 F)) then cconj (a m) * d m' else 0) ms) ms.
  Definition cF (F : Q) : C_fld := if decide (F = q0) then 1 / two_c else 1.

  Lemma signal_at W pfrom outp V ms ks lks pto inp Std StdC CL CLC BA BAC (thr : bool) a d r F :
    signals W pfrom outp (outp, cls F) V ->
    (forall o f f', V true o f f' = cconj (a (o, f)) * d (o, f')) ->
    (forall o f f', V false o f f' = a (o, f) * cconj (d (o, f'))) ->
    NoDup ms -> (forall m, m ∉ ms -> d m = 0) -> (forall m, m ∈ ms -> reject m.2 = false) ->
    NoDup lks -> keys_ok inp -> both ms ks ->
    each (fun k => fill pfrom k pto inp (Some (outp, lks)) Std StdC (CL k.1.2) (CLC k.1.2) BA BAC thr) ks = Ok r ->
    fsum W r = if decide (F ∈ lks) then cF F * (Std * BA * D ms a d F + StdC * BAC * D ms d a F) else 0.
  Proof.
    intros [Ho Hd He] V1 V2 Hnd Hsup Hrej Hl Hk Hb E.
    refine (eq_trans (each_sum W _ (fun k => fill_sum qadd qneg q0 reject W pfrom k pto inp (Some (outp, lks)) Std StdC (CL k.1.2) (CLC k.1.2) BA BAC thr) ks r _ E) _).
    { intros b r' _ Eb. by eapply fill_eq. }
    rewrite (fsum_ext _ (fun k => fsum (fun F' => o1 qadd qneg q0 reject W pfrom outp k Std StdC BA BAC F') lks)).
    2: { intros [[l o] f] _. unfold fill_sum. cbn [fst snd].
      assert (match pto, inp with Some pto, Some (inp, lks) => fsum (fun F => if decide (F = q0) then 0 else d1 qadd qneg reject W pfrom pto inp (l, o, f) Std StdC (CL o) (CLC o) F) lks | _, _ => 0 end = 0) as ->.
      { destruct pto as [pto|]; [|done]. destruct inp as [[inp iks]|]; [|done]. apply fsum_0. intros F' _. destruct (decide _); [done|].
        unfold d1. destruct (reject _); [done|]. apply Hd. }
      assert (match pto with Some pto => if thr then W (ConstantEdge (pfrom, opt l o f) (pto, opt l o f) (if l then Std else StdC)) else 0 | None => 0 end = 0) as ->.
      { destruct pto as [pto|]; [|done]. destruct thr; [|done]. apply He. }
      ring. }
    rewrite (fsum_ext _ (fun k => if decide (F ∈ lks) then o1 qadd qneg q0 reject W pfrom outp k Std StdC BA BAC F else 0)).
    2: { intros [[l o] f] _. rewrite <- (fsum_delta F (fun F' => o1 qadd qneg q0 reject W pfrom outp (l, o, f) Std StdC BA BAC F')) by done.
      apply fsum_ext. intros F' _. destruct (decide (F' = F)) as [->|Hne]; [done|]. unfold o1. destruct (reject _); [done|].
      rewrite Ho, decide_False; [done|]. unfold cls. congruence. }
    destruct (decide (F ∈ lks)) as [HFl|]; [|by apply fsum_0].
    rewrite (both_sum ms ks _ Hb).
    assert (forall c : C_fld, (if decide (F = q0) then c / two_c else c) = cF F * c) as HcF.
    { intros c. unfold cF. destruct (decide _); [|ring]. field. apply two_c_neq_0. }
    assert (forall m, fsum (fun m' => if decide (m' = m) then d m' else 0) ms = d m) as Hdm.
    { intros m. rewrite (fsum_delta m d) by done. destruct (decide (m ∈ ms)); [done|]. by rewrite Hsup. }
    rewrite (fsum_ext _ (fun m => cF F * (Std * BA) * fsum (fun m' => if decide (m' = (m.1, qadd m.2 F)) then cconj (a m) * d m' else 0) ms) ms).
    2: { intros [o f] Hm. unfold o1. cbn [fst snd negb].
      rewrite (fsum_ext _ (fun m' => cconj (a (o, f)) * (if decide (m' = (o, qadd f F)) then d m' else 0)) ms), fsum_mul_l, Hdm
        by (intros m' _; by rewrite if_mul).
      destruct (reject (qadd f F)) eqn:Er.
      - rewrite (Hsup (o, qadd f F)); [ring|]. intros Hin. apply Hrej in Hin. cbn [snd] in Hin. congruence.
      - rewrite (Ho true o f (qadd f F)), decide_True by done. rewrite V1, HcF. ring. }
    rewrite (fsum_ext (fun m => o1 qadd qneg q0 reject W pfrom outp (false, m.1, m.2) Std StdC BA BAC F)
      (fun m => cF F * (StdC * BAC) * fsum (fun m' => if decide (m = (m'.1, qadd m'.2 F)) then cconj (d m') * a m else 0) ms) ms).
    2: { intros [o f] Hm. unfold o1. cbn [fst snd negb].
      rewrite (fsum_ext _ (fun m' => a (o, f) * cconj (if decide (m' = (o, qadd f (qneg F))) then d m' else 0)) ms), fsum_mul_l, <- cconj_fsum, Hdm.
      2: { intros [o' f'] _. cbn [fst snd].
        destruct (decide ((o, f) = (o', qadd f' F))) as [E1|E1].
        - injection E1 as -> ->. rewrite decide_True by (by rewrite (fq_back _ _ _ _ HF)). ring.
        - rewrite decide_False.
          + assert (cconj 0 = 0) as -> by (unfold cconj, C_conj; apply (f_equal2 pair); simpl; ring). ring.
          + intros E2. injection E2 as -> ->. apply E1. by rewrite (fq_forth _ _ _ _ HF). }
      destruct (reject (qadd f (qneg F))) eqn:Er.
      - rewrite (Hsup (o, qadd f (qneg F))).
        + assert (cconj 0 = 0) as -> by (unfold cconj, C_conj; apply (f_equal2 pair); simpl; ring). ring.
        + intros Hin. apply Hrej in Hin. cbn [snd] in Hin. congruence.
      - rewrite (Ho false o f (qadd f (qneg F))), decide_True by done. rewrite V2, HcF. ring. }
    rewrite !fsum_mul_l. unfold D. rewrite (fsum_swap (fun m m' => if decide (m = (m'.1, qadd m'.2 F)) then cconj (d m') * a m else 0)). ring.
  Qed.

  Lemma beat_eq os ms a d t : carriers os ms ->
    beat Hz os ms d a t = fsum (fun m => fsum (fun m' => if decide (m'.1 = m.1) then cconj (a m) * d m' * (e m'.2 t * cconj (e m.2 t)) else 0) ms) ms.
  Proof.
    intros [Hno Hin]. unfold beat, light.
    rewrite (fsum_ext _ (fun o => fsum (fun m => fsum (fun m' => if decide (o = m.1) then if decide (m'.1 = m.1) then cconj (a m) * d m' * (e m'.2 t * cconj (e m.2 t)) else 0 else 0) ms) ms)).
    - rewrite fsum_swap. apply fsum_ext. intros m Hm. rewrite fsum_swap. apply fsum_ext. intros m' Hm'.
      rewrite (fsum_delta m.1 (fun _ => if decide (m'.1 = m.1) then cconj (a m) * d m' * (e m'.2 t * cconj (e m.2 t)) else 0)) by done.
      by rewrite decide_True by (by apply Hin).
    - intros o _. rewrite cconj_fsum, <- fsum_prod, fsum_swap. apply fsum_ext. intros m _. apply fsum_ext. intros m' _.
      destruct (decide (o = m.1)) as [->|Hne].
      + rewrite (decide_True (P := m.1 = m.1)) by done. destruct (decide (m'.1 = m.1)); [rewrite cconj_mul; ring|ring].
      + rewrite (decide_False (P := m.1 = o)) by congruence.
        assert (cconj 0 = 0) as -> by (unfold cconj, C_conj; apply (f_equal2 pair); simpl; ring). ring.
  Qed.
  Lemma D_sum os ms lks a d t : carriers os ms -> NoDup lks ->
    (forall m m', m ∈ ms -> m' ∈ ms -> m.1 = m'.1 -> a m = 0 \/ d m' = 0 \/ qadd m'.2 (qneg m.2) ∈ lks) ->
    fsum (fun F => D ms a d F * e F t) lks = beat Hz os ms d a t.
  Proof.
    intros Hc Hl Hdiff. rewrite (beat_eq os ms a d t Hc). unfold D.
    rewrite (fsum_ext _ (fun F => fsum (fun m => fsum (fun m' => if decide (F = qadd m'.2 (qneg m.2)) then if decide (m'.1 = m.1) then cconj (a m) * d m' * (e m'.2 t * cconj (e m.2 t)) else 0 else 0) ms) ms)).
    - rewrite fsum_swap. apply fsum_ext. intros m Hm. rewrite fsum_swap. apply fsum_ext. intros m' Hm'.
      rewrite (fsum_delta (qadd m'.2 (qneg m.2)) (fun _ => if decide (m'.1 = m.1) then cconj (a m) * d m' * (e m'.2 t * cconj (e m.2 t)) else 0)) by done.
      destruct (decide (m'.1 = m.1)) as [E|]; [|by destruct (decide _)]. destruct (Hdiff m m' Hm Hm') as [E0|[E0|Hin]]; [done| | |by rewrite decide_True].
      + rewrite E0. assert (cconj 0 = 0) as -> by (unfold cconj, C_conj; apply (f_equal2 pair); simpl; ring). destruct (decide _); ring.
      + rewrite E0. destruct (decide _); ring.
    - intros F _. rewrite <- fsum_mul_r. apply fsum_ext. intros m Hm. rewrite <- fsum_mul_r. apply fsum_ext. intros [o' f'] Hm'. destruct m as [o f]. cbn [fst snd].
      destruct (decide ((o', f') = (o, qadd f F))) as [E|E].
      + injection E as -> ->. rewrite (decide_True (P := o = o)) by done.
        rewrite (decide_True (P := F = _)) by (by apply (fq_shift _ _ _ _ HF)).
        rewrite !e_add, <- e_neg.
        transitivity (cconj (a (o, f)) * d (o, qadd f F) * (e F t * (e f t * e (qneg f) t))); [|ring].
        rewrite <- e_add, (fq_neg _ _ _ _ HF), (fq_Hz0 _ _ _ _ HF). replace (2 * PI * 0 * t)%R with 0%R by ring.
        assert (cis 0 = 1) as -> by (unfold cis; by rewrite cos_0, sin_0). ring.
      + rewrite if_and, decide_False; [ring|]. intros [E1 E2]. apply E. f_equal; [done|]. symmetry. by apply (fq_shift _ _ _ _ HF).
  Qed.
End out.
