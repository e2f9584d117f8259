(** Proofs about the piezo. *)
From Coq Require Import Reals Lra.
From stdpp Require Import base tactics list numbers.
From Verif Require Import Py Fld Herm SigModel ElecModel ElecSpec ElecProofs PztModel PztSpec.

Section proofs.
  Context {K : fld}.
  Local Open Scope fld_scope.
  Add Field FP : (f_theory K).
  Notation two := (1 + 1 : K).
  Context (Ze Zm s C k d : K).
  Notation den := (pzt_den Ze Zm s C k d).

  Lemma pzt_out (w : nd pAB -> K) : den <> 0 ->
    (obeys [AA; BB] (pzt Ze Zm s C k d) [] w <->
     w (O AA) = ((C * Ze * Zm * s + C * Ze * k * s - Ze * Zm * (d * d) * k * s - Zm - k) * w (I AA) + two * Ze * d * k * s * w (I BB)) / den /\
     w (O BB) = (two * Zm * d * k * w (I AA) - (Ze * Zm * (d * d) * k * s - (Zm - k) * (C * Ze * s + 1)) * w (I BB)) / den).
  Proof.
    intros Hd. rewrite obeys2. unfold pzt, smatrix2. emits_simpl. unfold See, Sem, Sme, Smm.
    assert (- Ze * Zm * (d * d) * k * s + Zm * (C * Ze * s + 1) + k * (C * Ze * s + 1) = - den) as -> by (unfold pzt_den; ring).
    assert (- den <> 0) as Hn.
    { intros E. apply Hd. transitivity (- - den); [ring|]. rewrite E. ring. }
    generalize dependent den. intros D Hd Hn.
    split; intros [E1 E2]; rewrite E1, E2; split; field; done.
  Qed.

  Lemma pzt_lem (w : nd pAB -> K) : Ze <> 0 -> Zm <> 0 -> two <> 0 -> den <> 0 ->
    (obeys [AA; BB] (pzt Ze Zm s C k d) [] w <->
     piezo s C k d (volt w AA) (curr Ze w AA) (volt w BB) (curr Zm w BB)).
  Proof.
    intros HZe HZm H2 Hd. rewrite (pzt_out w Hd). unfold piezo, volt, curr.
    generalize (w (I AA)) (w (I BB)) (w (O AA)) (w (O BB)). intros a b a' b'. split.
    - intros [-> ->]. unfold pzt_den in *. split; field; split_and!; done.
    - intros [E1 E2].
      (* force equation times Zm, charge equation times Ze *)
      assert (Zm * (b + b') - k * (b - b') + k * d * Zm * (a + a') = 0) as F1.
      { transitivity (Zm * ((b + b') - k * ((b - b') / Zm - d * (a + a')))); [by field|]. rewrite E1 at 1. ring. }
      assert ((a - a') - s * Ze * (C * (a + a') + d * (b + b')) = 0) as F2.
      { transitivity (Ze * ((a - a') / Ze - s * (C * (a + a') + d * (b + b')))); [by field|]. rewrite E2 at 1. ring. }
      assert (a' = ((C * Ze * Zm * s + C * Ze * k * s - Ze * Zm * (d * d) * k * s - Zm - k) * a + two * Ze * d * k * s * b) / den) as Ea.
      { apply fsub_0_eq. transitivity (((Zm + k) * ((a - a') - s * Ze * (C * (a + a') + d * (b + b'))) + s * Ze * d * (Zm * (b + b') - k * (b - b') + k * d * Zm * (a + a'))) / den).
        - unfold pzt_den in *. field. done.
        - rewrite F1, F2. field. done. }
      split; [done|].
      apply fsub_0_eq. transitivity ((- (1 + s * Ze * C) * (Zm * (b + b') - k * (b - b') + k * d * Zm * (a + a')) - k * d * Zm * ((a - a') - s * Ze * (C * (a + a') + d * (b + b')))) / den).
      + unfold pzt_den in *. field. done.
      + rewrite F1, F2. field. done.
  Qed.

  Lemma pzt_free_lem (w : nd pAB -> K) : Ze <> 0 -> Zm <> 0 -> two <> 0 -> den <> 0 ->
    obeys [AA; BB] (pzt Ze Zm s C k d) [] w -> curr Zm w BB = 0 -> volt w BB = - (k * (d * volt w AA)).
  Proof.
    intros HZe HZm H2 Hd Ho HF. apply pzt_lem in Ho; [|done..]. destruct Ho as [-> _]. rewrite HF. ring.
  Qed.
  (** a wave for every voltage and force *)
  Lemma pzt_wave (V F : K) : Ze <> 0 -> Zm <> 0 -> two <> 0 -> den <> 0 -> exists w,
    obeys [AA; BB] (pzt Ze Zm s C k d) [] w /\ volt w AA = V /\ curr Zm w BB = F.
  Proof.
    intros HZe HZm H2 Hd.
    set (x := k * (F - d * V)). set (i := s * (C * V + d * x)).
    exists (fun n => match n with
      | I AA => (V + Ze * i) / two | O AA => (V - Ze * i) / two
      | I BB => (x + Zm * F) / two | O BB => (x - Zm * F) / two | _ => 0 end).
    split; [apply pzt_lem; [done..|]|]; unfold piezo, volt, curr; cbn beta iota; unfold i, x; split; field; repeat split; assumption.
  Qed.
  Section energy.
    Context (h : herm K).
    Notation c := (h_conj h).
    Context (HC : c C = C) (Hk : c k = k) (Hd' : c d = d) (Hs : c s = - s).
    Lemma piezo_lossless_lem (V i F x : K) : k <> 0 -> piezo s C k d V i F x -> piezo_power h s V i F x = 0.
    Proof.
      intros Hk0 [E1 E2]. assert (x = F / k + d * V) as -> by (rewrite E1; by field).
      unfold piezo_power. rewrite E2. clear E1 E2.
      assert (F / k = F * (1 / k)) as -> by by field.
      assert (c (1 / k) = 1 / k) as Hq.
      { apply (eq_scale k); [done|]. rewrite <- Hk at 1. rewrite <- h_conj_mul. transitivity (c 1); [f_equal; by field|]. rewrite conj_1. by field. }
      repeat rewrite ?h_conj_mul, ?h_conj_add, ?h_conj_conj, ?Hs, ?HC, ?Hd', ?Hq, ?conj_opp. ring.
    Qed.
    Lemma pzt_power_lem (w : nd pAB -> K) : Ze <> 0 -> Zm <> 0 -> two <> 0 -> den <> 0 ->
      obeys [AA; BB] (pzt Ze Zm s C k d) [] w ->
      let V := volt w AA in let F := curr Zm w BB in
      piezo_power h s V (curr Ze w AA) F (volt w BB) = two * (s * (k * d * (c V * F)) + c (s * (k * d * (c V * F)))).
    Proof.
      intros HZe HZm H2 Hd Ho V F. apply pzt_lem in Ho; [|done..]. destruct Ho as [E1 E2].
      fold V F in E1, E2. unfold piezo_power. rewrite E2, E1. clearbody V F.
      repeat rewrite ?h_conj_mul, ?h_conj_add, ?conj_sub, ?h_conj_conj, ?Hs, ?HC, ?Hd', ?Hk, ?conj_opp. ring.
    Qed.
  End energy.
End proofs.

Local Open Scope fld_scope.
Lemma pzt_refuted_lem : exists (Ze Zm f C k d : R) (w : nd pAB -> C_fld),
  (0 < Ze /\ 0 < Zm /\ 0 < f /\ 0 < C /\ 0 < k /\ 0 < d)%R /\
  let s := (ci * cre f) in
  obeys [AA; BB] (pzt (cre Ze) (cre Zm) s (cre C) (cre k) (cre d)) [] w /\
  ~ piezo s (cre C) (cre k) (cre d) (volt w AA) (curr (cre Ze) w AA) (curr (cre Zm) w BB) (volt w BB) /\
  (piezo_power C_herm s (volt w AA) (curr (cre Ze) w AA) (curr (cre Zm) w BB) (volt w BB) <> 0).
Proof.
  exists 1%R, 1%R, 1%R, 1%R, 1%R, 1%R. set (s := (ci * cre 1)).
  assert (cre 1 <> 0) as H1 by (intros [= E]; lra).
  assert ((1 + 1) <> (0 : C_fld)) as H2 by (intros [= E]; lra).
  assert (pzt_den (cre 1) (cre 1) s (cre 1) (cre 1) (cre 1) <> 0) as Hd.
  { intros [= E1 E2]. lra. }
  destruct (pzt_wave (cre 1) (cre 1) s (cre 1) (cre 1) (cre 1) ci 1 H1 H1 H2 Hd) as (w & Ho & HV & HF).
  exists w. split; [lra|]. cbv zeta. split; [done|].
  assert (piezo_power C_herm s (volt w AA) (curr (cre 1) w AA) (curr (cre 1) w BB) (volt w BB) <> 0) as Hp.
  { rewrite (pzt_power_lem (cre 1) (cre 1) s (cre 1) (cre 1) (cre 1) C_herm); try done.
    - rewrite HV, HF. intros [= E1 E2]. lra.
    - apply injective_projections; simpl; ring.
    - apply injective_projections; simpl; ring.
    - apply injective_projections; simpl; ring.
    - apply injective_projections; simpl; ring. }
  split; [|done]. intros Hz. apply Hp.
  apply (piezo_lossless_lem s (cre 1) (cre 1) (cre 1) C_herm); try done; apply injective_projections; simpl; ring.
Qed.
