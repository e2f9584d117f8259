(** Proofs about sources: generators and lasers. *)
From Coq Require Import Reals Lra String.
From stdpp Require Import base tactics numbers gmap.
From Verif Require Import Fld Py Herm ElecModel ElecProofs InjModel OptModel OptRot SigModel SigSpec SigProofs PdModel PdSpec PdProofs NoiModel NoiSpec SrcModel SrcSpec.
From stdpp Require Import list.
Local Open Scope fld_scope.

Add Field FSrc : (f_theory C_fld).
Lemma one_cre : (1 : C_fld) = cre 1. Proof. done. Qed.
Lemma two_neq : (1 + 1 : C_fld) <> 0.
Proof. intros [= E]. lra. Qed.
Lemma re_double z : z + cconj z = (1 + 1) * real_part z.
Proof.
  rewrite one_cre, <- cre_add. destruct z as [a b]. unfold real_part, cre, C_of, cconj, C_conj. cbn. unfold C_mul, C_add. cbn. f_equal; lra.
Qed.
Lemma re_half z : 1 / (1 + 1) * (z + cconj z) = real_part z.
Proof. rewrite re_double. field. apply two_neq. Qed.
Lemma conj_cis x : cconj (cis x) = cis (- x).
Proof. symmetry. apply cis_neg. Qed.

Lemma same_fst {X Y} (l : list (X * Y)) a b : NoDup l.*1 -> a ∈ l -> b ∈ l -> a.1 = b.1 -> a = b.
Proof.
  intros Hn Ha Hb E. apply elem_of_list_lookup in Ha as [i Hi]. apply elem_of_list_lookup in Hb as [j Hj].
  assert (i = j) as ->; [|congruence].
  apply (NoDup_lookup l.*1 i j a.1 Hn); rewrite list_lookup_fmap; [by rewrite Hi|by rewrite Hj, E].
Qed.
Section generator.
  Context {Q : Type} `{Countable Q}.
  Context (qadd : Q -> Q -> Q) (qneg : Q -> Q) (q0 : Q) (Hz : Q -> R) (qmul : Z -> Q -> Q).
  Context (HF : frequencies qadd qneg q0 Hz) (HM : multiples qneg Hz qmul).
  Lemma cplg_eq (g : generator Q) n : gen_cplg g n = cis (IZR n * the_phase (g_phase g)).
  Proof. unfold gen_cplg, the_phase. destruct (g_phase g); [done|]. cbn. by rewrite Rmult_0_r, cis_0. Qed.
  Lemma cplgC_eq (g : generator Q) n : gen_cplgC g n = cconj (gen_cplg g n).
  Proof. unfold gen_cplgC, gen_cplg. destruct (g_phase g); [by rewrite conj_cis|]. by rewrite cconj_1. Qed.
  Lemma at_out (g : generator Q) k : gen_at qneg qmul g PsOut k =
    (if decide (g_key g = k) then gen_cplg g 1 * g_amplitude g else 0) + (if decide (qneg (g_key g) = k) then gen_cplgC g 1 * amplitudeC g else 0).
  Proof.
    unfold gen_at, source_at, gen_sources. rewrite fsum_app. cbn [fsum fst snd]. rewrite fsum_bind, fsum_0.
    2: { intros h _. cbn [fsum fst snd]. rewrite !decide_False by congruence. ring. }
    destruct (decide (g_key g = k)) as [-> |]; [rewrite (decide_True (P := (PsOut, k) = _)) by done|rewrite (decide_False (P := (PsOut, g_key g) = _)) by congruence].
    all: destruct (decide (qneg _ = k)) as [E|]; [rewrite ?E, decide_True by done|rewrite decide_False by congruence]; ring.
  Qed.
  Lemma at_harm (g : generator Q) n z k : dict_ok g -> (n, z) ∈ g_harmonics g -> gen_at qneg qmul g (OutH n) k =
    (if decide (qmul n (g_key g) = k) then gen_cplg g n * z else 0) + (if decide (qneg (qmul n (g_key g)) = k) then gen_cplgC g n * cconj z else 0).
  Proof.
    intros Hd Hn. unfold gen_at, source_at, gen_sources. rewrite fsum_app. cbn [fsum fst snd]. rewrite !decide_False by congruence. rewrite fsum_bind.
    set (G := fun h : Z * C_fld => (if decide (qmul h.1 (g_key g) = k) then gen_cplg g h.1 * h.2 else 0) + (if decide (qneg (qmul h.1 (g_key g)) = k) then gen_cplgC g h.1 * cconj h.2 else 0)).
    rewrite (fsum_ext _ (fun h => if decide (h = (n, z)) then G h else 0)).
    - rewrite fsum_delta by (by apply (NoDup_fmap_1 fst)). rewrite decide_True by done. unfold G. cbn [fst snd]. ring.
    - intros h Hh. cbn [fsum fst snd]. rewrite (proj2 HM). destruct (decide (h = (n, z))) as [-> |N].
      + unfold G. cbn [fst snd].
        destruct (decide (qmul n (g_key g) = k)) as [E|]; [rewrite E, (decide_True (P := (OutH n, k) = _)) by done|rewrite (decide_False (P := (OutH n, qmul n _) = _)) by congruence].
        all: destruct (decide (qneg _ = k)) as [E'|]; [rewrite ?E', decide_True by done|rewrite decide_False by congruence]; ring.
      + assert (h.1 <> n).
        { intros En. apply N. by apply (same_fst (g_harmonics g)). }
        rewrite !decide_False by congruence. ring.
  Qed.
  Lemma at_else (g : generator Q) n k : n ∉ (g_harmonics g).*1 -> gen_at qneg qmul g (OutH n) k = 0.
  Proof.
    intros Hn. unfold gen_at, source_at, gen_sources. rewrite fsum_app. cbn [fsum fst snd]. rewrite !decide_False by congruence. rewrite fsum_bind, fsum_0; [ring|].
    intros h Hh. cbn [fsum fst snd]. assert (h.1 <> n) by (intros <-; apply Hn; by apply elem_of_list_fmap_1). rewrite !decide_False by congruence. ring.
  Qed.
  (** a pair of conjugate amplitudes at f and -f *)
  Lemma wave_two (x : Q -> C_fld) ks f z t : NoDup ks -> f ∈ ks -> qneg f ∈ ks ->
    (forall k, x k = (if decide (f = k) then z else 0) + (if decide (qneg f = k) then cconj z else 0)) ->
    wave q0 Hz ks x t = (if decide (f = q0) then 1 + 1 else 1) * real_part (z * cis (2 * PI * Hz f * t)).
  Proof.
    intros Hn Hf Hg Hx. unfold wave.
    set (c := fun k : Q => (if decide (k = q0) then 1 else 1 / (1 + 1)) * cis (2 * PI * Hz k * t)).
    rewrite (fsum_ext _ (fun k => (if decide (k = f) then c k * z else 0) + (if decide (k = qneg f) then c k * cconj z else 0))).
    2: { intros k _. rewrite Hx. unfold c. clear -f. destruct (decide (f = k)) as [E1|E1], (decide (k = f)) as [E1'|E1']; try congruence; destruct (decide (qneg f = k)) as [E2|E2], (decide (k = qneg f)) as [E2'|E2']; try congruence; ring. }
    rewrite fsum_add, !fsum_delta, !(decide_True (P := _ ∈ ks)) by done. unfold c.
    assert (Eh : Hz (qneg f) = (- Hz f)%R) by exact (fq_Hzn qadd qneg q0 Hz HF f).
    assert (E : cis (2 * PI * Hz (qneg f) * t) = cconj (cis (2 * PI * Hz f * t))) by (rewrite conj_cis, Eh; f_equal; ring). rewrite E.
    destruct (decide (f = q0)) as [-> |N].
    - rewrite (fq_neg0 qadd qneg q0 Hz HF), decide_True by done. rewrite <- re_double, cconj_mul. ring.
    - rewrite decide_False.
      2: { intros E0. apply N. rewrite <- (fq_nn qadd qneg q0 Hz HF f), E0. apply (fq_neg0 qadd qneg q0 Hz HF). }
      rewrite <- re_half, cconj_mul. ring.
  Qed.
End generator.
