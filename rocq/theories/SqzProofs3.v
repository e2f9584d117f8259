(** Proofs about EZSqz: quadratures, commutators and keys. *)
From Coq Require Import Reals Lra.
From stdpp Require Import base tactics numbers.
From Verif Require Import Py Fld Herm ElecModel ElecSpec ElecProofs OptModel OptSpec OptProofs OptRot SigModel SigProofs SqzModel SqzSpec SqzProofs SqzProofs2.
From stdpp Require Import list.
Local Open Scope fld_scope.

Add Field FSq3 : (f_theory C_fld).
Lemma gain_emits {P} `{EqDecision P} (es : list (edge (K := C_fld) P)) f t :
  gain es f t = emits es [] (fun n => if decide (n = I f) then 1 else 0) (O t).
Proof.
  unfold gain, emits. cbn [fsum]. assert (Hz : forall x : C_fld, x + 0 = x) by (intros; ring). rewrite Hz. apply fsum_ext. intros [[a b] g] _. cbn [fst snd]. destruct (decide ((a, b) = (I f, O t))) as [E|N].
  - injection E as -> ->. rewrite !decide_True by done. ring.
  - destruct (decide (b = O t)) as [-> |]; [|done]. destruct (decide (a = I f)) as [-> |]; [done|]. ring.
Qed.
Lemma cre_sqrt x : (0 <= x)%R -> cre (R_sqrt.sqrt x) * cre (R_sqrt.sqrt x) = cre x.
Proof. intros Hx. rewrite <- cre_mul. by rewrite sqr. Qed.
Lemma cre_sub x y : cre (x - y)%R = cre x - cre y.
Proof. unfold cre, C_of. cbn. unfold C_sub, C_add, C_opp. cbn. f_equal; ring. Qed.

Lemma cconj_0 : cconj 0 = 0.
Proof. exact (conj_0 C_herm). Qed.
Section fields.
  Context {B Q C : Type} `{EqDecision B} `{EqDecision Q} `{EqDecision C}.
  Context (csub : C -> C -> C) (okey : Q) (ckey2 : C) (u : ez_used) (phi : R).
  Notation key := (bool * (B * Q * C))%type.
  Context (Hm : mirrors csub ckey2).
  Notation refl := (sb_mirror csub ckey2).
  Notation es := (ez_coupling csub okey ckey2 u phi).
  Notation ph := (2 * PI * phi / 360)%R.
  Lemma phi_lower : phi_cplC phi true = cis (- ph) * cis (- ph).
  Proof. unfold phi_cplC. rewrite <- cis_add. f_equal. field. Qed.
  Lemma phi_raise : phi_cplC phi false = cis ph * cis ph.
  Proof. unfold phi_cplC. rewrite <- cis_add. f_equal. field. Qed.
  Lemma cis_inv : cis (- ph) * cis ph = 1.
  Proof. rewrite <- cis_add. rewrite Rplus_opp_l. apply cis_0. Qed.
  Lemma quad_lem (s : C_fld) (ks : sport -> list key) w p m : s * s = 1 -> (forall p, NoDup (ks p)) -> is_loss p = false -> m.1.2 = okey ->
    (true, m) ∈ ks p -> refl (true, m) ∈ ks p -> 
    let b := if decide ((true, m) ∈ ks (tmap p) /\ refl (true, m) ∈ ks (tmap p)) then 1 else 0 in
    ((true, m) ∈ ks (tmap p) <-> refl (true, m) ∈ ks (tmap p)) ->
    quadrature csub ckey2 s phi (fun k => emits (es ks) [] w (O (tmap p, k))) m =
    cre (R_sqrt.sqrt (1 - u_loss u)) * (cre (u_G1 u) + s * cre (u_G2 u)) * quadrature csub ckey2 s phi (fun k => w (I (p, k))) m +
    b * cre (R_sqrt.sqrt (u_loss u)) * quadrature csub ckey2 s phi (fun k => w (I (lmap (tmap p), k))) m.
  Proof.
    intros Hs Hn Hp Ho Hk Hr b Hb. assert (Hc : at_carrier okey (true, m) = true) by (by apply bool_decide_eq_true).
    unfold quadrature. change (false, (m.1, csub ckey2 m.2)) with (refl (true, m)). rewrite !(out_main _ _ _ _ _ Hm _ _ _ _ Hn Hp), at_refl, Hc, !(refl_refl csub ckey2 Hm).
    unfold if_in. rewrite !(decide_True (P := (true, m) ∈ ks p)), !(decide_True (P := refl (true, m) ∈ ks p)) by done.
    unfold ez_cplg1, ez_cplg2, ez_lR, ez_lT. change (fst (refl (true, m))) with false. cbn [fst]. rewrite phi_lower, phi_raise.
    pose proof cis_inv as Hi. generalize dependent (cis (- ph)). intros e Hi. generalize dependent (cis ph). intros e' Hi.
    set (a := w (I (p, (true, m)))). set (a' := w (I (p, refl (true, m)))). set (l := w (I (lmap (tmap p), (true, m)))). set (l' := w (I (lmap (tmap p), refl (true, m)))).
    generalize (cre (u_G1 u)) (cre (u_G2 u)) (cre (R_sqrt.sqrt (1 - u_loss u))) (cre (R_sqrt.sqrt (u_loss u))). intros g1 g2 t r.
    assert (E : forall x y : C_fld, e * (g1 * t * a + e' * e' * g2 * t * a' + x) + s * (e' * (g1 * t * a' + e * e * g2 * t * a + y)) =
      t * (g1 + s * g2) * (e * a + s * (e' * a')) + e * x + s * (e' * y)).
    { intros x y. transitivity (t * g1 * (e * a + s * (e' * a')) + t * g2 * ((e * e') * e' * a' + s * ((e * e') * e * a)) + e * x + s * (e' * y)); [ring|]. rewrite Hi.
      transitivity (t * g1 * (e * a + s * (e' * a')) + t * g2 * ((s * s) * e' * a' + s * (e * a)) + e * x + s * (e' * y)); [rewrite Hs; ring|]. ring. }
    rewrite E. unfold b. destruct (decide ((true, m) ∈ ks (tmap p))) as [H1|H1].
    - rewrite (decide_True (P := refl (true, m) ∈ ks (tmap p))) by tauto. rewrite (decide_True (P := _ /\ _)) by tauto. ring.
    - rewrite (decide_False (P := refl (true, m) ∈ ks (tmap p))) by tauto. rewrite (decide_False (P := _ /\ _)) by tauto. ring.
  Qed.
  Lemma sqrt_parts V G L : (0 <= L < 1)%R -> ((1 - L) * (G * G) + L)%R = V ->
    (R_sqrt.sqrt (1 - L) * G * (R_sqrt.sqrt (1 - L) * G) + R_sqrt.sqrt L * R_sqrt.sqrt L)%R = V.
  Proof. clear. intros HL <-. rewrite (sqr L) by lra. transitivity (R_sqrt.sqrt (1 - L) * R_sqrt.sqrt (1 - L) * (G * G) + L)%R; [ring|]. by rewrite sqr by lra. Qed.
  Definition sgn (plus : bool) : C_fld := if plus then 1 else - (1).
  Lemma squeezed_lem (ks : sport -> list key) p (m : B * Q * C) V1 V2 (plus : bool) :
    ez_init (given_V V1 (Some V2) None) = Ok u -> (0 < V1 < 1)%R -> (1 <= V1 * V2)%R ->
    (forall p, NoDup (ks p)) -> is_loss p = false -> m.1.2 = okey -> (forall q, q = p \/ q = tmap p -> (true, m) ∈ ks q /\ refl (true, m) ∈ ks q) ->
    exists a b : R, (a * a + b * b)%R = (if plus then V2 else V1) /\ forall w : nd (sport * key) -> C_fld,
    quadrature csub ckey2 (sgn plus) phi (fun k => emits (es ks) [] w (O (tmap p, k))) m =
    cre a * quadrature csub ckey2 (sgn plus) phi (fun k => w (I (p, k))) m + cre b * quadrature csub ckey2 (sgn plus) phi (fun k => w (I (lmap (tmap p), k))) m.
  Proof.
    intros Hu HV HVV Hn Hp Ho Hk. rewrite given_init in Hu. destruct (variance_lem V1 V2 None) as (u' & Hu' & HL & _ & _ & E1 & E2); [lra..|].
    assert (u' = u) as -> by congruence.
    exists (R_sqrt.sqrt (1 - u_loss u) * (u_G1 u + (if plus then 1 else -1) * u_G2 u))%R, (R_sqrt.sqrt (u_loss u)).
    split.
    - apply sqrt_parts; [done|]. destruct plus; [rewrite <- E2|rewrite <- E1]; ring.
    - intros w. destruct (Hk p (or_introl eq_refl)) as [H1 H2]. destruct (Hk (tmap p) (or_intror eq_refl)) as [H3 H4].
      rewrite quad_lem; [|destruct plus; unfold sgn; ring|done..|tauto]. rewrite decide_True by done.
      assert (E : cre (R_sqrt.sqrt (1 - u_loss u) * (u_G1 u + (if plus then 1 else -1) * u_G2 u)) = cre (R_sqrt.sqrt (1 - u_loss u)) * (cre (u_G1 u) + sgn plus * cre (u_G2 u))).
      { rewrite cre_mul, cre_add, cre_mul. do 2 f_equal. destruct plus; unfold sgn; [by rewrite <- cre_1|]. f_equal. unfold cre, C_of. cbn. unfold C_opp. cbn. f_equal; lra. }
      rewrite E. ring.
  Qed.
  Lemma oneway_lem (ks : sport -> list key) p (m : B * Q * C) V1 V2 :
    ez_init (given_V V1 (Some V2) None) = Ok u -> (0 < V1 < 1)%R -> (1 < V1 * V2)%R ->
    (forall p, NoDup (ks p)) -> is_loss p = false -> m.1.2 = okey -> (true, m) ∈ ks p -> refl (true, m) ∈ ks p -> (true, m) ∉ ks (tmap p) -> refl (true, m) ∉ ks (tmap p) ->
    exists a : R, (a * a < V1)%R /\ forall w : nd (sport * key) -> C_fld,
    quadrature csub ckey2 (sgn false) phi (fun k => emits (es ks) [] w (O (tmap p, k))) m = cre a * quadrature csub ckey2 (sgn false) phi (fun k => w (I (p, k))) m.
  Proof.
    intros Hu HV HVV Hn Hp Ho H1 H2 H3 H4. rewrite given_init in Hu. destruct (variance_lem V1 V2 None) as (u' & Hu' & HL & _ & EG & E1 & E2); [lra..|].
    assert (u' = u) as -> by congruence.
    exists (R_sqrt.sqrt (1 - u_loss u) * (u_G1 u - u_G2 u))%R. split.
    - pose proof (sqrt_parts V1 (u_G1 u - u_G2 u) (u_loss u) HL E1) as E. rewrite (sqr (u_loss u)) in E by lra.
      destruct (Req_EM_T (u_loss u) 0) as [E0|E0]; [|lra]. exfalso. rewrite E0 in E1, E2.
      assert ((V1 * V2 = (u_G1 u * u_G1 u - u_G2 u * u_G2 u) * (u_G1 u * u_G1 u - u_G2 u * u_G2 u))%R) by (rewrite <- E1, <- E2; ring). rewrite EG in H. lra.
    - intros w. rewrite quad_lem; [|unfold sgn; ring|done..|tauto]. rewrite decide_False by tauto.
      rewrite cre_mul, cre_sub. unfold sgn. ring.
  Qed.
  (** the coupling from one input to one output *)
  Lemma gain_main (ks : sport -> list key) f p k : (forall p, NoDup (ks p)) -> is_loss p = false -> at_carrier okey k = true ->
    (forall q, is_loss q = false -> k ∈ ks q /\ refl k ∈ ks q) ->
    gain (es ks) f (tmap p, k) = (if decide (f = (p, k)) then ez_cplg1 u else 0) + (if decide (f = (p, refl k)) then ez_cplg2 u phi (refl k) else 0) +
      (if decide (f = (lmap (tmap p), k)) then ez_lR u else 0).
  Proof.
    intros Hn Hp Hc Hk. rewrite gain_emits, (out_main _ _ _ _ _ Hm _ _ _ _ Hn Hp), Hc. unfold if_in.
    destruct (Hk p Hp) as [H1 H2]. destruct (Hk (tmap p)) as [H3 _]; [by destruct p|].
    rewrite !(decide_True (P := _ ∈ _)) by done. f_equal; [f_equal|].
    - destruct (decide (f = (p, k))) as [-> |N]; [rewrite decide_True by done|rewrite decide_False by congruence]; ring.
    - destruct (decide (f = (p, refl k))) as [-> |N]; [rewrite decide_True by done|rewrite decide_False by congruence]; ring.
    - destruct (decide (f = (lmap (tmap p), k))) as [-> |N]; [rewrite decide_True by done|rewrite decide_False by congruence]; ring.
  Qed.
  Lemma fsum_at (ins : list (sport * key)) (g : sport * key -> C_fld) x y : NoDup ins -> x ∈ ins -> fsum (fun f => if decide (f = x) then g f * y else 0) ins = g x * y.
  Proof. intros Hi Hx. rewrite fsum_delta by done. by rewrite decide_True. Qed.
  Lemma comm_expand (ks : sport -> list key) ins p k t' : NoDup ins -> (forall p, NoDup (ks p)) -> is_loss p = false -> at_carrier okey k = true ->
    (forall q, is_loss q = false -> k ∈ ks q /\ refl k ∈ ks q) -> (forall q, (q, k) ∈ ins /\ (q, refl k) ∈ ins) ->
    commutator (es ks) ins (tmap p, k) t' =
    canonical (p, k) (p, k) * (ez_cplg1 u * cconj (gain (es ks) (p, k) t')) +
    canonical (p, refl k) (p, refl k) * (ez_cplg2 u phi (refl k) * cconj (gain (es ks) (p, refl k) t')) +
    canonical (p, k) (p, k) * (ez_lR u * cconj (gain (es ks) (lmap (tmap p), k) t')).
  Proof.
    intros Hi Hn Hp Hc Hk Hin. unfold commutator.
    set (G := fun f => canonical f f * cconj (gain (es ks) f t')).
    transitivity (fsum (fun f => (if decide (f = (p, k)) then G f * ez_cplg1 u else 0) + (if decide (f = (p, refl k)) then G f * ez_cplg2 u phi (refl k) else 0) +
      (if decide (f = (lmap (tmap p), k)) then G f * ez_lR u else 0)) ins).
    - apply fsum_ext. intros f _. rewrite (gain_main ks f p k Hn Hp Hc Hk). unfold G.
      destruct (decide (f = (p, k))), (decide (f = (p, refl k))), (decide (f = (lmap (tmap p), k))); ring.
    - rewrite !fsum_add, !fsum_at by (done || apply Hin). unfold G. unfold canonical. rewrite !decide_True by done. cbn [snd fst]. ring.
  Qed.
  Lemma conj_phi l : cconj (phi_cplC phi l) = phi_cplC phi (negb l).
  Proof.
    assert (E : forall x, cconj (cis x) = cis (- x)) by (intros x; symmetry; apply cis_neg).
    destruct l; unfold phi_cplC; rewrite E; cbn [negb]; f_equal; ring.
  Qed.
  Lemma comm_lem (ks : sport -> list key) ins p k p' k' : (0 <= u_loss u < 1)%R -> (u_G1 u * u_G1 u - u_G2 u * u_G2 u = 1)%R ->
    NoDup ins -> (forall p, NoDup (ks p)) -> is_loss p = false -> is_loss p' = false ->
    (forall x, x = k \/ x = k' -> at_carrier okey x = true /\ (forall q, is_loss q = false -> x ∈ ks q /\ refl x ∈ ks q) /\ forall q, (q, x) ∈ ins /\ (q, refl x) ∈ ins) ->
    commutator (es ks) ins (tmap p, k) (tmap p', k') = canonical (tmap p, k) (tmap p', k').
  Proof.
    intros HL HG Hi Hn Hp Hp' Hx. destruct (Hx k (or_introl eq_refl)) as (Hc & Hk & Hin). destruct (Hx k' (or_intror eq_refl)) as (Hc' & Hk' & Hin').
    rewrite comm_expand by done. rewrite !(gain_main ks _ p' k' Hn Hp' Hc' Hk').
    assert (Er : ez_lR u * cconj (ez_lR u) = cre (u_loss u)) by (unfold ez_lR; rewrite cconj_cre; apply cre_sqrt; lra).
    assert (Et : ez_lT u * ez_lT u = cre (1 - u_loss u)) by (unfold ez_lT; apply cre_sqrt; lra).
    assert (Hz0 : cconj (0 + 0 + 0) = 0) by (replace (0 + 0 + 0 : C_fld) with (0 : C_fld) by ring; apply cconj_0).
    assert (Hz1 : forall x : C_fld, x + 0 + 0 = x) by (intros; ring). assert (Hz2 : forall x : C_fld, 0 + x + 0 = x) by (intros; ring).
    assert (Hz3 : forall x : C_fld, 0 + 0 + x = x) by (intros; ring).
    assert (Eg1 : ez_cplg1 u * cconj (ez_cplg1 u) = cre ((u_G1 u * u_G1 u) * (1 - u_loss u))).
    { unfold ez_cplg1. rewrite cconj_mul. unfold ez_lT at 2. rewrite !cconj_cre. fold (ez_lT u). rewrite !cre_mul, <- Et. ring. }
    assert (Eg2 : ez_cplg2 u phi (refl k) * cconj (ez_cplg2 u phi (refl k)) = cre ((u_G2 u * u_G2 u) * (1 - u_loss u))).
    { unfold ez_cplg2. rewrite !cconj_mul, conj_phi. unfold ez_lT at 2. rewrite !cconj_cre. fold (ez_lT u). rewrite !cre_mul, <- Et.
      assert (Ep : phi_cplC phi (refl k).1 * phi_cplC phi (negb (refl k).1) = 1).
      { destruct k as [[] k]; cbn [sb_mirror fst negb]; unfold phi_cplC; rewrite <- cis_add, <- cis_0; f_equal; ring. }
      transitivity (phi_cplC phi (refl k).1 * phi_cplC phi (negb (refl k).1) * (cre (u_G2 u) * cre (u_G2 u) * (ez_lT u * ez_lT u))); [ring|]. rewrite Ep. ring. }
    destruct (decide (p = p')) as [<- |Npp].
    2: { assert (Ec : canonical (tmap p, k) (tmap p', k') = 0) by (unfold canonical; by rewrite decide_False by (destruct p, p'; done)). rewrite Ec.
      repeat (rewrite (decide_False (P := (_, _) = (_, _))) by (destruct p, p'; done)).
      rewrite Hz0. ring. }
    destruct (decide (k = k')) as [<- |Nk].
    - rewrite (decide_True (P := (p, k) = (p, k))) by done. rewrite (decide_False (P := (p, k) = (p, refl k))) by (intros [= E]; by apply (refl_ne csub ckey2 k)).
      rewrite (decide_False (P := (p, k) = (lmap _, k))) by (by destruct p).
      rewrite (decide_False (P := (p, refl k) = (p, k))) by (intros [= E]; by apply (refl_ne csub ckey2 k)). rewrite (decide_True (P := (p, refl k) = (p, refl k))) by done.
      rewrite (decide_False (P := (p, refl k) = (lmap _, k))) by (by destruct p).
      rewrite (decide_False (P := (lmap _, k) = (p, k))) by (by destruct p). rewrite (decide_False (P := (lmap _, k) = (p, refl k))) by (by destruct p).
      rewrite (decide_True (P := (lmap _, k) = (lmap _, k))) by done.
      rewrite !Hz1, !Hz2, !Hz3. rewrite Er, Eg1, Eg2. unfold canonical. rewrite !decide_True by done. cbn [fst snd].
      assert (Es : cre ((u_G1 u * u_G1 u) * (1 - u_loss u)) - cre ((u_G2 u * u_G2 u) * (1 - u_loss u)) + cre (u_loss u) = 1).
      { rewrite <- cre_sub, <- cre_add, <- cre_1. apply (f_equal cre). replace (u_G1 u * u_G1 u)%R with (1 + u_G2 u * u_G2 u)%R by lra. ring. }
      change (fst (refl k)) with (negb k.1). destruct k as [[] k]; cbn [fst negb]; [refine (eq_trans _ Es); ring|].
      transitivity (- (cre ((u_G1 u * u_G1 u) * (1 - u_loss u)) - cre ((u_G2 u * u_G2 u) * (1 - u_loss u)) + cre (u_loss u))); [ring|by rewrite Es].
    - destruct (decide (k' = refl k)) as [-> |N2].
      + rewrite (decide_False (P := (p, k) = (p, refl k))) by (intros [= E]; by apply (refl_ne csub ckey2 k)). rewrite (refl_refl csub ckey2 Hm).
        rewrite (decide_True (P := (p, k) = (p, k))) by done. rewrite (decide_False (P := (p, k) = (lmap _, _))) by (by destruct p).
        rewrite (decide_True (P := (p, refl k) = (p, refl k))) by done. rewrite (decide_False (P := (p, refl k) = (p, k))) by (intros [= E]; by apply (refl_ne csub ckey2 k)).
        rewrite (decide_False (P := (p, refl k) = (lmap _, _))) by (by destruct p).
        rewrite (decide_False (P := (lmap _, k) = (p, _))) by (by destruct p). rewrite (decide_False (P := (lmap _, k) = (p, _))) by (by destruct p).
        rewrite (decide_False (P := (lmap _, k) = (lmap _, _))) by (intros [= E]; by apply (refl_ne csub ckey2 k)).
        rewrite Hz0, !Hz1, !Hz2. unfold canonical. rewrite (decide_False (P := (tmap p, k) = _)) by (intros [= E]; by apply (refl_ne csub ckey2 k)).
        rewrite !decide_True by done. unfold ez_cplg1, ez_cplg2. rewrite !cconj_mul, conj_phi, !cconj_cre. unfold ez_lT. rewrite !cconj_cre. cbn [fst snd].
        change (fst (refl k)) with (negb k.1). destruct k as [[] k]; cbn [fst negb]; ring.
      + assert (N3 : k <> refl k') by (intros ->; apply N2; by rewrite (refl_refl csub ckey2 Hm)). assert (N4 : refl k <> refl k') by (intros E; apply Nk; rewrite <- (refl_refl csub ckey2 Hm k), E; apply (refl_refl csub ckey2 Hm)).
        repeat (rewrite (decide_False (P := (_, _) = (_, _))) by (congruence || by destruct p)).
        rewrite Hz0. assert (Ec : canonical (tmap p, k) (tmap p, k') = 0) by (unfold canonical; by rewrite decide_False by congruence). rewrite Ec. ring.
  Qed.
  Lemma canon_loss (k : key) p : canonical (tmap p, k) (lmap p, k) = 0.
  Proof. unfold canonical. by rewrite decide_False by (by destruct p). Qed.
  Lemma loss_comm (ks : sport -> list key) ins p k : NoDup ins -> (forall p, NoDup (ks p)) -> is_loss p = false -> at_carrier okey k = true ->
    (forall q, k ∈ ks q /\ refl k ∈ ks q) -> (forall q, (q, k) ∈ ins /\ (q, refl k) ∈ ins) ->
    commutator (es ks) ins (tmap p, k) (lmap p, k) = canonical (p, k) (p, k) * (ez_cplg1 u * ez_lR u).
  Proof.
    intros Hi Hn Hp Hc Hk Hin. rewrite comm_expand by (try done; intros; apply Hk).
    rewrite !gain_emits, !(out_loss _ _ _ _ _ _ _ _ _ Hn Hp), Hc. unfold if_in. rewrite !(decide_True (P := _ ∈ _)) by apply Hk.
    rewrite (decide_True (P := I (p, k) = I (p, k))) by done. rewrite (decide_False (P := I (lmap p, k) = I (p, k))) by (by destruct p).
    rewrite (decide_False (P := I (p, k) = I (p, refl k))) by (intros [= E]; by apply (refl_ne csub ckey2 k)). rewrite (decide_False (P := I (lmap p, k) = I (p, refl k))) by (by destruct p).
    rewrite (decide_False (P := I (p, k) = I (lmap (tmap p), k))) by (by destruct p). rewrite (decide_False (P := I (lmap p, k) = I (lmap (tmap p), k))) by (by destruct p).
    assert (Z1 : ez_lR u * 1 + ez_lT u * 0 = ez_lR u) by ring. assert (Z2 : ez_lR u * 0 + ez_lT u * 0 = 0) by ring. rewrite Z1, Z2, cconj_0. unfold ez_lR. rewrite cconj_cre. ring.
  Qed.
  Lemma keys_lem (ks : nd sport -> list key) p k q k' g : ez_closed csub ckey2 okey ks -> (I (p, k), O (q, k'), g) ∈ es (fun p => ks (I p)) -> is_loss p = false ->
    k ∈ ks (I p) /\ k' ∈ ks (O q).
  Proof.
    intros Hc He Hp. assert (k ∈ ks (I p) /\ (O q, k') ∈ ez_request csub okey ckey2 (I p) k) as [H1 H2]; [|split; [done|by eapply Hc]].
    unfold ez_coupling in He. apply elem_of_app in He as [He|He].
    - apply elem_of_list_bind in He as (p0 & He & Hp0). apply elem_of_list_bind in He as (k0 & He & Hk0). unfold ez_edges in He. unfold ez_request. rewrite Hp.
      destruct (at_carrier okey k0) eqn:Ek; [|by apply elem_of_nil in He].
      apply elem_of_cons in He as [[= -> -> -> -> ->]|He]; [split; [done|apply elem_of_app; left; left]|].
      apply elem_of_cons in He as [[= -> -> -> -> ->]|He]; [split; [done|rewrite Ek; apply elem_of_app; right; left]|].
      apply elem_of_cons in He as [[= -> -> -> -> ->]|He]; [split; [done|apply elem_of_app; left; right; left]|].
      apply elem_of_cons in He as [[= -> -> -> -> ->]|He]; [|by apply elem_of_nil in He].
      exfalso. repeat (apply elem_of_cons in Hp0 as [-> |Hp0]; [done|]). by apply elem_of_nil in Hp0.
    - exfalso. apply elem_of_list_bind in He as (p0 & He & Hp0). apply elem_of_list_bind in He as (k0 & He & Hk0).
      apply elem_of_list_singleton in He as [= -> _ _ _ _]. repeat (apply elem_of_cons in Hp0 as [-> |Hp0]; [done|]). by apply elem_of_nil in Hp0.
  Qed.
  (** an optical frequency other than the pump's *)
  Lemma blocked_lem (ks : sport -> list key) w p k : (forall p, NoDup (ks p)) -> is_loss p = false -> k.2.1.2 <> okey -> emits (es ks) [] w (O (tmap p, k)) = 0.
  Proof.
    intros Hn Hp Hk. rewrite (out_main _ _ _ _ _ Hm _ _ _ _ Hn Hp). by replace (at_carrier okey k) with false by (symmetry; by apply bool_decide_eq_false).
  Qed.
End fields.
