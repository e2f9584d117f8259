(** Proofs of the theorems of MeaProps.v. *)
From stdpp Require Import base tactics list numbers.
From Coq Require Import Reals Lra Psatz.
From Verif Require Import Fld Py Herm OptRot SigModel SigProofs AlmModel AlmSpec AlmProofs AlmProofs2 AlmProofs3 AlmProofs4 AlmFinal MeaModel MeaSpec MeaProofs.
Local Open Scope R_scope.
Add Field FCM2 : (f_theory C_fld).

Definition phasor (S : layout) (p : list nat) (pt : point) (u : C_fld) : Prop :=
  exists A, mat_at S pt (mmul A (upto (tree_of S) p TQ)) /\ 0 < det A /\ u = cunit (gfac (beam_of S p) A).
Lemma phasor_fun S p pt u v : usable S -> phasor S p pt u -> phasor S p pt v -> u = v.
Proof.
  intros (_ & Ho & _ & Hi & _) (A & HA & _ & ->) (B & HB & _ & ->). do 2 f_equal. apply (cancel_r _ _ (upto (tree_of S) p TQ)); [|by eapply mat_at_fun].
  by apply upto_det.
Qed.
Lemma phasor_unit S p pt u : usable S -> phasor S p pt u -> mag2 u = 1.
Proof. intros (_ & _ & _ & _ & Hb) (A & _ & Hd & ->). apply cunit_mag, gfac_neq; [apply Hb|done]. Qed.
Lemma gouy_closed S src p1 p2 : usable S -> known S src -> plain S p1 -> plain S p2 -> name_or_z p1 -> name_or_z p2 ->
  exists p u1 u2, target_idx S src = Ok (Tidx p TQ) /\ phasor S p p1 u1 /\ phasor S p p2 u2 /\ relative_gouy S src p1 p2 = Ok (u2 * cconj u1)%F.
Proof.
  intros HS Hs H1 H2 N1 N2. destruct (gouy_ok S src p1 p2 HS Hs H1 H2 N1 N2) as (p & A1 & A2 & m & Ep & Hb & F1 & F2 & D1 & Dm & E & Eg).
  pose proof HS as (_ & _ & _ & _ & Hph). pose proof (Hph p) as Pb. set (b := beam_of S p) in *.
  assert (0 < det A2) as D2 by (rewrite <- E, det_mmul; nra).
  exists p, (cunit (gfac b A1)), (cunit (gfac b A2)). split; [done|].
  assert (phasor S p p1 (cunit (gfac b A1))) as P1 by (by exists A1). split; [done|]. split; [by exists A2|]. rewrite Eg. f_equal.
  pose proof (gfac_chain b A1 m (Hph p) D1 Dm) as Hc. rewrite E in Hc. apply cunit_phase in Hc; [|by apply gfac_neq].
  rewrite cunit_mul in Hc; [|by apply gfac_neq|apply gfac_neq; [by apply propagate_physical|done]]. rewrite <- Hc.
  pose proof (unit_inv _ (phasor_unit _ _ _ _ HS P1)) as Hu. set (u := cunit (gfac b A1)) in *.
  transitivity (cunit (gfac (propagate_matrix b A1) m) * (u * cconj u))%F; [rewrite Hu; ring|ring].
Qed.
Lemma cconj_mag x : mag2 (cconj x) = mag2 x.
Proof. destruct x. unfold mag2, C_sq, cconj. simpl. ring. Qed.
Lemma C96_defined_lem S src p1 p2 : usable S -> known S src -> plain S p1 -> plain S p2 -> name_or_z p1 -> name_or_z p2 ->
  exists g, relative_gouy S src p1 p2 = Ok g /\ mag2 g = 1.
Proof.
  intros HS Hs H1 H2 N1 N2. destruct (gouy_closed S src p1 p2 HS Hs H1 H2 N1 N2) as (p & u1 & u2 & _ & P1 & P2 & E). eexists. split; [done|].
  unfold mag2. rewrite C_sq_mul. change (mag2 u2 * mag2 (cconj u1) = 1). rewrite cconj_mag, (phasor_unit _ _ _ _ HS P1), (phasor_unit _ _ _ _ HS P2). lra.
Qed.
Lemma C96_gouy_chain_lem S src p1 p2 p3 : usable S -> known S src -> plain S p1 -> plain S p2 -> plain S p3 -> name_or_z p1 -> name_or_z p2 -> name_or_z p3 ->
  exists g h, relative_gouy S src p1 p2 = Ok g /\ relative_gouy S src p2 p3 = Ok h /\ relative_gouy S src p1 p3 = Ok (g * h)%F.
Proof.
  intros HS Hs H1 H2 H3 N1 N2 N3. destruct (gouy_closed S src p1 p2 HS Hs H1 H2 N1 N2) as (p & u1 & u2 & Ep & P1 & P2 & E).
  destruct (gouy_closed S src p2 p3 HS Hs H2 H3 N2 N3) as (p' & v2 & v3 & Ep' & Q2 & Q3 & E'). rewrite Ep in Ep'. injection Ep' as <-.
  destruct (gouy_closed S src p1 p3 HS Hs H1 H3 N1 N3) as (p' & w1 & w3 & Ep' & R1 & R3 & E''). rewrite Ep in Ep'. injection Ep' as <-.
  rewrite (phasor_fun _ _ _ _ _ HS Q2 P2) in *. rewrite (phasor_fun _ _ _ _ _ HS R1 P1) in *. rewrite (phasor_fun _ _ _ _ _ HS R3 Q3) in *.
  eexists _, _. split; [done|]. split; [done|]. rewrite E''. f_equal. pose proof (unit_inv _ (phasor_unit _ _ _ _ HS P2)) as Hu.
  transitivity ((u2 * cconj u2) * (v3 * cconj u1))%F; [rewrite Hu; ring|ring].
Qed.
Lemma C96_gouy_back_lem S src p1 p2 : usable S -> known S src -> plain S p1 -> plain S p2 -> name_or_z p1 -> name_or_z p2 ->
  relative_gouy S src p1 p1 = Ok 1%F /\ exists g, relative_gouy S src p1 p2 = Ok g /\ relative_gouy S src p2 p1 = Ok (cconj g).
Proof.
  intros HS Hs H1 H2 N1 N2. destruct (gouy_closed S src p1 p2 HS Hs H1 H2 N1 N2) as (p & u1 & u2 & Ep & P1 & P2 & E).
  destruct (gouy_closed S src p2 p1 HS Hs H2 H1 N2 N1) as (p' & v2 & v1 & Ep' & Q2 & Q1 & E'). rewrite Ep in Ep'. injection Ep' as <-.
  destruct (gouy_closed S src p1 p1 HS Hs H1 H1 N1 N1) as (p' & w1 & w3 & Ep' & R1 & R3 & E''). rewrite Ep in Ep'. injection Ep' as <-.
  rewrite (phasor_fun _ _ _ _ _ HS Q2 P2) in *. rewrite (phasor_fun _ _ _ _ _ HS Q1 P1) in *. rewrite (phasor_fun _ _ _ _ _ HS R1 P1), (phasor_fun _ _ _ _ _ HS R3 P1) in E''.
  split; [rewrite E''; f_equal; by apply unit_inv, (phasor_unit S p p1)|]. eexists. split; [done|]. rewrite E'. f_equal. rewrite cconj_mul, cconj_conj. ring.
Qed.
Lemma C96_gouy_phase_lem S src x p1 p2 : usable S -> target_idx S src = Ok x -> plain S p1 -> plain S p2 -> name_or_z p1 -> name_or_z p2 ->
  exists b1 b2 g, target_q S x p1 = Ok b1 /\ target_q S x p2 = Ok b2 /\ relative_gouy S src p1 p2 = Ok g /\
    same_phase (gouy b2) (gouy b1 * g)%F.
Proof.
  intros HS Ex H1 H2 N1 N2. destruct (target_idx_ok S src x Ex) as (p0 & -> & Hb0 & Hn0).
  destruct (gouy_ok S src p1 p2 HS (ex_intro _ p0 (conj Hb0 Hn0)) H1 H2 N1 N2) as (p & A1 & A2 & m & Ep & Hb & F1 & F2 & D1 & Dm & E & Eg).
  rewrite Ex in Ep. injection Ep as <-. pose proof HS as (_ & Ho & _ & Hi & Hph). pose proof (upto_det (tree_of S) p0 TQ Ho) as HU.
  destruct (target_q_ok S p0 p1 HS Hb0 H1) as (m1 & M1 & E1 & K1 & G1 & _ & T1). destruct (target_q_ok S p0 p2 HS Hb0 H2) as (m2 & M2 & E2 & K2 & G2 & _ & T2).
  rewrite (mat_at_fun _ _ _ _ K1 F1) in G1. rewrite (mat_at_fun _ _ _ _ K2 F2) in G2. apply cancel_r in G1; [|done]. apply cancel_r in G2; [|done].
  rewrite G1 in T1. rewrite G2 in T2. eexists _, _, _. split; [done|]. split; [done|]. split; [done|]. rewrite <- E.
  apply (same_phase_trans _ _ _ (same_phase_sym _ _ (gouy_mul _ _ _ (Hph p0) D1 Dm))).
  change (gouy (propagate_matrix (propagate_matrix (beam_of S p0) A1) m)) with (gouy (propagate_matrix (beam_of S p0) A1) * gfac (propagate_matrix (beam_of S p0) A1) m)%F.
  apply same_phase_mul; [apply same_phase_refl|]. set (x := gfac _ m).
  assert (x <> (0 : C_fld)%F) as Hx by (apply gfac_neq; [apply propagate_physical; [apply Hph|done]|done]).
  pose proof (C_sq_pos x Hx) as Hp. exists (R_sqrt.sqrt (C_sq x)). split; [by apply sqrt_lt_R0|]. unfold cunit. field. apply cneq. simpl.
  pose proof (sqrt_lt_R0 _ Hp). nra.
Qed.
Lemma C96_target_q_lem S p y pt : usable S -> beam_target S p -> target (tree_of S) y -> plain S pt ->
  exists b m b', target_q S (Tidx p TQ) (AtIdx y) = Ok b /\ matrix_to S y pt = Ok m /\ target_q S (Tidx p TQ) pt = Ok b' /\
    physical b' /\ same_beam (propagate_matrix b (val m)) b'.
Proof.
  intros HS Hb Vy Hp. pose proof HS as (_ & Ho & _ & Hi & Hph).
  destruct (target_q_ok S p (AtIdx y) HS Hb Vy) as (m1 & M1 & E1 & K1 & G1 & D1 & T1). destruct (target_q_ok S p pt HS Hb Hp) as (m2 & M2 & E2 & K2 & G2 & D2 & T2).
  destruct (matrix_to_ok S y pt HS Vy Hp) as (m & M & E & HM & H & Hd & _). rewrite (mat_at_fun _ _ _ _ HM K2) in *. simpl in K1. rewrite <- K1, <- G1, mmul_assoc in H.
  rewrite <- G2 in H. apply cancel_r in H; [|by apply upto_det]. eexists _, _, _. split; [done|]. split; [done|]. split; [done|].
  assert (0 < det (val m)) as Dm by (rewrite <- H, det_mmul in D2; nra). split; [by apply propagate_physical|].
  destruct (beam_compose (beam_of S p) (val m1) (val m) (Hph p) D1 Dm) as (V1 & V2 & V3). rewrite <- H. done.
Qed.
Lemma C96_here_lem S p : usable S -> beam_target S p -> exists b, target_q S (Tidx p TQ) (AtIdx (Tidx p TQ)) = Ok b /\ same_beam b (beam_of S p).
Proof.
  intros HS Hb. pose proof HS as (_ & Ho & _ & Hi & Hph). destruct (target_q_ok S p (AtIdx (Tidx p TQ)) HS Hb) as (m1 & M1 & E1 & K1 & G1 & D1 & T1); [by apply leaf_valid|].
  eexists. split; [done|]. simpl in K1. rewrite K1 in G1. assert (val m1 = I2) as ->. { apply (cancel_r _ _ (upto (tree_of S) p TQ)); [by apply upto_det|]. by rewrite mmul_I_l. }
  split; [apply mob_I|]. split; [rewrite propagate_wave, det_I; ring|].
  change (same_phase (gouy (beam_of S p) * gfac (beam_of S p) I2)%F (gouy (beam_of S p))). destruct (gfac_phase (beam_of S p) I2 (Hph p)) as (k & Hk & E).
  assert (value (beam_of S p) <> (0 : C_fld)%F) as Hv. { intros Z. destruct (Hph p) as [Hz _]. unfold b_ZR in Hz. rewrite Z in Hz. simpl in Hz. lra. }
  exists k. split; [done|]. rewrite E. cbn [m00 m01 I2]. replace ((value (beam_of S p) * cre 1 + cre 0) / value (beam_of S p))%F with (1 : C_fld)%F.
  - assert (cconj 1%F = 1%F) as -> by (apply pair_eq_iff; simpl; split; ring). ring.
  - change (cre 1) with (1 : C_fld)%F. change (cre 0) with (0 : C_fld)%F. by field.
Qed.
Lemma overlap_ext a b c d : value a = value b -> wavelen a = wavelen b -> value c = value d -> wavelen c = wavelen d -> overlap a c = overlap b d.
Proof. intros H1 H2 H3 H4. unfold overlap, b_W. by rewrite H1, H2, H3, H4. Qed.
Lemma C96_overlap_lem S s1 s2 x1 p2 b : usable S -> target_idx S s1 = Ok x1 -> target_idx S s2 = Ok (Tidx p2 TQ) ->
  target_q S x1 (AtName s2) = Ok b -> wavelen b = wavelen (beam_of S p2) ->
  exists o o', overlap_of S s1 s2 = Ok o /\ overlap_of S s2 s1 = Ok o' /\ mag2 o = mag2 o' /\ mag2 o <= 1 /\
    (mag2 o = 1 <-> value b = value (beam_of S p2)).
Proof.
  intros HS Ex1 Ex2 Eb El. destruct (target_idx_ok S s1 x1 Ex1) as (p1 & -> & Hb1 & _). destruct (target_idx_ok S s2 _ Ex2) as (p2' & E & Hb2 & _). injection E as <-.
  pose proof HS as (_ & Ho & _ & Hi & Hph).
  destruct (between_val (tree_of S) (Tidx p1 TQ) (Tidx p2 TQ) Ho) as (m & Em & _ & Hm); [by apply leaf_valid..|].
  destruct (C52_inverse_lem _ _ _ _ Ho Em) as (m' & Em' & I1 & I2').
  cbn [path at_] in Hm. pose proof (upto_dpos p1 TQ _ Ho Hi) as U1. pose proof (upto_dpos p2 TQ _ Ho Hi) as U2.
  assert (0 < det (val m)) as D by (rewrite <- Hm, det_mmul in U2; nra).
  assert (0 < det (val m')) as D'. { apply (f_equal det) in I1. rewrite det_mmul, det_I in I1. nra. }
  unfold target_q in Eb. cbn [matrix_to] in Eb. rewrite Ex2 in Eb. cbn [mbind res_bind] in Eb. rewrite Em in Eb. cbn [mbind res_bind] in Eb.
  rewrite (target_beam_ok S p1 Hb1) in Eb. cbn [mbind res_bind] in Eb. injection Eb as <-. set (b1 := beam_of S p1) in *. set (b2 := beam_of S p2) in *.
  exists (overlap b2 (propagate_matrix b1 (val m))), (overlap b1 (propagate_matrix b2 (val m'))). unfold overlap_of. rewrite Ex1, Ex2. cbn [mbind res_bind]. rewrite Em, Em'.
  cbn [mbind res_bind]. rewrite (target_beam_ok S p1 Hb1), (target_beam_ok S p2 Hb2). cbn [mbind res_bind]. split; [done|]. split; [done|].
  pose proof (Hph p1) as P1. pose proof (Hph p2) as P2. fold b1 in P1. fold b2 in P2. pose proof (propagate_physical b1 _ P1 D) as P1'. pose proof (propagate_physical b2 _ P2 D') as P2'.
  destruct (overlap_le b2 (propagate_matrix b1 (val m)) P2 P1' (eq_sym El)) as [L1 L2]. split; [|split; [done|]].
  - destruct (beam_compose b2 (val m') (val m) P2 D' D) as (V1 & V2 & _). rewrite I2' in V1, V2. assert (value (propagate_matrix b2 I2) = value b2) as V0 by apply mob_I. rewrite V0 in V1.
    assert (wavelen (propagate_matrix b2 I2) = wavelen b2) as W2 by (rewrite propagate_wave, det_I; ring). rewrite W2 in V2.
    assert (wavelen b1 = wavelen (propagate_matrix b2 (val m'))) as W1.
    { rewrite propagate_wave in El |- *. rewrite <- El. apply (f_equal det) in I1. rewrite det_mmul, det_I in I1. rewrite Rmult_assoc, (Rmult_comm (det (val m))), I1. ring. }
    rewrite <- (overlap_abcd b1 _ (val m) P1 P2' W1 D). rewrite <- cconj_mag, <- overlap_conj; [|done..]. f_equal. by apply overlap_ext.
  - rewrite L2. split; done.
Qed.
Lemma C96_overlap_self_lem S s : usable S -> known S s -> overlap_of S s s = Ok 1%F.
Proof.
  intros HS Hs. destruct (target_idx_known S s Hs) as [x Ex]. destruct (target_idx_ok S s x Ex) as (p & -> & Hb & _). pose proof HS as (_ & Ho & _ & Hi & Hph).
  destruct (C52_here_lem _ (Tidx p TQ) Ho) as (m & Em & Hm); [by apply leaf_valid|]. unfold overlap_of. rewrite Ex. cbn [mbind res_bind]. rewrite Em. cbn [mbind res_bind].
  rewrite target_beam_ok by done. cbn [mbind res_bind]. f_equal. rewrite Hm. rewrite <- (overlap_self (beam_of S p) (Hph p)). apply overlap_ext; try done.
  - apply mob_I.
  - rewrite propagate_wave, det_I. ring.
Qed.
Lemma C96_source_lem S s1 s2 p1 p2 b pt : usable S -> target_idx S s1 = Ok (Tidx p1 TQ) -> target_idx S s2 = Ok (Tidx p2 TQ) ->
  target_q S (Tidx p1 TQ) (AtName s2) = Ok b -> value b = value (beam_of S p2) -> wavelen b = wavelen (beam_of S p2) -> plain S pt ->
  (exists b1 b2, target_q S (Tidx p1 TQ) pt = Ok b1 /\ target_q S (Tidx p2 TQ) pt = Ok b2 /\ value b1 = value b2 /\ wavelen b1 = wavelen b2) /\
  (forall pt', plain S pt' -> name_or_z pt -> name_or_z pt' -> relative_gouy S s1 pt pt' = relative_gouy S s2 pt pt').
Proof.
  intros HS Ex1 Ex2 Eb Ev El Hp. pose proof HS as (_ & Ho & _ & Hi & Hph).
  destruct (target_idx_ok S s1 _ Ex1) as (q & E & Hb1 & Hn1). injection E as <-. destruct (target_idx_ok S s2 _ Ex2) as (q & E & Hb2 & Hn2). injection E as <-.
  pose proof (upto_dpos p1 TQ _ Ho Hi) as U1. pose proof (upto_dpos p2 TQ _ Ho Hi) as U2. set (b1 := beam_of S p1) in *. set (b2 := beam_of S p2) in *.
  pose proof (Hph p1) as P1. pose proof (Hph p2) as P2. fold b1 in P1. fold b2 in P2.
  destruct (target_q_ok S p1 (AtName s2) HS Hb1) as (m & M & Em & Km & Gm & D & T); [by exists p2|]. rewrite Eb in T. injection T as ->. fold b1 in Ev, El.
  destruct Km as (q & Eq & ->). rewrite Ex2 in Eq. injection Eq as <-.
  assert (forall A1 A2 MM, mmul A1 (upto (tree_of S) p1 TQ) = MM -> mmul A2 (upto (tree_of S) p2 TQ) = MM -> 0 < det A2 ->
    A1 = mmul A2 (val m) /\ value (propagate_matrix b1 A1) = value (propagate_matrix b2 A2) /\ wavelen (propagate_matrix b1 A1) = wavelen (propagate_matrix b2 A2)) as Hkey.
  { intros A1 A2 MM H1 H2 HA. assert (A1 = mmul A2 (val m)) as ->.
    - apply (cancel_r _ _ (upto (tree_of S) p1 TQ)); [lra|]. rewrite <- mmul_assoc, Gm, H1. done.
    - split; [done|]. destruct (beam_compose b1 (val m) A2 P1 D HA) as (V1 & V2 & _). rewrite <- V1, <- V2, !propagate_value, !propagate_wave in *. by rewrite Ev, El. }
  split.
  - destruct (target_q_ok S p1 pt HS Hb1 Hp) as (m1 & M1 & _ & K1 & G1 & D1 & T1). destruct (target_q_ok S p2 pt HS Hb2 Hp) as (m2 & M2 & _ & K2 & G2 & D2 & T2).
    rewrite (mat_at_fun _ _ _ _ K1 K2) in G1. destruct (Hkey _ _ _ G1 G2 D2) as (_ & V1 & V2). eexists _, _. split; [done|]. split; [done|]. done.
  - intros pt' Hp' N N'. destruct (gouy_ok S s1 pt pt' HS (ex_intro _ p1 (conj Hb1 Hn1)) Hp Hp' N N') as (q & A1 & A2 & g & Eq & _ & F1 & F2 & D1 & Dg & EA & EG).
    rewrite Ex1 in Eq. injection Eq as <-. destruct (gouy_ok S s2 pt pt' HS (ex_intro _ p2 (conj Hb2 Hn2)) Hp Hp' N N') as (q & B1 & B2 & h & Eq & _ & F1' & F2' & D1' & Dh & EB & EH).
    rewrite Ex2 in Eq. injection Eq as <-. rewrite EG, EH. do 2 f_equal. destruct (Hkey A1 B1 _ eq_refl (mat_at_fun _ _ _ _ F1' F1) D1') as (Q1 & V1 & V2).
    destruct (Hkey A2 B2 _ eq_refl (mat_at_fun _ _ _ _ F2' F2)) as (Q2 & _); [rewrite <- EB, det_mmul; nra|].
    assert (g = h) as ->; [|by apply gfac_ext]. apply (cancel_r _ _ A1); [lra|]. rewrite EA, Q1, mmul_assoc, EB. done.
Qed.
Definition ex_tree : tree := Node [Tgt; Sp 2 1; Thin (ThinLens 3) false; Node [Sp 5 1; Tgt]].
Definition ex_first : beam := Beam (0, 1) 1 1%F.
Definition ex_matrix : m2 := match between ex_tree (Tidx [0%nat] TQ) (Tidx [3%nat; 1%nat] TQ) with Ok m => val m | Err _ => I2 end.
Definition ex_layout : layout :=
  Layout ex_tree (fun p => match p with [0%nat] => 7%nat | _ => 9%nat end)
    (fun p => match p with [0%nat] => ex_first | _ => propagate_matrix ex_first ex_matrix end).
Lemma ex_usable : usable ex_layout.
Proof.
  assert (tree_ok ex_tree) as Ho by (cbn; repeat split; (done || lra)). assert (indices_pos ex_tree) as Hi by (cbn; repeat split; lra).
  assert (physical ex_first) as Hf by (split; unfold b_ZR; simpl; lra).
  split; [by eexists|]. split; [done|]. split; [cbn; repeat split; lra|]. split; [done|]. intros p. cbn [beam_of ex_layout].
  assert (physical (propagate_matrix ex_first ex_matrix)) as Hm.
  { apply propagate_physical; [done|]. unfold ex_matrix. destruct (between_val ex_tree (Tidx [0%nat] TQ) (Tidx [3%nat; 1%nat] TQ) Ho) as (m & E & _ & H); [done..|].
    rewrite E. pose proof (upto_dpos [0%nat] TQ _ Ho Hi) as U1. pose proof (upto_dpos [3%nat; 1%nat] TQ _ Ho Hi) as U2. cbn [path at_] in H. rewrite <- H, det_mmul in U2. nra. }
  destruct p as [|[|i] [|j p]]; done.
Qed.
Lemma C96_example_lem : exists S p1 p2 b z, usable S /\ target_idx S 7 = Ok (Tidx p1 TQ) /\ target_idx S 9 = Ok (Tidx p2 TQ) /\
  target_q S (Tidx p1 TQ) (AtName 9) = Ok b /\ value b = value (beam_of S p2) /\ wavelen b = wavelen (beam_of S p2) /\
  plain S (AtZ z) /\ plain S (AtName 9) /\ beam_of S p1 <> beam_of S p2.
Proof.
  assert (tree_ok ex_tree) as Ho by (cbn; repeat split; (done || lra)).
  destruct (between_val ex_tree (Tidx [0%nat] TQ) (Tidx [3%nat; 1%nat] TQ) Ho) as (m & E & _ & H); [done..|].
  assert (ex_matrix = val m) as Em by (unfold ex_matrix; by rewrite E).
  exists ex_layout, [0%nat], [3%nat; 1%nat], (propagate_matrix ex_first ex_matrix), 1. split; [apply ex_usable|]. split; [done|]. split; [done|].
  split. { unfold target_q. cbn [matrix_to]. change (target_idx ex_layout 9) with (Ok (Tidx [3%nat; 1%nat] TQ)). cbn [mbind res_bind]. change (tree_of ex_layout) with ex_tree. rewrite E. rewrite Em. done. }
  split; [done|]. split; [done|]. split. { cbn. lra. } split. { exists [3%nat; 1%nat]. done. }
  intros F. apply (f_equal value) in F. cbn [beam_of ex_layout] in F. rewrite propagate_value in F.
  assert (ex_matrix = M2 (-2/3) (11/3) (-1/3) (1/3)) as EM.
  { rewrite Em. apply (cancel_r _ _ (upto ex_tree [0%nat] TQ)); [by apply upto_det|]. cbn [path at_] in H. rewrite H.
    cbn. rewrite ?focus_0. cbn. unfold mmul, I2. cbn. f_equal; field. }
  rewrite EM, mob_eq in F by (unfold den; simpl; lra). apply (f_equal fst) in F. unfold den in F. simpl in F.
  match type of F with 0 = ?a / ?b => assert (a = 13 / 9) as E1 by field; assert (b = 2 / 9) as E2 by field; rewrite E1, E2 in F end. lra.
Qed.
