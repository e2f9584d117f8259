(** Lemmas for NoiProps.v: homodyne readouts. *)
From Coq Require Import Reals Lra.
From stdpp Require Import base tactics numbers gmap list.
From Verif Require Import Fld Py Herm SigModel SigProofs NoiModel NoiSpec.
Local Open Scope R_scope.
Notation rt := R_sqrt.sqrt.

Lemma mat2_eq {A} (a b c d a' b' c' d' : A) : a = a' -> b = b' -> c = c' -> d = d' -> Mt a b c d = Mt a' b' c' d'.
Proof. congruence. Qed.
Lemma pair2 {A B} (a a' : A) (b b' : B) : a = a' -> b = b' -> (a, b) = (a', b'). Proof. congruence. Qed.
Lemma cs1 x : cos x * cos x + sin x * sin x = 1.
Proof. pose proof (sin2_cos2 x) as E. unfold Rsqr in E. lra. Qed.
Lemma sq0 x : 0 <= x * x. Proof. exact (Rle_0_sqr x). Qed.
Lemma deg_plus a b : (a + b) * PI / 180 = a * PI / 180 + b * PI / 180. Proof. field. Qed.
Definition ent (m : mat2 C_fld) : (R * R) * (R * R) * (R * R) * (R * R) := (e00 m, e01 m, e10 m, e11 m).
(** rotation with cosine and sine given *)
Definition rot_cs (c s : R) (m : mat2 C_fld) : mat2 C_fld := rotate (Mt c s (- s) c) m.
Lemma rot_cs_eq c s m :
  rot_cs c s m = Mt
   ((c*c*fst (e00 m) + c*s*(fst (e01 m) + fst (e10 m)) + s*s*fst (e11 m), c*c*snd (e00 m) + c*s*(snd (e01 m) + snd (e10 m)) + s*s*snd (e11 m)) : C_fld)
   ((c*c*fst (e01 m) + c*s*(fst (e11 m) - fst (e00 m)) - s*s*fst (e10 m), c*c*snd (e01 m) + c*s*(snd (e11 m) - snd (e00 m)) - s*s*snd (e10 m)) : C_fld)
   ((c*c*fst (e10 m) + c*s*(fst (e11 m) - fst (e00 m)) - s*s*fst (e01 m), c*c*snd (e10 m) + c*s*(snd (e11 m) - snd (e00 m)) - s*s*snd (e01 m)) : C_fld)
   ((c*c*fst (e11 m) - c*s*(fst (e01 m) + fst (e10 m)) + s*s*fst (e00 m), c*c*snd (e11 m) - c*s*(snd (e01 m) + snd (e10 m)) + s*s*snd (e00 m)) : C_fld).
Proof.
  destruct m as [[a a'] [b b'] [d d'] [e e']]. unfold rot_cs, rotate. cbn [e00 e01 e10 e11 fst snd].
  apply mat2_eq; apply pair2; simpl; ring.
Qed.
Lemma AC_eq deg m : AC_CSD_IQ deg m = rot_cs (cos (deg * PI / 180)) (sin (deg * PI / 180)) m. Proof. done. Qed.
Lemma rotate_compose a b m : AC_CSD_IQ b (AC_CSD_IQ a m) = AC_CSD_IQ (a + b) m.
Proof.
  rewrite !AC_eq, deg_plus, cos_plus, sin_plus. generalize (a * PI / 180) as x, (b * PI / 180) as y. intros x y. rewrite !rot_cs_eq. cbn [e00 e01 e10 e11 fst snd].
  apply mat2_eq; apply pair2; ring.
Qed.
Lemma rotate_0 m : AC_CSD_IQ 0 m = m.
Proof.
  rewrite AC_eq. replace (0 * PI / 180) with 0 by field. rewrite cos_0, sin_0, rot_cs_eq. destruct m as [[a a'] [b b'] [d d'] [e e']]. cbn [e00 e01 e10 e11 fst snd]. apply mat2_eq; apply pair2; ring.
Qed.
Lemma rotate_trace t m : let n := AC_CSD_IQ t m in (e00 n + e11 n = e00 m + e11 m)%F.
Proof.
  intros n. unfold n. rewrite AC_eq, rot_cs_eq. pose proof (cs1 (t * PI / 180)) as E. revert E. generalize (cos (t * PI / 180)) as c, (sin (t * PI / 180)) as s. intros c s E.
  assert (Es : s * s = 1 - c * c) by lra.
  destruct m as [[a a'] [b b'] [d d'] [e e']]. cbn [e00 e01 e10 e11 fst snd]. apply pair2; simpl; ring [Es].
Qed.
Lemma rotate_skew t m : let n := AC_CSD_IQ t m in (e01 n - e10 n = e01 m - e10 m)%F.
Proof.
  intros n. unfold n. rewrite AC_eq, rot_cs_eq. pose proof (cs1 (t * PI / 180)) as E. revert E. generalize (cos (t * PI / 180)) as c, (sin (t * PI / 180)) as s. intros c s E.
  assert (Es : s * s = 1 - c * c) by lra.
  destruct m as [[a a'] [b b'] [d d'] [e e']]. cbn [e00 e01 e10 e11 fst snd]. apply pair2; simpl; ring [Es].
Qed.
Lemma rotate_det t m : let n := AC_CSD_IQ t m in (e00 n * e11 n - e01 n * e10 n = e00 m * e11 m - e01 m * e10 m)%F.
Proof.
  intros n. unfold n. rewrite AC_eq, rot_cs_eq. pose proof (cs1 (t * PI / 180)) as E. revert E. generalize (cos (t * PI / 180)) as c, (sin (t * PI / 180)) as s. intros c s E.
  assert (Es : s * s = 1 - c * c) by lra.
  destruct m as [[a a'] [b b'] [d d'] [e e']]. cbn [e00 e01 e10 e11 fst snd]. apply pair2; simpl; ring [Es].
Qed.
Lemma rotate_sym t m : fst (e01 m) = fst (e10 m) -> fst (e01 (AC_CSD_IQ t m)) = fst (e10 (AC_CSD_IQ t m)).
Proof. rewrite AC_eq, rot_cs_eq. destruct m as [[a a'] [b b'] [d d'] [e e']]. cbn [e00 e01 e10 e11 fst snd]. intros ->. ring. Qed.
Lemma rotate_disc t m : ell_disc (AC_CSD_IQ t m) = ell_disc m.
Proof.
  rewrite AC_eq, rot_cs_eq. pose proof (cs1 (t * PI / 180)) as E. revert E. generalize (cos (t * PI / 180)) as c, (sin (t * PI / 180)) as s. intros c s E.
  assert (Es : s * s = 1 - c * c) by lra. unfold ell_disc. f_equal.
  destruct m as [[a a'] [b b'] [d d'] [e e']]. cbn [e00 e01 e10 e11 fst snd]. ring [Es].
Qed.
Lemma rotate_ell t m : ell_min (AC_CSD_IQ t m) = ell_min m /\ ell_max (AC_CSD_IQ t m) = ell_max m.
Proof.
  unfold ell_min, ell_max. rewrite rotate_disc. pose proof (rotate_trace t m) as E. cbn zeta in E. apply (f_equal fst) in E. simpl in E. simpl. rewrite E. done.
Qed.
Lemma psd_form t m : fst (AC_PSD t m) = form m (cos (t * PI / 180)) (sin (t * PI / 180)).
Proof. unfold AC_PSD. rewrite AC_eq, rot_cs_eq. cbn [e00 fst]. unfold form. ring. Qed.
Lemma quad x y b : 0 <= x -> 0 <= y -> x * y = b * b -> forall c s, 0 <= x * (c * c) - 2 * b * (s * c) + y * (s * s).
Proof.
  intros Hx Hy Hb c s. destruct (Req_dec x 0) as [->|Hn].
  - assert (Hbb : b * b = 0) by lra. assert (b = 0) as -> by (by destruct (Rmult_integral b b Hbb)). replace (_ + _) with (y * (s * s)) by ring. apply Rmult_le_pos; nra.
  - assert (Hp : 0 < x) by lra. apply (Rmult_le_reg_l x); [done|]. rewrite Rmult_0_r.
    replace (x * (x * (c * c) - 2 * b * (s * c) + y * (s * s))) with (x * c * (x * c) - 2 * b * s * (x * c) + x * y * (s * s)) by ring. rewrite Hb.
    replace (_ - _ + _) with ((x * c - b * s) * (x * c - b * s)) by ring. exact (Rle_0_sqr (x * c - b * s)).
Qed.
Section ellipse.
  Context (m : mat2 C_fld) (Hs : fst (e01 m) = fst (e10 m)).
  Notation a := (fst (e00 m)). Notation b := (fst (e10 m)). Notation e := (fst (e11 m)).
  Lemma disc_nn : 0 <= (a - e) * (a - e) + 4 * (fst (e01 m) * fst (e10 m)).
  Proof. rewrite Hs. pose proof (sq0 (a - e)). pose proof (sq0 b). lra. Qed.
  Lemma disc_sq : ell_disc m * ell_disc m = (a - e) * (a - e) + 4 * (b * b).
  Proof. unfold ell_disc. rewrite sqrt_sqrt by apply disc_nn. by rewrite Hs. Qed.
  Lemma disc_pos : 0 <= ell_disc m. Proof. apply sqrt_pos. Qed.
  Lemma ell_sum : ell_min m + ell_max m = a + e. Proof. unfold ell_min, ell_max. lra. Qed.
  Lemma ell_prod : ell_min m * ell_max m = a * e - b * b.
  Proof. unfold ell_min, ell_max. pose proof disc_sq. nra. Qed.
  Lemma disc_ge : Rabs (a - e) <= ell_disc m.
  Proof.
    rewrite <- (Rabs_pos_eq (ell_disc m) disc_pos). apply Rsqr_le_abs_0. unfold Rsqr. rewrite disc_sq. pose proof (sq0 b). lra.
  Qed.
  Lemma ell_bounds : ell_min m <= a <= ell_max m /\ ell_min m <= e <= ell_max m.
  Proof.
    pose proof disc_ge as Hg. pose proof (Rle_abs (a - e)). pose proof (Rle_abs (- (a - e))) as H2. rewrite Rabs_Ropp in H2. unfold ell_min, ell_max. lra.
  Qed.
  Lemma ell_b : (a - ell_min m) * (ell_max m - a) = b * b.
  Proof. pose proof ell_prod. pose proof ell_sum. nra. Qed.
  Lemma form_le c s : c * c + s * s = 1 -> ell_min m <= form m c s <= ell_max m.
  Proof.
    intros E. pose proof ell_bounds as [[B1 B2] [B3 B4]]. pose proof ell_b as Eb. pose proof ell_sum as Es. unfold form. rewrite Hs. split.
    - assert (Q : 0 <= (a - ell_min m) * (c * c) - 2 * (- b) * (s * c) + (e - ell_min m) * (s * s)).
      { apply quad; [lra|lra|]. replace (e - ell_min m) with (ell_max m - a) by lra. lra. }
      assert (Em : ell_min m = ell_min m * (c * c + s * s)) by (rewrite E; ring). lra.
    - assert (Q : 0 <= (ell_max m - a) * (c * c) - 2 * b * (s * c) + (ell_max m - e) * (s * s)).
      { apply quad; [lra|lra|]. replace (ell_max m - e) with (a - ell_min m) by lra. lra. }
      assert (Em : ell_max m = ell_max m * (c * c + s * s)) by (rewrite E; ring). lra.
  Qed.
  Lemma psd_bounds t : ell_min m <= fst (AC_PSD t m) <= ell_max m.
  Proof. rewrite psd_form. apply form_le, cs1. Qed.
  (** the direction of the ellipse *)
  Definition rat : R := (if Rlt_dec 0 b then 1 else -1) * rt (Rmax 0 (a - ell_min m) / (ell_max m - ell_min m)).
  Context (Hd : ell_min m < ell_max m).
  Lemma rat_sq : rat * rat = (a - ell_min m) / (ell_max m - ell_min m).
  Proof.
    pose proof ell_bounds as [[B1 B2] _]. unfold rat. rewrite Rmax_right by lra.
    assert (Hq : 0 <= (a - ell_min m) / (ell_max m - ell_min m)). { apply Rmult_le_pos; [lra|]. left. apply Rinv_0_lt_compat. lra. }
    pose proof (sqrt_sqrt _ Hq). destruct (Rlt_dec 0 b); nra.
  Qed.
  Lemma rat_range : -1 <= rat <= 1.
  Proof.
    pose proof ell_bounds as [[B1 B2] _]. assert (rat * rat <= 1). { rewrite rat_sq. apply (Rmult_le_reg_r (ell_max m - ell_min m)); [lra|]. field_simplify; lra. }
    split; nra.
  Qed.
  Lemma rat_cross : rat * rt (1 - rat * rat) = b / (ell_max m - ell_min m).
  Proof.
    pose proof ell_bounds as [[B1 B2] _]. pose proof ell_b as Eb. rewrite rat_sq. unfold rat. rewrite Rmax_right by lra.
    replace (1 - (a - ell_min m) / (ell_max m - ell_min m)) with ((ell_max m - a) / (ell_max m - ell_min m)) by (field; lra).
    rewrite Rmult_assoc, <- sqrt_mult.
    2:{ apply Rmult_le_pos; [lra|]. left. apply Rinv_0_lt_compat. lra. }
    2:{ apply Rmult_le_pos; [lra|]. left. apply Rinv_0_lt_compat. lra. }
    replace ((a - ell_min m) / (ell_max m - ell_min m) * ((ell_max m - a) / (ell_max m - ell_min m))) with ((b / (ell_max m - ell_min m)) * (b / (ell_max m - ell_min m))).
    2:{ transitivity (b * b / ((ell_max m - ell_min m) * (ell_max m - ell_min m))); [field; lra|]. rewrite <- Eb. field. lra. }
    fold (Rsqr (b / (ell_max m - ell_min m))). rewrite sqrt_Rsqr_abs. assert (Hi : 0 < / (ell_max m - ell_min m)) by (apply Rinv_0_lt_compat; lra). unfold Rdiv.
    destruct (Rlt_dec 0 b) as [Hb|Hb]; [rewrite Rabs_pos_eq; [lra|apply Rmult_le_pos; lra]|]. rewrite Rabs_left1; [lra|]. nra.
  Qed.
  Lemma ell_rad_max : fst (AC_PSD (- (180 * ell_rad m / PI)) m) = ell_max m.
  Proof.
    rewrite psd_form. replace (- (180 * ell_rad m / PI) * PI / 180) with (- ell_rad m) by (field; apply PI_neq0). rewrite cos_neg, sin_neg.
    unfold ell_rad. fold rat. pose proof rat_range as Hr.
    rewrite Rtrigo_facts.cos_pi_minus, Rtrigo_facts.sin_pi_minus, cos_acos, sin_acos by lra. unfold Rsqr.
    pose proof rat_cross as Ec. pose proof rat_sq as Eq. pose proof ell_b as Eb. pose proof ell_sum as Es.
    assert (H1 : 0 <= 1 - rat * rat) by nra. unfold form. rewrite Hs.
    replace (- rat * - rat) with (rat * rat) by ring. replace (- rat * - rt (1 - rat * rat)) with (rat * rt (1 - rat * rat)) by ring.
    replace (- rt (1 - rat * rat) * - rt (1 - rat * rat)) with (rt (1 - rat * rat) * rt (1 - rat * rat)) by ring.
    rewrite (sqrt_sqrt _ H1), Ec, Eq. replace e with (ell_min m + ell_max m - a) by lra.
    transitivity ((a * (a - ell_min m) + 2 * (b * b) + (ell_min m + ell_max m - a) * (ell_max m - a)) / (ell_max m - ell_min m)); [field; lra|].
    rewrite <- Eb. field. lra.
  Qed.
End ellipse.
Lemma form_mul (a b e p q : R) : forall x y : R, (x * p + y * q) * (x * p + y * q) * (a * e - b * b) <=
    (a * (p * p) + 2 * b * (p * q) + e * (q * q)) * (e * (x * x) - 2 * b * (x * y) + a * (y * y)).
Proof.
    intros x y. apply Rminus_le. replace (_ - _) with (- ((x * (b * p + e * q) - y * (a * p + b * q)) * (x * (b * p + e * q) - y * (a * p + b * q)))) by ring. pose proof (sq0 (x * (b * p + e * q) - y * (a * p + b * q))). lra.
Qed.
(** *** the optimal combination *)
Section optimal.
  Context (n : mat2 C_fld) (s : C_fld * C_fld) (Hn : spectrum n).
  Notation a := (fst (e00 n)). Notation b := (fst (e01 n)). Notation e := (fst (e11 n)).
  Definition sn : R := (e * C_sq s.1 - 2 * b * (fst s.1 * fst s.2 + snd s.1 * snd s.2) + a * C_sq s.2) / (a * e - b * b).
  Lemma optimal_eq : optimal2 n s = (1 / cre sn)%F.
  Proof.
    destruct Hn as (H1 & H2 & H3). unfold optimal2, re_inv, sn, C_sq. rewrite <- H1 in *. clear H1 H2. f_equal. destruct s as [[x x'] [y y']]. cbn [e00 e01 e10 e11 fst snd]. revert H3. generalize (fst (e00 n)) as a0, (fst (e01 n)) as b0, (fst (e11 n)) as f0. intros a0 b0 f0 H3. apply pair2; simpl; field; intros E; rewrite E in H3; lra.
  Qed.
  Lemma det_pos : 0 < a * e - b * b.
  Proof. destruct Hn as (H1 & H2 & H3). by rewrite <- H1 in H3. Qed.
  Lemma sn_bound t : C_sq (AC_sensitivity_IQ t s.1 s.2).1 <= fst (AC_PSD t n) * sn.
  Proof.
    rewrite psd_form. unfold AC_sensitivity_IQ. cbn [fst]. pose proof det_pos as Hd. destruct Hn as (H1 & H2 & H3). unfold form. rewrite <- H1.
    generalize (cos (t * PI / 180)) as p, (sin (t * PI / 180)) as q. intros p q. unfold sn, C_sq. clear H1 H2 H3. revert Hd. generalize (fst (e00 n)) as a, (fst (e01 n)) as b, (fst (e11 n)) as e. intros a b e Hd.
    destruct s as [[x x'] [y y']]. simpl.
    apply (Rmult_le_reg_r (a * e - b * b)); [done|].
    pose proof (form_mul a b e p q x y) as F1. pose proof (form_mul a b e p q x' y') as F2.
    match goal with |- _ <= ?r => replace r with ((a * (p * p) + 2 * b * (p * q) + e * (q * q)) * (e * (x * x) - 2 * b * (x * y) + a * (y * y)) + (a * (p * p) + 2 * b * (p * q) + e * (q * q)) * (e * (x' * x') - 2 * b * (x' * y') + a * (y' * y'))) by (field; lra) end.
    match goal with |- ?l <= _ => replace l with ((x * p + y * q) * (x * p + y * q) * (a * e - b * b) + (x' * p + y' * q) * (x' * p + y' * q) * (a * e - b * b)) by ring end.
    lra.
  Qed.
  Lemma psd_pos t : 0 < fst (AC_PSD t n).
  Proof.
    rewrite psd_form. pose proof (cs1 (t * PI / 180)) as E. revert E. generalize (cos (t * PI / 180)) as p, (sin (t * PI / 180)) as q. intros p q E.
    pose proof det_pos as Hd. destruct Hn as (H1 & H2 & H3). unfold form. rewrite <- H1.
    apply (Rmult_lt_reg_l a); [done|]. rewrite Rmult_0_r.
    replace (a * (a * (p * p) + (b + b) * (p * q) + e * (q * q))) with ((a * p + b * q) * (a * p + b * q) + (a * e - b * b) * (q * q)) by ring.
    destruct (Req_dec q 0) as [->|Hq].
    - assert (p * p = 1) by lra. replace (_ + _) with (a * a * (p * p)) by ring. rewrite H. assert (0 < a * a) by (by apply Rmult_lt_0_compat). lra.
    - assert (0 < q * q) by nra. assert (0 < (a * e - b * b) * (q * q)) by (by apply Rmult_lt_0_compat). pose proof (sq0 (a * p + b * q)). lra.
  Qed.
  Lemma sn_pos : s <> ((0, 0) : C_fld, (0, 0) : C_fld) -> 0 < sn.
  Proof.
    intros Hz. pose proof det_pos as Hd. destruct Hn as (H1 & H2 & H3). assert (Hq : forall x y, 0 <= e * (x * x) - 2 * b * (x * y) + a * (y * y) /\ (x <> 0 \/ y <> 0 -> 0 < e * (x * x) - 2 * b * (x * y) + a * (y * y))).
    { intros x y. assert (Ee : a * (e * (x * x) - 2 * b * (x * y) + a * (y * y)) = (a * y - b * x) * (a * y - b * x) + (a * e - b * b) * (x * x)) by ring.
      split.
      - apply (Rmult_le_reg_l a); [done|]. rewrite Ee, Rmult_0_r. assert (0 <= (a * e - b * b) * (x * x)) by (apply Rmult_le_pos; [lra|apply sq0]). pose proof (sq0 (a * y - b * x)). lra.
      - intros Hxy. apply (Rmult_lt_reg_l a); [done|]. rewrite Ee, Rmult_0_r. destruct (Req_dec x 0) as [->|Hx].
        + destruct Hxy as [|Hy]; [done|]. replace (_ + _) with ((a * a) * (y * y)) by ring. assert (0 < a * a) by (by apply Rmult_lt_0_compat). apply Rmult_lt_0_compat; [done|nra].
        + assert (0 < (a * e - b * b) * (x * x)) by (apply Rmult_lt_0_compat; [done|nra]). pose proof (sq0 (a * y - b * x)). lra. }
    unfold sn, C_sq. destruct s as [[x x'] [y y']]. cbn [fst snd]. apply Rmult_lt_0_compat; [|by apply Rinv_0_lt_compat].
    destruct (Hq x y) as [A1 A2]. destruct (Hq x' y') as [B1 B2].
    replace (_ + _) with ((e * (x * x) - 2 * b * (x * y) + a * (y * y)) + (e * (x' * x') - 2 * b * (x' * y') + a * (y' * y'))) by ring.
    clear Hq H1 H2 H3 Hd. revert A1 A2 B1 B2. generalize (e * (x * x) - 2 * b * (x * y) + a * (y * y)) as u, (e * (x' * x') - 2 * b * (x' * y') + a * (y' * y')) as v. intros u v A1 A2 B1 B2.
    destruct (Req_dec x 0) as [Ex|Ex], (Req_dec y 0) as [Ey|Ey]; try (apply Rplus_lt_le_0_compat; [apply A2; tauto|done]).
    destruct (Req_dec x' 0) as [Ex'|Ex'], (Req_dec y' 0) as [Ey'|Ey']; try (apply Rplus_le_lt_0_compat; [done|apply B2; tauto]).
    exfalso. apply Hz. by subst.
  Qed.
  Lemma optimal_bound t : s <> ((0, 0) : C_fld, (0, 0) : C_fld) ->
    snd (optimal2 n s) = 0 /\ 0 < fst (optimal2 n s) /\ fst (optimal2 n s) * C_sq (AC_sensitivity_IQ t s.1 s.2).1 <= fst (AC_PSD t n).
  Proof.
    intros Hz. pose proof (sn_pos Hz) as Hp. pose proof (sn_bound t) as Hb. rewrite optimal_eq.
    assert (E : (1 / cre sn)%F = cre (/ sn)). { revert Hp. clear. generalize sn as x. intros x Hp. apply pair2; simpl; unfold C_sq; simpl; field; nra. }
    rewrite E. revert Hb Hp. clear. generalize (C_sq (AC_sensitivity_IQ t s.1 s.2).1) as x, (fst (AC_PSD t n)) as y, sn as z. intros x y z Hb Hp. simpl.
    split; [done|]. split; [by apply Rinv_0_lt_compat|]. apply (Rmult_le_reg_r z); [done|]. replace (/ z * x * z) with x by (field; lra). done.
  Qed.
End optimal.
Lemma sens_compose a b i q : let r := AC_sensitivity_IQ a i q in AC_sensitivity_IQ b r.1 r.2 = AC_sensitivity_IQ (a + b) i q.
Proof.
  unfold AC_sensitivity_IQ. cbn [fst snd]. rewrite deg_plus, cos_plus, sin_plus. destruct i as [i i'], q as [q q']. apply pair2; apply pair2; simpl; ring.
Qed.
Lemma sens_power a i q : let r := AC_sensitivity_IQ a i q in C_sq r.1 + C_sq r.2 = C_sq i + C_sq q.
Proof.
  unfold AC_sensitivity_IQ. cbn [fst snd]. pose proof (cs1 (a * PI / 180)) as E. revert E. generalize (cos (a * PI / 180)) as c, (sin (a * PI / 180)) as s. intros c s E.
  assert (Es : s * s = 1 - c * c) by lra. destruct i as [i i'], q as [q q']. unfold C_sq. simpl. ring [Es].
Qed.
(** rotating the readout does not change the optimum *)
Lemma optimal_rotate n s t : spectrum n -> let r := AC_sensitivity_IQ t s.1 s.2 in optimal2 (AC_CSD_IQ t n) r = optimal2 n s.
Proof.
  intros Hn r. pose proof (det_pos n Hn) as Hd. assert (Hn' : spectrum (AC_CSD_IQ t n)).
  { destruct Hn as (H1 & H2 & H3). pose proof (psd_pos n ltac:(repeat split; done) t) as Hp. split; [|split; [exact Hp|]].
    - by apply rotate_sym.
    - pose proof (rotate_sym t n H1) as Hs'.
      pose proof (ell_prod _ Hs') as P1. pose proof (ell_prod _ H1) as P2. destruct (rotate_ell t n) as [Q1 Q2]. rewrite Q1, Q2, P2 in P1. rewrite Hs', <- P1. rewrite H1 in H3. lra. }
  rewrite (optimal_eq _ _ Hn'), (optimal_eq _ _ Hn). f_equal. f_equal. unfold sn.
  assert (Ed : fst (e00 (AC_CSD_IQ t n)) * fst (e11 (AC_CSD_IQ t n)) - fst (e01 (AC_CSD_IQ t n)) * fst (e01 (AC_CSD_IQ t n)) = fst (e00 n) * fst (e11 n) - fst (e01 n) * fst (e01 n)).
  { pose proof (ell_prod _ (proj1 Hn')) as P1. pose proof (ell_prod _ (proj1 Hn)) as P2. destruct (rotate_ell t n) as [Q1 Q2]. rewrite Q1, Q2, P2 in P1. rewrite (proj1 Hn'), (proj1 Hn). lra. }
  rewrite Ed. f_equal. destruct Hn as (H1 & _ & _). revert H1. unfold r. rewrite AC_eq, rot_cs_eq. unfold AC_sensitivity_IQ. cbn [fst snd e00 e01 e10 e11].
  pose proof (cs1 (t * PI / 180)) as E. revert E. generalize (cos (t * PI / 180)) as c, (sin (t * PI / 180)) as z. intros c z E H1.
  assert (Es : z * z = 1 - c * c) by lra. rewrite <- H1. destruct s as [[x x'] [y y']]. unfold C_sq. simpl. ring [Es].
Qed.

Lemma psd_quadrature t m : fst (AC_PSD t m) + fst (AC_PSD (t + 90) m) = fst (e00 m) + fst (e11 m).
Proof.
  rewrite !psd_form, deg_plus. replace (90 * PI / 180) with (PI / 2) by field. rewrite cos_plus, sin_plus, cos_PI2, sin_PI2. unfold form.
  pose proof (cs1 (t * PI / 180)) as E. revert E. generalize (cos (t * PI / 180)) as c, (sin (t * PI / 180)) as s. intros c s E.
  assert (Es : s * s = 1 - c * c) by lra. ring [Es].
Qed.
Lemma Imin_form m x : spectrum m -> ell_Imin m <= form m 1 x /\ form m 1 (- fst (e10 m) / fst (e11 m)) = ell_Imin m.
Proof.
  intros (H1 & H2 & H3). unfold ell_Imin, form. rewrite <- Rabs_mult, (Rabs_pos_eq (_ * _)) by apply sq0. rewrite H1 in *. revert H2 H3.
  generalize (fst (e00 m)) as a, (fst (e10 m)) as b, (fst (e11 m)) as e. intros a b e H2 H3. assert (He : 0 < e).
  { apply (Rmult_lt_reg_l a); [done|]. rewrite Rmult_0_r. pose proof (sq0 b). lra. }
  split; [|field; lra]. apply (Rmult_le_reg_r e); [done|]. replace ((a - b * b / e) * e) with (a * e - b * b) by (field; lra). pose proof (sq0 (e * x + b)). lra.
Qed.
Lemma Qmin_form m x : spectrum m -> ell_Qmin m <= form m x 1 /\ form m (- fst (e10 m) / fst (e00 m)) 1 = ell_Qmin m.
Proof.
  intros (H1 & H2 & H3). unfold ell_Qmin, form. rewrite <- Rabs_mult, (Rabs_pos_eq (_ * _)) by apply sq0. rewrite H1 in *. revert H2 H3.
  generalize (fst (e00 m)) as a, (fst (e10 m)) as b, (fst (e11 m)) as e. intros a b e H2 H3.
  split; [|field; lra]. apply (Rmult_le_reg_r a); [done|]. replace ((e - b * b / a) * a) with (a * e - b * b) by (field; lra). pose proof (sq0 (a * x + b)). lra.
Qed.
Lemma attained m : fst (e01 m) = fst (e10 m) -> ell_min m < ell_max m -> exists t, fst (AC_PSD t m) = ell_max m /\ fst (AC_PSD (t + 90) m) = ell_min m.
Proof.
  intros Hs Hd. exists (- (180 * ell_rad m / PI)). pose proof (ell_rad_max m Hs Hd) as E. split; [done|].
  pose proof (psd_quadrature (- (180 * ell_rad m / PI)) m) as Q. pose proof (ell_sum m) as S. rewrite E in Q. lra.
Qed.
