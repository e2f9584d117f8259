(** Proofs about the Complex class. *)
From Coq Require Import Reals Lra Lia.
From stdpp Require Import base tactics list numbers.
From Verif Require Import Py CplxModel CplxSpec.
Local Open Scope R_scope.


Ltac pc_ring := unfold pc_add, pc_radd, pc_sub, pc_rsub, pc_mul, pc_rmul, pc_neg, pc_conj, pc_0, pc_1, o_val;
  simpl; f_equal; ring.

Lemma ring_laws (a b c : pc) :
  pc_add a (OCplx b) = pc_add b (OCplx a) /\
  pc_add a (OCplx (pc_add b (OCplx c))) = pc_add (pc_add a (OCplx b)) (OCplx c) /\
  pc_add a (OCplx pc_0) = a /\ pc_add a (OCplx (pc_neg a)) = pc_0 /\
  pc_sub a (OCplx b) = pc_add a (OCplx (pc_neg b)) /\
  pc_mul a (OCplx b) = pc_mul b (OCplx a) /\
  pc_mul a (OCplx (pc_mul b (OCplx c))) = pc_mul (pc_mul a (OCplx b)) (OCplx c) /\
  pc_mul a (OCplx pc_1) = a /\
  pc_mul a (OCplx (pc_add b (OCplx c))) = pc_add (pc_mul a (OCplx b)) (OCplx (pc_mul a (OCplx c))).
Proof. destruct a, b, c. split_and!; pc_ring. Qed.

Lemma operands (a : pc) (o : operand) :
  pc_add a o = pc_add a (OCplx (o_val o)) /\ pc_radd a o = pc_add (o_val o) (OCplx a) /\
  pc_sub a o = pc_sub a (OCplx (o_val o)) /\ pc_rsub a o = pc_sub (o_val o) (OCplx a) /\
  pc_mul a o = pc_mul a (OCplx (o_val o)) /\ pc_rmul a o = pc_mul (o_val o) (OCplx a) /\
  pc_div a o = pc_div a (OCplx (o_val o)) /\ pc_rdiv a o = pc_div (o_val o) (OCplx a).
Proof. done. Qed.

Lemma den_0 x y : x * x + y * y = 0 -> x = 0 /\ y = 0.
Proof.
  intros H. pose proof (Rle_0_sqr x). pose proof (Rle_0_sqr y). unfold Rsqr in *.
  split; apply Rsqr_0_uniq; unfold Rsqr; lra.
Qed.
Lemma den_neq z : z <> pc_0 -> re z * re z + im z * im z <> 0.
Proof. intros Hz H. apply den_0 in H as [H1 H2]. apply Hz. destruct z; simpl in *; by subst. Qed.

Lemma division (a b : pc) :
  (b = pc_0 -> pc_div a (OCplx b) = Err ZeroDivisionError) /\
  (b <> pc_0 -> exists q, pc_div a (OCplx b) = Ok q /\ pc_mul q (OCplx b) = a /\
     forall q', pc_mul q' (OCplx b) = a -> q' = q).
Proof.
  split.
  - intros ->. unfold pc_div. simpl. destruct (Req_EM_T _ _) as [|n]; [done|]. destruct n. ring.
  - intros Hb. pose proof (den_neq b Hb) as Hd. unfold pc_div. simpl. destruct (Req_EM_T _ _) as [|n]; [done|].
    eexists; split; [done|]. destruct a as [a1 a2], b as [b1 b2]; simpl in *. split.
    + unfold pc_mul; simpl. f_equal; field; done.
    + intros [q1 q2] Hq. unfold pc_mul in Hq. simpl in Hq. injection Hq as <- <-. f_equal; field; done.
Qed.

Lemma conj_laws (a b : pc) :
  pc_conj (pc_add a (OCplx b)) = pc_add (pc_conj a) (OCplx (pc_conj b)) /\
  pc_conj (pc_mul a (OCplx b)) = pc_mul (pc_conj a) (OCplx (pc_conj b)) /\
  pc_conj (pc_conj a) = a /\ pc_conj pc_1 = pc_1 /\
  pc_mul a (OCplx (pc_conj a)) = PC (pc_abs_sq a) 0 /\
  (forall q, pc_div a (OCplx b) = Ok q -> pc_div (pc_conj a) (OCplx (pc_conj b)) = Ok (pc_conj q)).
Proof.
  destruct a as [a1 a2], b as [b1 b2]. split_and!; try (unfold pc_abs_sq; pc_ring).
  intros q. unfold pc_div; simpl. replace (- b2 * - b2) with (b2 * b2) by ring.
  destruct (Req_EM_T _ _) as [|n]; [done|]. intros [= <-].
  unfold pc_conj; simpl. do 2 f_equal; field; done.
Qed.

Lemma abs_nonneg a : 0 <= pc_abs a.
Proof. apply sqrt_pos. Qed.
Lemma abs_sq_nonneg a : 0 <= pc_abs_sq a.
Proof. unfold pc_abs_sq. pose proof (Rle_0_sqr (re a)). pose proof (Rle_0_sqr (im a)). unfold Rsqr in *. lra. Qed.
Lemma abs_laws (a b : pc) :
  pc_abs (pc_mul a (OCplx b)) = pc_abs a * pc_abs b /\
  0 <= pc_abs a /\ pc_abs a * pc_abs a = pc_abs_sq a /\ (pc_abs a = 0 <-> a = pc_0) /\
  pc_abs (pc_conj a) = pc_abs a /\ pc_abs (pc_add a (OCplx b)) <= pc_abs a + pc_abs b.
Proof.
  assert (forall a, pc_abs a * pc_abs a = pc_abs_sq a) as Hsq
    by (intros z; apply sqrt_sqrt, abs_sq_nonneg).
  split_and!.
  - unfold pc_abs. rewrite <- sqrt_mult by apply abs_sq_nonneg. f_equal. unfold pc_mul; simpl. ring.
  - apply abs_nonneg.
  - apply Hsq.
  - split.
    + intros H. pose proof (Hsq a) as Hs. rewrite H in Hs. unfold pc_abs_sq in Hs.
      destruct (den_0 (re a) (im a)) as [H1 H2]; [lra|]. destruct a; simpl in *; by subst.
    + intros ->. unfold pc_abs. simpl. rewrite Rmult_0_l, Rplus_0_l. apply sqrt_0.
  - unfold pc_abs, pc_conj; simpl. f_equal. ring.
  - apply Rsqr_incr_0_var; [|pose proof (abs_nonneg a); pose proof (abs_nonneg b); lra].
    unfold Rsqr. rewrite Hsq.
    replace ((pc_abs a + pc_abs b) * (pc_abs a + pc_abs b))
      with (pc_abs_sq a + pc_abs_sq b + 2 * (pc_abs a * pc_abs b)) by (rewrite <- !Hsq; ring).
    assert (re a * re b + im a * im b <= pc_abs a * pc_abs b) as Hcs.
    { destruct (Rle_dec (re a * re b + im a * im b) 0) as [Hn|Hn].
      - pose proof (Rmult_le_pos _ _ (abs_nonneg a) (abs_nonneg b)). lra.
      - apply Rsqr_incr_0_var; [|apply Rmult_le_pos; apply abs_nonneg]. unfold Rsqr.
        replace (pc_abs a * pc_abs b * (pc_abs a * pc_abs b)) with (pc_abs_sq a * pc_abs_sq b)
          by (rewrite <- !Hsq; ring).
        pose proof (Rle_0_sqr (re a * im b - im a * re b)) as Hx. unfold Rsqr, pc_abs_sq in *. lra. }
    unfold pc_abs_sq, pc_add in *; simpl. lra.
Qed.

Lemma eq_spec (a b : pc) : (pc_eq a (OCplx b) = Ok true <-> a = b) /\ (pc_eq a (OCplx b) = Ok false <-> a <> b).
Proof.
  destruct a as [a1 a2], b as [b1 b2]. unfold pc_eq; simpl.
  destruct (Req_EM_T a1 b1) as [->|H1]; [destruct (Req_EM_T a2 b2) as [->|H2]|];
    (split; split; [intros [=]|intros Hx|intros [=]|intros Hx]); try done; congruence.
Qed.

(** powers *)
Lemma npow_comm z n : pc_mul (pc_npow z n) (OCplx z) = pc_mul z (OCplx (pc_npow z n)).
Proof. apply ring_laws; exact pc_0. Qed.
Lemma iter_mul z n m : Nat.iter n (fun v => pc_mul v (OCplx z)) (pc_npow z m) = pc_npow z (m + n).
Proof.
  induction n as [|n IH]; [by rewrite Nat.add_0_r|]. rewrite Nat.iter_succ, IH, npow_comm.
  by rewrite Nat.add_succ_r.
Qed.
Lemma pow_odd z (n : Z) : (0 < n)%Z -> (n mod 2 = 1)%Z ->
  forall fuel, (1 <= fuel)%nat -> pc_pow_int fuel z n = Ok (pc_npow z (Z.to_nat n)).
Proof.
  intros Hn Ho fuel Hf. destruct fuel as [|fuel]; [lia|]. unfold pc_pow_int. cbn [pow_halve].
  rewrite decide_False by lia. cbn [mbind res_bind].
  replace z with (pc_npow z 1) at 1 by (simpl; apply ring_laws; exact pc_0).
  rewrite iter_mul. do 2 f_equal. lia.
Qed.
Lemma pow_neg_odd z (n : Z) : (n < 0)%Z -> (n mod 2 = 1)%Z ->
  forall fuel, (1 <= fuel)%nat -> pc_pow_int fuel z n = Ok z.
Proof.
  intros Hn Ho fuel Hf. destruct fuel as [|fuel]; [lia|]. unfold pc_pow_int. cbn [pow_halve].
  rewrite decide_False by lia. cbn [mbind res_bind]. by replace (Z.to_nat (n - 1)) with 0%nat by lia.
Qed.
Lemma halve_zero fuel b z : pow_halve fuel 0 b z = Err OutOfFuel.
Proof. revert b z. induction fuel as [|fuel IH]; intros b z; [done|]. simpl. apply IH. Qed.
Lemma pow_zero z fuel : pc_pow_int fuel z 0 = Err OutOfFuel.
Proof. unfold pc_pow_int. by rewrite halve_zero. Qed.
Lemma halve_true n : (n <> 0)%Z -> exists c, forall fuel, (c <= fuel)%nat -> forall z b, exists o v,
  pow_halve fuel n b z = Ok (o, b || bool_decide (n mod 2 = 0)%Z, v).
Proof.
  remember (Z.to_nat (Z.abs n)) as m eqn:Hm. revert n Hm.
  induction (lt_wf m) as [m _ IH]. intros n -> Hn.
  destruct (decide (n mod 2 = 0)%Z) as [He|Ho].
  - destruct (fun H1 => IH (Z.to_nat (Z.abs (n / 2))) H1 (n / 2)%Z eq_refl) as [c Hc].
    + assert (n = 2 * (n / 2))%Z by (pose proof (Z.div_mod n 2); lia). lia.
    + assert (n = 2 * (n / 2))%Z by (pose proof (Z.div_mod n 2); lia). lia.
    + exists (S c). intros fuel Hf z b. destruct fuel as [|fuel]; [lia|]. cbn [pow_halve]. rewrite decide_True by done.
      destruct (Hc fuel ltac:(lia) (pc_mul z (OCplx z)) true) as (o & v & ->). exists o, v.
      rewrite (bool_decide_eq_true_2 (n mod 2 = 0)%Z) by done. by rewrite orb_true_r.
  - exists 1%nat. intros fuel Hf z b. destruct fuel as [|fuel]; [lia|]. cbn [pow_halve]. rewrite decide_False by done.
    rewrite bool_decide_eq_false_2 by done. rewrite orb_false_r. eauto.
Qed.
Lemma pow_even z (n : Z) : (n <> 0)%Z -> (n mod 2 = 0)%Z ->
  exists c, forall fuel, (c <= fuel)%nat -> pc_pow_int fuel z n = Err TypeError.
Proof.
  intros Hn He. destruct (halve_true n Hn) as [c Hc]. exists c. intros fuel Hf. unfold pc_pow_int.
  destruct (Hc fuel Hf z false) as (o & v & ->). rewrite bool_decide_eq_true_2 by done. done.
Qed.

(** square root *)
Lemma abs_ge z : Rabs (re z) <= pc_abs z.
Proof.
  rewrite <- sqrt_Rsqr_abs. apply sqrt_le_1_alt. unfold Rsqr.
  pose proof (Rle_0_sqr (im z)). unfold Rsqr in *. lra.
Qed.
Lemma sqrt_spec z :
  pc_mul (pc_sqrt z) (OCplx (pc_sqrt z)) = z /\ 0 <= re (pc_sqrt z) /\
  (re (pc_sqrt z) = 0 -> 0 <= im (pc_sqrt z)).
Proof.
  pose proof (abs_ge z) as Hge.
  assert (- pc_abs z <= re z <= pc_abs z) as [Hl Hr].
  { unfold Rabs in *. destruct (Rcase_abs (re z)) in *; try lra. }
  assert (0 <= (pc_abs z + re z) / 2) as Hp by lra.
  assert (0 <= (pc_abs z - re z) / 2) as Hm by lra.
  assert (R_sqrt.sqrt ((pc_abs z + re z) / 2) * R_sqrt.sqrt ((pc_abs z - re z) / 2) = Rabs (im z) / 2) as Hprod.
  { rewrite <- sqrt_mult by done.
    replace ((pc_abs z + re z) / 2 * ((pc_abs z - re z) / 2)) with ((im z / 2) * (im z / 2)).
    - fold (Rsqr (im z / 2)). rewrite sqrt_Rsqr_abs. unfold Rdiv. rewrite Rabs_mult. f_equal.
      apply Rabs_right. lra.
    - destruct (abs_laws z z) as (_ & _ & Hs & _). unfold pc_abs_sq in Hs.
      transitivity ((pc_abs z * pc_abs z - re z * re z) / 4); [rewrite Hs|]; field. }
  pose proof (sqrt_sqrt _ Hp) as Hsp. pose proof (sqrt_sqrt _ Hm) as Hsm.
  unfold pc_sqrt. destruct (Rle_dec 0 (im z)) as [Hi|Hi].
  - rewrite Rabs_right in Hprod by lra. split_and!.
    + unfold pc_mul; simpl. destruct z as [x y]; simpl in *. f_equal; lra.
    + apply sqrt_pos.
    + intros _. apply sqrt_pos.
  - rewrite Rabs_left in Hprod by lra. split_and!.
    + unfold pc_mul; simpl. destruct z as [x y]; simpl in *. f_equal; lra.
    + apply sqrt_pos.
    + simpl. intros H0. exfalso. rewrite H0 in Hprod. lra.
Qed.

(** exponential *)
Lemma exp_spec z w :
  pc_abs (pc_exp z) = exp (re z) /\
  pc_exp (pc_add z (OCplx w)) = pc_mul (pc_exp z) (OCplx (pc_exp w)) /\
  pc_exp pc_0 = pc_1 /\ pc_exp (pc_conj z) = pc_conj (pc_exp z) /\
  pc_exp (PC (re z) (im z + 2 * PI)) = pc_exp z.
Proof.
  split_and!.
  - unfold pc_abs, pc_exp; simpl. pose proof (exp_pos (re z)) as Hp.
    replace (exp (re z) * cos (im z) * (exp (re z) * cos (im z)) + exp (re z) * sin (im z) * (exp (re z) * sin (im z)))
      with (Rsqr (exp (re z)) * (Rsqr (sin (im z)) + Rsqr (cos (im z)))) by (unfold Rsqr; ring).
    rewrite sin2_cos2, Rmult_1_r. apply sqrt_Rsqr. lra.
  - unfold pc_exp, pc_add, pc_mul; simpl. rewrite exp_plus, cos_plus, sin_plus. f_equal; ring.
  - unfold pc_exp, pc_1; simpl. rewrite exp_0, cos_0, sin_0. f_equal; ring.
  - unfold pc_exp, pc_conj; simpl. rewrite cos_neg, sin_neg. f_equal; ring.
  - unfold pc_exp; simpl. rewrite cos_plus, sin_plus, cos_2PI, sin_2PI. f_equal; ring.
Qed.

(** angle *)
Lemma abs_atan x y : x <> 0 -> R_sqrt.sqrt (x * x + y * y) = Rabs x * R_sqrt.sqrt (1 + Rsqr (y / x)).
Proof.
  intros Hx. rewrite <- sqrt_Rsqr_abs, <- sqrt_mult; [|apply Rle_0_sqr|pose proof (Rle_0_sqr (y / x)); lra].
  f_equal. unfold Rsqr. field. done.
Qed.
Lemma sqrt1_pos t : 0 < R_sqrt.sqrt (1 + Rsqr t).
Proof. apply sqrt_lt_R0. pose proof (Rle_0_sqr t). lra. Qed.
Lemma phase_spec z :
  pc_abs z * cos (pc_phase z) = re z /\ pc_abs z * sin (pc_phase z) = im z /\
  - PI < pc_phase z <= PI.
Proof.
  destruct z as [x y]. unfold pc_phase, pc_abs; simpl. pose proof PI_RGT_0 as Hpi.
  destruct (Req_EM_T x 0) as [->|Hx].
  - destruct (Rlt_dec 0 0) as [Hc|_]; [lra|].
    replace (0 * 0 + y * y) with (Rsqr y) by (unfold Rsqr; ring). rewrite sqrt_Rsqr_abs.
    destruct (Rle_dec 0 y) as [Hy|Hy].
    + rewrite cos_PI2, sin_PI2, Rabs_right by lra. split_and!; lra.
    + replace (- PI / 2) with (- (PI / 2)) by lra. rewrite cos_neg, sin_neg, cos_PI2, sin_PI2, Rabs_left by lra.
      split_and!; lra.
  - rewrite abs_atan by done. pose proof (sqrt1_pos (y / x)) as Hs.
    pose proof (atan_bound (y / x)) as Hb.
    destruct (Rlt_dec x 0) as [Hneg|Hpos].
    + rewrite Rabs_left by done.
      assert (- x * R_sqrt.sqrt (1 + (y / x)²) * - cos (atan (y / x)) = x) as Hcos.
      { rewrite cos_atan. field. lra. }
      assert (- x * R_sqrt.sqrt (1 + (y / x)²) * - sin (atan (y / x)) = y) as Hsin.
      { rewrite sin_atan. field. lra. }
      destruct (Rle_dec 0 y) as [Hy|Hy].
      * rewrite neg_cos, neg_sin. split_and!; [done|done|lra|].
        assert (y / x <= 0) as Hle.
        { unfold Rdiv. pose proof (Rinv_lt_0_compat x Hneg). nra. }
        assert (atan (y / x) <= 0); [|lra].
        destruct (Req_dec (y / x) 0) as [->|]; [rewrite atan_0; lra|].
        rewrite <- atan_0. left. apply atan_increasing. lra.
      * assert (forall t, cos (t - PI) = - cos t) as Hc.
        { intros t. rewrite cos_minus, cos_PI, sin_PI. ring. }
        assert (forall t, sin (t - PI) = - sin t) as Hs2.
        { intros t. rewrite sin_minus, cos_PI, sin_PI. ring. }
        rewrite Hc, Hs2. split_and!; [done|done| |lra].
        assert (0 < y / x) as Hlt.
        { unfold Rdiv. pose proof (Rinv_lt_0_compat x Hneg). nra. }
        assert (0 < atan (y / x)); [|lra]. rewrite <- atan_0. by apply atan_increasing.
    + rewrite Rabs_right by lra. rewrite cos_atan, sin_atan.
      split_and!; [field; lra|field; lra|lra|lra].
Qed.
Lemma angle_spec z :
  pc_mul (PC (pc_abs z) 0) (OCplx (pc_exp (PC 0 (pc_angle z false)))) = z /\
  - PI < pc_angle z false <= PI /\ pc_angle z true = pc_angle z false * (180 / PI) /\
  -180 < pc_angle z true <= 180.
Proof.
  destruct (phase_spec z) as (H1 & H2 & H3). unfold pc_angle. pose proof PI_RGT_0 as Hpi. split_and!.
  - unfold pc_exp, pc_mul; simpl. rewrite exp_0. destruct z as [x y]; simpl in *. f_equal; lra.
  - lra.
  - lra.
  - field. lra.
  - apply (Rmult_lt_reg_r PI); [done|]. unfold Rdiv. rewrite Rmult_assoc, Rinv_l by lra. lra.
  - apply (Rmult_le_reg_r PI); [done|]. unfold Rdiv. rewrite Rmult_assoc, Rinv_l by lra. lra.
Qed.

(** general powers *)
Lemma pow_gen_wrong : exists z x, z <> pc_0 /\
  pc_pow_gen z (OBare x) = Ok (PC 0 (-1)) /\ pc_exp (PC 0 (pc_phase z * x)) = PC 0 1 /\ pc_abs z = 1.
Proof.
  exists (PC (-1) 0), (1/2).
  assert (pc_abs (PC (-1) 0) = 1) as Ha.
  { unfold pc_abs; simpl. replace (-1 * -1 + 0 * 0) with 1 by ring. apply sqrt_1. }
  assert (pc_phase (PC (-1) 0) = PI) as Hp.
  { unfold pc_phase; simpl. destruct (Req_EM_T (-1) 0); [lra|]. destruct (Rlt_dec (-1) 0); [|lra].
    destruct (Rle_dec 0 0); [|lra]. replace (0 / -1) with 0 by field. rewrite atan_0. ring. }
  split_and!; [intros [= H]; lra| | |done].
  - unfold pc_pow_gen. rewrite Ha, Hp. cbn [o_real]. unfold Rpower. rewrite ln_1, Rmult_0_r, exp_0.
    replace (PI * (1 / 2)) with (PI / 2) by field. rewrite cos_PI2, sin_PI2. do 2 f_equal; ring.
  - rewrite Hp. unfold pc_exp; simpl. replace (PI * (1 / 2)) with (PI / 2) by field. rewrite exp_0, cos_PI2, sin_PI2.
    f_equal; ring.
Qed.
