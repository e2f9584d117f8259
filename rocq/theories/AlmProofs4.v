(** Proofs about beam parameters. *)
From stdpp Require Import base tactics list numbers.
From Coq Require Import Reals Lra Psatz.
From Verif Require Import Fld Py Herm CohFinal OptRot SigModel SigProofs AlmModel AlmSpec AlmProofs.
Local Open Scope R_scope.
Add Field FCA : (f_theory C_fld).

Definition den (m : m2) (q : C_fld) : R := (m10 m * fst q + m11 m) * (m10 m * fst q + m11 m) + m10 m * m10 m * (snd q * snd q).
Definition mob (m : m2) (q : C_fld) : C_fld := ((q * cre (m00 m) + cre (m01 m)) / (q * cre (m10 m) + cre (m11 m)))%F.
Lemma sq_pos x : x <> 0 -> 0 < x * x.
Proof. intros H. by apply Rlt_0_sqr. Qed.
Lemma den_pos m q : 0 < snd q -> det m <> 0 -> 0 < den m q.
Proof.
  intros Hq Hd. unfold den. destruct q as [x y]. simpl in *. destruct (Req_EM_T (m10 m) 0) as [E|E].
  - rewrite E. assert (m11 m <> 0) by (intros E'; apply Hd; unfold det; rewrite E, E'; ring).
    pose proof (sq_pos (m11 m) ltac:(done)). rewrite !Rmult_0_l, !Rplus_0_l, Rplus_0_r. done.
  - pose proof (sq_pos _ E) as H1. assert (0 < y * y) as H2 by nra. pose proof (Rmult_lt_0_compat _ _ H1 H2).
    pose proof (Rle_0_sqr (m10 m * x + m11 m)) as H3. unfold Rsqr in H3. lra.
Qed.
Ltac cpair := unfold mob, ci, cre, cconj, C_conj, C_of, C_i; simpl; unfold C_div, C_mul, C_add, C_sub, C_opp, C_inv, C_sq; simpl.
Lemma mob_eq m q : den m q <> 0 ->
  mob m q = (((m00 m * fst q + m01 m) * (m10 m * fst q + m11 m) + m00 m * m10 m * (snd q * snd q)) / den m q, det m * snd q / den m q).
Proof.
  intros Hd. unfold den, det in *. destruct q as [x y]. simpl in Hd. cpair. apply pair_eq_iff. split; field; intros E; apply Hd; rewrite <- E; ring.
Qed.
Lemma mob_im m q : 0 < snd q -> 0 < det m -> 0 < snd (mob m q).
Proof.
  intros Hq Hm. pose proof (den_pos m q Hq ltac:(lra)). rewrite mob_eq by lra. simpl. apply Rdiv_lt_0_compat; [nra|done].
Qed.
Lemma cneq (x y : R) : x * x + y * y <> 0 -> (x, y) <> (0 : C_fld)%F.
Proof. intros H E. apply H. apply pair_eq_iff in E as [-> ->]. ring. Qed.
Lemma den_neq m q : den m q <> 0 -> (q * cre (m10 m) + cre (m11 m))%F <> 0%F.
Proof.
  intros H. unfold den in H. destruct q as [x y]. simpl in H. cpair. apply cneq. intros E. apply H. rewrite <- E. ring.
Qed.
Section gen.
  Context {K : fld}.
  Local Open Scope fld_scope.
  Add Field FKA : (f_theory K).
  Lemma mob_gen (q a b c d a' b' c' d' : K) : q * c + d <> 0 -> q * (c' * a + d' * c) + (c' * b + d' * d) <> 0 ->
    ((q * a + b) / (q * c + d) * a' + b') / ((q * a + b) / (q * c + d) * c' + d')
    = (q * (a' * a + b' * c) + (a' * b + b' * d)) / (q * (c' * a + d' * c) + (c' * b + d' * d)).
  Proof.
    intros H1 H2. field. repeat split; try done; intros E; apply H2; rewrite <- E; ring.
  Qed.
End gen.
Lemma mob_mul m' m q : den m q <> 0 -> den (mmul m' m) q <> 0 -> mob m' (mob m q) = mob (mmul m' m) q.
Proof.
  intros H1 H2. apply den_neq in H1. apply den_neq in H2. unfold mob, mmul in *. cbn [m00 m01 m10 m11] in *.
  rewrite !cre_add, !cre_mul in *. by apply mob_gen.
Qed.
Lemma propagate_value b m : value (propagate_matrix b m) = mob m (value b).
Proof. done. Qed.
Lemma propagate_wave b m : wavelen (propagate_matrix b m) = wavelen b * det m.
Proof. done. Qed.
Lemma propagate_physical b m : physical b -> 0 < det m -> physical (propagate_matrix b m).
Proof.
  intros [H1 H2] Hm. unfold physical, b_ZR in *. rewrite propagate_value, propagate_wave. split; [by apply mob_im|nra].
Qed.
(** ** W and the phase *)
Lemma qsq_pos b : physical b -> 0 < C_sq (value b).
Proof. intros [H1 _]. unfold b_ZR in H1. unfold C_sq. nra. Qed.
Lemma inv_im b : physical b -> snd (1 / value b)%F = - b_ZR b / C_sq (value b).
Proof. intros H. pose proof (qsq_pos b H) as Hq. unfold b_ZR. destruct (value b) as [x y]. unfold C_sq in *. simpl in *. unfold C_div, C_mul, C_inv, C_sq. simpl. field. lra. Qed.
Lemma inv_re b : physical b -> b_R_inv b = b_Z b / C_sq (value b).
Proof. intros H. pose proof (qsq_pos b H) as Hq. unfold b_R_inv, b_Z. destruct (value b) as [x y]. unfold C_sq in *. simpl in *. unfold C_div, C_mul, C_inv, C_sq. simpl. field. lra. Qed.
Lemma W_sq b : physical b -> b_W b * b_W b = wavelen b * C_sq (value b) / (PI * b_ZR b).
Proof.
  intros H. pose proof (qsq_pos b H). destruct H as [H1 H2]. pose proof PI_RGT_0. unfold b_W. rewrite inv_im by done.
  rewrite R_sqrt.sqrt_sqrt; [field; repeat split; lra|].
  replace (- wavelen b / (- b_ZR b / C_sq (value b) * PI)) with (wavelen b * C_sq (value b) / (PI * b_ZR b)) by (field; repeat split; lra).
  apply Rlt_le, Rdiv_lt_0_compat; nra.
Qed.
Lemma W_pos b : physical b -> 0 < b_W b.
Proof.
  intros H. pose proof (W_sq b H) as E. pose proof (qsq_pos b H). destruct H as [H1 H2]. pose proof PI_RGT_0.
  assert (0 < wavelen b * C_sq (value b) / (PI * b_ZR b)) by (apply Rdiv_lt_0_compat; nra). rewrite <- E in *.
  assert (0 <= b_W b) by apply sqrt_pos. nra.
Qed.
Definition gfac (b : beam) (m : m2) : C_fld :=
  (cre ((m00 m + m01 m * b_R_inv b) * PI * (b_W b * b_W b)) + cre (wavelen b * m01 m) * ci)%F.
Lemma gfac_eq b m : physical b -> gfac b m = (cre (PI * (b_W b * b_W b)) * cconj ((value b * cre (m00 m) + cre (m01 m)) / value b))%F.
Proof.
  intros H. unfold gfac. rewrite W_sq by done. rewrite inv_re by done. pose proof (qsq_pos b H) as Hq. destruct H as [H1 H2]. pose proof PI_RGT_0.
  unfold b_Z, b_ZR in *. destruct (value b) as [x y]. unfold C_sq in *. simpl in H1, Hq. cpair. apply pair_eq_iff. split; field; repeat split; lra.
Qed.
Lemma same_phase_trans x y z : same_phase x y -> same_phase y z -> same_phase x z.
Proof.
  intros (k & Hk & ->) (k' & Hk' & ->). exists (k * k'). split; [nra|]. rewrite cre_mul. destruct z. cpair. apply pair_eq_iff. split; ring.
Qed.
Lemma same_phase_sym x y : same_phase x y -> same_phase y x.
Proof.
  intros (k & Hk & ->). exists (/ k). split; [by apply Rinv_0_lt_compat|]. destruct y. cpair. apply pair_eq_iff. split; field; lra.
Qed.
Lemma same_phase_mul x y x' y' : same_phase x y -> same_phase x' y' -> same_phase (x * x')%F (y * y')%F.
Proof.
  intros (k & Hk & ->) (k' & Hk' & ->). exists (k * k'). split; [nra|]. rewrite cre_mul. destruct y, y'. cpair. apply pair_eq_iff. split; ring.
Qed.
Lemma same_phase_refl x : same_phase x x.
Proof. exists 1. split; [lra|]. destruct x. cpair. apply pair_eq_iff. split; ring. Qed.
Lemma gfac_phase b m : physical b -> same_phase (gfac b m) (cconj ((value b * cre (m00 m) + cre (m01 m)) / value b)%F).
Proof. intros H. exists (PI * (b_W b * b_W b)). split; [|by apply gfac_eq]. pose proof PI_RGT_0. pose proof (W_pos b H). apply Rmult_lt_0_compat; [done|]. by apply Rmult_lt_0_compat. Qed.
Section gen2.
  Context {K : fld}.
  Local Open Scope fld_scope.
  Add Field FKB : (f_theory K).
  Lemma gouy_gen (q a b c d a' b' : K) : q <> 0 -> q * c + d <> 0 -> q * a + b <> 0 ->
    (q * a + b) / q * (((q * a + b) / (q * c + d) * a' + b') / ((q * a + b) / (q * c + d))) = (q * (a' * a + b' * c) + (a' * b + b' * d)) / q.
  Proof. intros H1 H2 H3. field. done. Qed.
End gen2.
Lemma gouy_mul b m m' : physical b -> 0 < det m -> 0 < det m' ->
  same_phase (gouy (propagate_matrix (propagate_matrix b m) m')) (gouy (propagate_matrix b (mmul m' m))).
Proof.
  intros Hb Hm Hm'. set (b' := propagate_matrix b m). assert (physical b') as Hb' by (by apply propagate_physical).
  change (gouy (propagate_matrix b' m')) with ((gouy b * gfac b m) * gfac b' m')%F.
  change (gouy (propagate_matrix b (mmul m' m))) with (gouy b * gfac b (mmul m' m))%F.
  assert ((gouy b * gfac b m * gfac b' m' = gouy b * (gfac b m * gfac b' m'))%F) as -> by ring.
  apply same_phase_mul; [apply same_phase_refl|].
  eapply same_phase_trans; [apply same_phase_mul; by apply gfac_phase|].
  eapply same_phase_trans; [|apply same_phase_sym; by apply gfac_phase]. rewrite <- cconj_mul.
  replace ((value b * cre (m00 m) + cre (m01 m)) / value b * ((value b' * cre (m00 m') + cre (m01 m')) / value b'))%F
    with ((value b * cre (m00 (mmul m' m)) + cre (m01 (mmul m' m))) / value b)%F; [apply same_phase_refl|]. symmetry.
  unfold b'. rewrite propagate_value. unfold mob, mmul. cbn [m00 m01]. rewrite !cre_add, !cre_mul. destruct Hb as [Hb _]. unfold b_ZR in Hb.
  apply gouy_gen.
  - destruct (value b) as [x y]. simpl in Hb. apply cneq. nra.
  - apply den_neq. pose proof (den_pos m (value b) Hb ltac:(lra)). lra.
  - pose proof (den_pos (M2 0 0 (m00 m) (m01 m)) (value b) Hb) as Hp. unfold den in Hp. destruct (value b) as [x y]. simpl in Hp, Hb |- *. cpair. apply cneq.
    destruct (Req_EM_T (m00 m) 0) as [E|E].
    + rewrite E. assert (m01 m <> 0) by (intros E'; unfold det in Hm; rewrite E, E' in Hm; lra). pose proof (sq_pos (m01 m) ltac:(done)). nra.
    + pose proof (sq_pos _ E) as H1. assert (0 < y * y) as H2 by nra. pose proof (Rmult_lt_0_compat _ _ H1 H2).
      match goal with |- ?a * ?a + ?b * ?b <> 0 => pose proof (Rle_0_sqr a) as H3; assert (b * b = m00 m * m00 m * (y * y)) as E' by ring end.
      unfold Rsqr in H3. lra.
Qed.
Lemma beam_compose b m m' : physical b -> 0 < det m -> 0 < det m' ->
  let b1 := propagate_matrix (propagate_matrix b m) m' in let b2 := propagate_matrix b (mmul m' m) in
  value b1 = value b2 /\ wavelen b1 = wavelen b2 /\ same_phase (gouy b1) (gouy b2).
Proof.
  intros Hb Hm Hm'. cbv zeta. split; [|split; [|by apply gouy_mul]].
  - rewrite !propagate_value. destruct Hb as [Hb _]. unfold b_ZR in Hb. pose proof (den_pos m _ Hb ltac:(lra)).
    assert (det (mmul m' m) <> 0) by (rewrite det_mmul; nra). pose proof (den_pos (mmul m' m) _ Hb ltac:(done)). apply mob_mul; lra.
  - rewrite !propagate_wave, det_mmul. ring.
Qed.
Lemma distance_value b L : value (propagate_distance b L) = (b_Z b + L, b_ZR b).
Proof.
  unfold propagate_distance. rewrite propagate_value. unfold b_Z, b_ZR. destruct (value b) as [x y].
  rewrite mob_eq; unfold den; simpl; [|rewrite !Rmult_0_l, Rplus_0_l; lra]. unfold det. simpl. apply pair_eq_iff. split; field; lra.
Qed.
Lemma distance_wave b L : wavelen (propagate_distance b L) = wavelen b.
Proof. unfold propagate_distance. rewrite propagate_wave. unfold det. simpl. ring. Qed.
Lemma distance_gouy b L : physical b ->
  same_phase (gouy (propagate_distance b L)) (gouy b * (value b / value (propagate_distance b L)))%F.
Proof.
  intros Hb. rewrite distance_value. change (gouy (propagate_distance b L)) with (gouy b * gfac b (M2 1 L 0 1))%F.
  apply same_phase_mul; [apply same_phase_refl|]. eapply same_phase_trans; [by apply gfac_phase|].
  destruct Hb as [Hb _]. unfold b_Z, b_ZR in *. destruct (value b) as [x y]. simpl in Hb |- *.
  pose proof (Rmult_lt_0_compat _ _ Hb Hb) as Hy. pose proof (Rle_0_sqr (x + L)) as H1. pose proof (Rle_0_sqr x) as H2. unfold Rsqr in *.
  exists (((x + L) * (x + L) + y * y) / (x * x + y * y)). split; [apply Rdiv_lt_0_compat; lra|].
  cpair. apply pair_eq_iff. split; field; repeat split; lra.
Qed.
(** ** going back *)
Section gen3.
  Context {K : fld}.
  Local Open Scope fld_scope.
  Add Field FKC : (f_theory K).
  Lemma back_gen (v a b c d : K) : v * c + d <> 0 -> (- v * a + - b) / (- v * - c + d) = - ((v * a + b) / (v * c + d)).
  Proof. intros H. field. repeat split; try done; intros E; apply H; rewrite <- E; ring. Qed.
  Lemma div_gen (a b q : K) : b <> 0 -> (a / b = q <-> q * b = a).
  Proof. intros H. split; intros E; [rewrite <- E; by field|rewrite <- E; by field]. Qed.
End gen3.
Lemma mob_back m w : den m w <> 0 -> mob (M2 (m00 m) (- m01 m) (- m10 m) (m11 m)) (- cconj w)%F = (- cconj (mob m w))%F.
Proof.
  intros H. apply den_neq in H. unfold mob. cbn [m00 m01 m10 m11]. rewrite !cre_opp, cconj_div by done.
  rewrite !cconj_add, !cconj_mul, !cconj_cre. apply back_gen. intros E. apply (cconj_neq_0 _ H).
  by rewrite cconj_add, cconj_mul, !cconj_cre.
Qed.
Lemma mob_I q : mob I2 q = q.
Proof. unfold mob, I2. destruct q as [x y]. cpair. apply pair_eq_iff. split; field; lra. Qed.
Lemma ray_mat a b : (forall r, ray a r = ray b r) -> a = b.
Proof.
  intros H. pose proof (H (1, 0)) as H1. pose proof (H (0, 1)) as H2. unfold ray in H1, H2. simpl in H1, H2.
  apply pair_eq_iff in H1 as [E1 E2]. apply pair_eq_iff in H2 as [E3 E4]. destruct a, b. simpl in *. apply m2_eq; lra.
Qed.
Lemma ray_mmul a b r : ray (mmul a b) r = ray a (ray b r).
Proof. unfold ray, mmul. destruct r as [x y]. simpl. apply pair_eq_iff. split; ring. Qed.
Lemma reverse_mat m mr : det m <> 0 -> (forall r, ray mr (back (ray m r)) = back r) ->
  mr = M2 (m00 (minv m)) (- m01 (minv m)) (- m10 (minv m)) (m11 (minv m)).
Proof.
  intros Hm H. set (k := M2 (m00 mr) (- m01 mr) (- m10 mr) (m11 mr)).
  assert (k = minv m) as <-; [|destruct mr; simpl; apply m2_eq; ring].
  apply (cancel_r _ _ m Hm). rewrite minv_l by done. apply ray_mat. intros r. rewrite ray_mmul.
  specialize (H r). unfold ray, back, I2, k in *. destruct r as [x y]. simpl in *. apply pair_eq_iff in H as [E1 E2]. apply pair_eq_iff.
  split; [transitivity x; [etransitivity; [|exact E1]; ring|ring]|].
  transitivity (- (- y)); [|ring]. etransitivity; [|apply (f_equal Ropp); exact E2]. ring.
Qed.
Lemma det_minv m : det m <> 0 -> det (minv m) <> 0.
Proof. intros H E. pose proof (f_equal det (minv_l m H)) as E'. rewrite det_mmul, E, det_I in E'. lra. Qed.
Lemma mob_reverse m mr q : 0 < snd q -> 0 < det m -> (forall r, ray mr (back (ray m r)) = back r) -> mob mr (- cconj (mob m q))%F = (- cconj q)%F.
Proof.
  intros Hq Hm H. rewrite (reverse_mat m mr ltac:(lra) H). pose proof (mob_im m q Hq Hm) as Hi.
  pose proof (den_pos (minv m) _ Hi (det_minv m ltac:(lra))). rewrite mob_back by lra. do 2 f_equal.
  rewrite mob_mul, minv_l, mob_I; try done; [lra|pose proof (den_pos m q Hq ltac:(lra)); lra|rewrite minv_l by lra; unfold den; simpl; lra].
Qed.
(** ** eigenmodes *)
Lemma eigen_c m : det m = 1 -> (m00 m + m11 m) * (m00 m + m11 m) < 4 -> m10 m <> 0.
Proof. unfold det. intros Hd Hs E. rewrite E in Hd. pose proof (Rle_0_sqr (m00 m - m11 m)) as H. unfold Rsqr in H. nra. Qed.
Lemma mob_fixed m (q : C_fld) : 0 < snd q -> det m <> 0 -> (mob m q = q <-> (q * (q * cre (m10 m) + cre (m11 m)) = q * cre (m00 m) + cre (m01 m))%F).
Proof.
  intros Hq Hd. pose proof (den_pos m q Hq Hd) as Hp. assert ((q * cre (m10 m) + cre (m11 m))%F <> 0%F) as Hn by (apply den_neq; lra).
  unfold mob. split; intros E.
  - by apply div_gen in E.
  - by apply div_gen.
Qed.

Lemma fixed_iff m x y : 0 < y -> det m = 1 -> m10 m <> 0 ->
  (mob m (x, y) = (x, y) <-> x = (m00 m - m11 m) / (2 * m10 m) /\ y * y = (4 - (m00 m + m11 m) * (m00 m + m11 m)) / (4 * (m10 m * m10 m))).
Proof.
  intros Hy Hd Hc. assert (det m <> 0) as Hd' by lra. rewrite (mob_fixed m (x, y) Hy Hd'). destruct m as [A B C D]. unfold det in *. simpl in Hd, Hc |- *.
  assert (B = (A * D - 1) / C) as -> by (field_simplify_eq; lra). cpair. split.
  - intros E12. apply pair_eq_iff in E12 as [E1 E2]. assert (x = (A - D) / (2 * C)) as Ex.
    { field_simplify_eq; [|done]. apply (Rmult_eq_reg_r y); [|lra]. lra. }
    split; [done|]. assert (C * (x * x - y * y) + D * x = A * x + (A * D - 1) / C) as E by lra. clear E1 E2.
    assert (y * y = (C * (x * x) + D * x - A * x - (A * D - 1) / C) / C) as Ey.
    { apply (Rmult_eq_reg_l C); [|done]. transitivity (C * (x * x) + D * x - A * x - (A * D - 1) / C); [lra|]. field. done. }
    rewrite Ey, Ex. field. done.
  - intros [-> Ey]. apply pair_eq_iff. split.
    + transitivity (C * ((A - D) / (2 * C) * ((A - D) / (2 * C)) - y * y) + D * ((A - D) / (2 * C))); [ring|]. rewrite Ey. field. done.
    + field. done.
Qed.
Lemma eigen_lem m : det m = 1 -> (m00 m + m11 m) * (m00 m + m11 m) < 4 -> 0 < snd (eigen_q m) /\ mob m (eigen_q m) = eigen_q m.
Proof.
  intros Hd Hs. pose proof (eigen_c m Hd Hs) as Hc. assert (0 < Rabs (m10 m)) as Ha by (by apply Rabs_pos_lt).
  assert (- ((m11 m - m00 m) * (m11 m - m00 m) + 4 * m01 m * m10 m) = 4 - (m00 m + m11 m) * (m00 m + m11 m)) as E.
  { unfold det in Hd. assert (m01 m * m10 m = m00 m * m11 m - 1) as E by lra. rewrite (Rmult_assoc 4), E. ring. }
  unfold eigen_q. rewrite E. set (s := R_sqrt.sqrt _). assert (0 < s) as H by (apply sqrt_lt_R0; lra).
  assert (0 < s / (2 * Rabs (m10 m))) as Hy by (apply Rdiv_lt_0_compat; lra). split; [done|].
  apply fixed_iff; [done..|]. split; [done|].
  assert (s * s = 4 - (m00 m + m11 m) * (m00 m + m11 m)) as Es by (apply R_sqrt.sqrt_sqrt; lra). rewrite <- Es.
  assert (m10 m * m10 m = Rabs (m10 m) * Rabs (m10 m)) as -> by (rewrite <- Rabs_mult, Rabs_pos_eq; [done|nra]).
  field. lra.
Qed.
Lemma eigen_unique m (q : C_fld) : det m = 1 -> (m00 m + m11 m) * (m00 m + m11 m) < 4 -> 0 < snd q -> mob m q = q -> q = eigen_q m.
Proof.
  intros Hd Hs Hq E. pose proof (eigen_c m Hd Hs) as Hc. destruct (eigen_lem m Hd Hs) as [He Ee]. destruct q as [x y]. simpl in Hq.
  destruct (eigen_q m) as [x' y'] eqn:Eq. simpl in He. apply fixed_iff in E as [-> E2]; [|done..]. apply fixed_iff in Ee as [-> E2']; [|done..].
  f_equal. assert ((y - y') * (y + y') = 0) as H by lra. apply Rmult_integral in H as [H|H]; lra.
Qed.
(** ** constructors *)
Lemma from_Z_W0_lem Z W0 lam : 0 <= W0 -> 0 < lam ->
  b_Z (from_Z_W0 Z W0 lam) = Z /\ b_W0 (from_Z_W0 Z W0 lam) = W0 /\ wavelen (from_Z_W0 Z W0 lam) = lam /\ b_ZR (from_Z_W0 Z W0 lam) = PI * (W0 * W0) / lam.
Proof.
  intros HW Hl. pose proof PI_RGT_0. assert (value (from_Z_W0 Z W0 lam) = (Z, PI * (W0 * W0) / lam)) as E.
  { unfold from_Z_W0. cpair. apply pair_eq_iff. split; ring. }
  unfold b_Z, b_W0, b_ZR. rewrite E. split; [done|]. split; [|done]. change (wavelen (from_Z_W0 Z W0 lam)) with lam. simpl.
  replace (lam * (PI * (W0 * W0) / lam) / PI) with (W0 * W0) by (field; lra). by apply sqrt_square.
Qed.
Lemma from_Z_ZR_lem Z ZR lam : b_Z (from_Z_ZR Z ZR lam) = Z /\ b_ZR (from_Z_ZR Z ZR lam) = ZR /\ wavelen (from_Z_ZR Z ZR lam) = lam.
Proof. unfold b_Z, b_ZR, from_Z_ZR. cpair. repeat split; ring. Qed.
Lemma from_W_R_value W Rc lam : 0 < W -> 0 < lam ->
  let p := PI * (W * W) in
  value (from_W_R W Rc lam) = if Req_EM_T Rc 0 then (0, p / lam) else
    ((/ Rc) / (/ Rc * / Rc + lam / p * (lam / p)), (lam / p) / (/ Rc * / Rc + lam / p * (lam / p))).
Proof.
  intros HW Hl. cbv zeta. pose proof PI_RGT_0. assert (0 < PI * (W * W)) as Hp by (apply Rmult_lt_0_compat; [done|nra]).
  set (p := PI * (W * W)) in *. unfold from_W_R. fold p. destruct (Req_EM_T Rc 0); cbn [value].
  - cpair. apply pair_eq_iff. split; field; lra.
  - assert (0 < lam / p) as Hlp by (by apply Rdiv_lt_0_compat). assert (lam / p * (lam / p) > 0) as Hs by (by apply Rmult_lt_0_compat).
    pose proof (Rle_0_sqr (/ Rc)) as Hr. unfold Rsqr in Hr.
    assert ((cre (1 / Rc) - ci * cre lam / cre p)%F = (/ Rc, - (lam / p))) as ->.
    { cpair. apply pair_eq_iff. split; field; lra. }
    cpair. apply pair_eq_iff. split; field; repeat split; try lra.
    all: intros E; (assert (lam * lam > 0) by nra); (assert (p * p > 0) by nra).
    all: try (pose proof (sq_pos Rc ltac:(done)); nra).
Qed.
Lemma from_W_R_parts W Rc lam : 0 < W -> 0 < lam ->
  let b := from_W_R W Rc lam in
  physical b /\ C_sq (value b) / b_ZR b = PI * (W * W) / lam /\ b_Z b / C_sq (value b) = (if Req_EM_T Rc 0 then 0 else / Rc).
Proof.
  intros HW Hl. cbv zeta. pose proof PI_RGT_0. assert (0 < PI * (W * W)) as Hp by (apply Rmult_lt_0_compat; [done|nra]).
  pose proof (from_W_R_value W Rc lam HW Hl) as E. cbv zeta in E. unfold physical, b_Z, b_ZR.
  assert (wavelen (from_W_R W Rc lam) = lam) as -> by (unfold from_W_R; by destruct (Req_EM_T Rc 0)).
  rewrite E. clear E. set (p := PI * (W * W)) in *. destruct (Req_EM_T Rc 0) as [->|Hr]; unfold C_sq; simpl.
  - assert (0 < p / lam) by (by apply Rdiv_lt_0_compat). split; [done|]. split; [field; lra|]. unfold Rdiv. ring.
  - assert (0 < lam / p) as Hlp by (by apply Rdiv_lt_0_compat). assert (0 < lam / p * (lam / p)) as Hs by (by apply Rmult_lt_0_compat).
    pose proof (Rle_0_sqr (/ Rc)) as Hr'. unfold Rsqr in Hr'. replace (p / lam) with (/ (lam / p)) by (field; lra).
    set (a := / Rc) in *. set (c := lam / p) in *. assert (0 < a * a + c * c) by lra.
    split; [split; [by apply Rdiv_lt_0_compat|done]|]. split; field; lra.
Qed.
Lemma from_W_R_lem W Rc lam : 0 < W -> 0 < lam ->
  let b := from_W_R W Rc lam in
  physical b /\ b_W b = W /\ wavelen b = lam /\ (Rc <> 0 -> b_R b = Rc) /\ (Rc = 0 -> b_R_inv b = 0).
Proof.
  intros HW Hl. cbv zeta. destruct (from_W_R_parts W Rc lam HW Hl) as (Hb & E1 & E2). set (b := from_W_R W Rc lam) in *.
  assert (wavelen b = lam) as El by (unfold b, from_W_R; by destruct (Req_EM_T Rc 0)).
  pose proof PI_RGT_0. split; [done|]. split; [|split; [done|]].
  - pose proof (W_pos b Hb) as Hp. pose proof (W_sq b Hb) as Es. rewrite El in Es.
    assert (b_W b * b_W b = W * W) as Es'. { rewrite Es. transitivity (lam * (C_sq (value b) / b_ZR b) / PI); [destruct Hb as [Hb _]; field; lra|]. rewrite E1. field. lra. }
    assert ((b_W b - W) * (b_W b + W) = 0) as E by lra. apply Rmult_integral in E as [E|E]; lra.
  - unfold b_R. rewrite (inv_re b Hb), E2. destruct (Req_EM_T Rc 0) as [->|Hr]; split; try done. intros _. field. done.
Qed.
Lemma from_Z_W0_back b : physical b -> value (from_Z_W0 (b_Z b) (b_W0 b) (wavelen b)) = value b.
Proof.
  intros [H1 H2]. pose proof PI_RGT_0. unfold from_Z_W0. cbn [value].
  assert (b_W0 b * b_W0 b = wavelen b * b_ZR b / PI) as ->.
  { unfold b_W0. apply R_sqrt.sqrt_sqrt. apply Rlt_le, Rdiv_lt_0_compat; [nra|done]. }
  replace (PI * (wavelen b * b_ZR b / PI) / wavelen b) with (b_ZR b) by (field; lra).
  unfold b_Z, b_ZR. destruct (value b). cpair. apply pair_eq_iff. split; ring.
Qed.
Lemma from_W_R_back b : physical b -> value (from_W_R (b_W b) (if Req_EM_T (b_Z b) 0 then 0 else b_R b) (wavelen b)) = value b.
Proof.
  intros Hb. pose proof (W_pos b Hb) as HW. pose proof (W_sq b Hb) as Es. pose proof (inv_re b Hb) as Er. pose proof (qsq_pos b Hb) as Hq. destruct Hb as [H1 H2]. pose proof PI_RGT_0.
  pose proof (from_W_R_value (b_W b) (if Req_EM_T (b_Z b) 0 then 0 else b_R b) (wavelen b) HW H2) as E. cbv zeta in E. rewrite E. clear E. rewrite Es.
  replace (PI * (wavelen b * C_sq (value b) / (PI * b_ZR b))) with (wavelen b * C_sq (value b) / b_ZR b) by (field; lra).
  destruct (Req_EM_T (b_Z b) 0) as [Hz|Hz].
  - destruct (Req_EM_T 0 0); [|done]. unfold b_Z, b_ZR in *. destruct (value b) as [x y]. unfold C_sq in *. simpl in *. subst x. apply pair_eq_iff. split; [done|]. field. lra.
  - destruct (Req_EM_T (b_R b) 0) as [E|_].
    { exfalso. unfold b_R in E. rewrite Er in E. assert (1 / (b_Z b / C_sq (value b)) <> 0); [|done]. replace (1 / (b_Z b / C_sq (value b))) with (C_sq (value b) / b_Z b) by (field; lra).
      unfold Rdiv. apply Rmult_integral_contrapositive_currified; [lra|by apply Rinv_neq_0_compat]. }
    assert (/ b_R b = b_Z b / C_sq (value b)) as ->. { unfold b_R. rewrite Er. field. lra. }
    unfold b_Z, b_ZR in *. destruct (value b) as [x y]. unfold C_sq in *. simpl in *. apply pair_eq_iff. split; field; repeat split; lra.
Qed.
Lemma W_formula b : physical b -> b_W b * b_W b = b_W0 b * b_W0 b * (1 + b_Z b / b_ZR b * (b_Z b / b_ZR b)).
Proof.
  intros Hb. rewrite (W_sq b Hb). destruct Hb as [H1 H2]. pose proof PI_RGT_0.
  assert (b_W0 b * b_W0 b = wavelen b * b_ZR b / PI) as ->.
  { unfold b_W0. apply R_sqrt.sqrt_sqrt. apply Rlt_le, Rdiv_lt_0_compat; [nra|done]. }
  unfold C_sq, b_Z, b_ZR in *. destruct (value b) as [x y]. simpl in *. field. lra.
Qed.
Lemma divergence_lem theta Z lam : 0 < theta -> 0 < lam -> b_divergence (from_dRad_Z theta Z lam) = theta /\ b_Z (from_dRad_Z theta Z lam) = Z.
Proof.
  intros Ht Hl. pose proof PI_RGT_0. assert (0 < PI * theta) by (by apply Rmult_lt_0_compat). assert (0 < 2 * lam / (PI * theta)) as Hw by (apply Rdiv_lt_0_compat; lra).
  unfold from_dRad_Z. destruct (from_Z_W0_lem Z (2 * lam / (PI * theta)) lam ltac:(lra) Hl) as (E1 & E2 & E3 & _). split; [|done].
  unfold b_divergence. rewrite E2, E3. field. lra.
Qed.
(** ** overlap *)
Lemma overlap_k a b : physical a -> physical b -> wavelen a = wavelen b ->
  exists k, 0 < k /\ 2 * wavelen a / (b_W b * b_W a * PI) = k /\ k * k = 4 * b_ZR a * b_ZR b / (C_sq (value a) * C_sq (value b)).
Proof.
  intros Ha Hb El. pose proof (W_pos a Ha). pose proof (W_pos b Hb). pose proof (W_sq a Ha) as Ea. pose proof (W_sq b Hb) as Eb.
  pose proof (qsq_pos a Ha). pose proof (qsq_pos b Hb). destruct Ha as [Ha1 Ha2], Hb as [Hb1 Hb2]. pose proof PI_RGT_0.
  eexists. split; [|split; [done|]].
  - apply Rdiv_lt_0_compat; [lra|]. apply Rmult_lt_0_compat; [nra|done].
  - transitivity (4 * (wavelen a * wavelen a) / ((b_W b * b_W b) * (b_W a * b_W a) * (PI * PI))); [field; lra|].
    rewrite Ea, Eb, El. field. repeat split; lra.
Qed.
Definition gap2 (a b : beam) : R := (b_Z a - b_Z b) * (b_Z a - b_Z b) + (b_ZR a + b_ZR b) * (b_ZR a + b_ZR b).
Lemma gap_pos a b : physical a -> physical b -> 0 < gap2 a b.
Proof. intros [Ha _] [Hb _]. unfold gap2. pose proof (Rle_0_sqr (b_Z a - b_Z b)) as H. unfold Rsqr in H. nra. Qed.
Lemma C_sq_gap a b : C_sq (cconj (value b) - value a)%F = gap2 a b.
Proof. unfold gap2, b_Z, b_ZR. destruct (value a), (value b). unfold C_sq. cpair. ring. Qed.
Lemma C_sq_div (x y : C_fld) : y <> (0 : C_fld)%F -> C_sq (x / y)%F = C_sq x / C_sq y.
Proof.
  intros Hy. pose proof (C_sq_pos y Hy). assert (C_sq (x / y)%F * C_sq y = C_sq x) as E.
  { rewrite <- C_sq_mul. assert ((x / y * y)%F = x) as E by (field; done). by rewrite E. }
  rewrite <- E. field. lra.
Qed.
Lemma overlap_mag a b : physical a -> physical b -> wavelen a = wavelen b -> mag2 (overlap a b) = 4 * b_ZR a * b_ZR b / gap2 a b.
Proof.
  intros Ha Hb El. destruct (overlap_k a b Ha Hb El) as (k & Hk & Ek & Ekk). unfold overlap, mag2. rewrite Ek.
  pose proof (gap_pos a b Ha Hb). assert ((cconj (value b) - value a)%F <> (0 : C_fld)%F) as Hn.
  { intros E. pose proof (C_sq_gap a b) as E'. rewrite E in E'. unfold C_sq in E'. simpl in E'. lra. }
  pose proof (qsq_pos a Ha). pose proof (qsq_pos b Hb).
  rewrite !C_sq_mul, C_sq_div, C_sq_mul, C_sq_gap by done.
  replace (C_sq (cconj (value b))) with (C_sq (value b)) by (unfold C_sq, cconj, C_conj; simpl; ring).
  replace (C_sq (- ci)%F) with 1 by (unfold C_sq; cpair; ring). replace (C_sq (cre k)) with (k * k) by (unfold C_sq, cre, C_of; simpl; ring).
  rewrite Ekk. field. repeat split; lra.
Qed.
Lemma overlap_self a : physical a -> overlap a a = 1%F.
Proof.
  intros Ha. unfold overlap. pose proof (W_sq a Ha) as Ew. pose proof (qsq_pos a Ha) as Hq. rewrite Ew. destruct Ha as [Ha1 Ha2]. pose proof PI_RGT_0.
  replace (2 * wavelen a / (wavelen a * C_sq (value a) / (PI * b_ZR a) * PI)) with (2 * b_ZR a / C_sq (value a)) by (field; repeat split; lra).
  unfold b_ZR in *. destruct (value a) as [x y]. unfold C_sq in *. simpl in *. cpair. apply pair_eq_iff. split; field; repeat split; nra.
Qed.
Lemma overlap_conj a b : physical a -> physical b -> wavelen a = wavelen b -> overlap b a = cconj (overlap a b).
Proof.
  intros Ha Hb El. unfold overlap. rewrite !cconj_mul, cconj_cre.
  pose proof (gap_pos a b Ha Hb). assert ((cconj (value b) - value a)%F <> (0 : C_fld)%F) as Hn.
  { intros E. pose proof (C_sq_gap a b) as E'. rewrite E in E'. unfold C_sq in E'. simpl in E'. lra. }
  rewrite cconj_div by done. rewrite cconj_mul, cconj_sub, cconj_conj. rewrite El, (Rmult_comm (b_W a) (b_W b)).
  set (k := cre _). assert (cconj (- ci)%F = ci) as -> by (cpair; apply pair_eq_iff; split; ring).
  assert ((value b - cconj (value a))%F <> (0 : C_fld)%F) as Hn'.
  { intros E. apply Hn. apply (f_equal cconj) in E. rewrite cconj_sub, cconj_conj in E. rewrite E. exact (conj_0 C_herm). }
  clearbody k. generalize (cconj (value a)) (value b) Hn'. intros u v Huv.
  assert ((u - v)%F <> (0 : C_fld)%F) as Huv' by (intros E; apply Huv; transitivity (- (u - v))%F; [ring|rewrite E; ring]). field. done.
Qed.
Lemma overlap_le a b : physical a -> physical b -> wavelen a = wavelen b -> mag2 (overlap a b) <= 1 /\ (mag2 (overlap a b) = 1 <-> value a = value b).
Proof.
  intros Ha Hb El. rewrite overlap_mag by done. pose proof (gap_pos a b Ha Hb) as Hg.
  assert (gap2 a b - 4 * b_ZR a * b_ZR b = (b_Z a - b_Z b) * (b_Z a - b_Z b) + (b_ZR a - b_ZR b) * (b_ZR a - b_ZR b)) as E by (unfold gap2; ring).
  pose proof (Rle_0_sqr (b_Z a - b_Z b)) as H1. pose proof (Rle_0_sqr (b_ZR a - b_ZR b)) as H2. unfold Rsqr in H1, H2. split; [|split].
  - apply (Rmult_le_reg_r (gap2 a b)); [done|]. unfold Rdiv. rewrite Rmult_assoc, Rinv_l by lra. lra.
  - intros E'. assert (4 * b_ZR a * b_ZR b = gap2 a b) as E2. { apply (Rmult_eq_reg_r (/ gap2 a b)); [|apply Rinv_neq_0_compat; lra]. rewrite Rinv_r by lra. exact E'. }
    assert (b_Z a - b_Z b = 0) as Ez by (apply Rsqr_0_uniq; unfold Rsqr; lra). assert (b_ZR a - b_ZR b = 0) as Er by (apply Rsqr_0_uniq; unfold Rsqr; lra).
    unfold b_Z, b_ZR in *. destruct (value a), (value b). simpl in *. apply pair_eq_iff. split; lra.
  - intros Ev. assert (4 * b_ZR a * b_ZR b = gap2 a b) as ->; [|field; lra]. unfold gap2, b_Z, b_ZR. rewrite Ev. ring.
Qed.
Lemma mob_gap m (p q : C_fld) : 0 < snd p -> 0 < snd q -> 0 < det m ->
  let p' := mob m p in let q' := mob m q in
  snd p' * snd q' * ((fst p - fst q) * (fst p - fst q) + (snd p + snd q) * (snd p + snd q))
  = snd p * snd q * ((fst p' - fst q') * (fst p' - fst q') + (snd p' + snd q') * (snd p' + snd q')).
Proof.
  intros Hp Hq Hm. cbv zeta. pose proof (den_pos m p Hp ltac:(lra)) as Hdp. pose proof (den_pos m q Hq ltac:(lra)) as Hdq. rewrite !mob_eq by lra.
  unfold den, det in *. destruct p as [x y], q as [u v], m as [A B C D]. simpl in *. field. split; lra.
Qed.
Lemma overlap_abcd a b m : physical a -> physical b -> wavelen a = wavelen b -> 0 < det m ->
  mag2 (overlap (propagate_matrix a m) (propagate_matrix b m)) = mag2 (overlap a b).
Proof.
  intros Ha Hb El Hm. pose proof (propagate_physical a m Ha Hm) as Ha'. pose proof (propagate_physical b m Hb Hm) as Hb'.
  rewrite !overlap_mag; try done; [|by rewrite !propagate_wave, El]. pose proof (gap_pos a b Ha Hb). pose proof (gap_pos _ _ Ha' Hb').
  destruct Ha as [Ha _], Hb as [Hb _]. pose proof (mob_gap m (value a) (value b) Ha Hb Hm) as E. cbv zeta in E.
  change (b_ZR (propagate_matrix a m) * b_ZR (propagate_matrix b m) * gap2 a b = b_ZR a * b_ZR b * gap2 (propagate_matrix a m) (propagate_matrix b m)) in E.
  set (g := gap2 a b) in *. set (g' := gap2 (propagate_matrix a m) _) in *. clearbody g g'.
  assert (forall x y, x * g = y * g' -> 4 * x / g' = 4 * y / g) as Hx; [|rewrite !(Rmult_assoc 4); by apply Hx].
  intros x y Exy. apply (Rmult_eq_reg_r (g * g')); [|apply Rmult_integral_contrapositive_currified; lra].
  transitivity (4 * (x * g)); [field; lra|]. rewrite Exy. field. lra.
Qed.
(** ** sensitivity *)
Lemma sens_lem b : physical b -> mmul (sensitivity_sqrt b) (sensitivity_sqrt b) = M2 (- m00 (sensitivity b)) (- m01 (sensitivity b)) (- m10 (sensitivity b)) (- m11 (sensitivity b)).
Proof.
  intros [H1 H2]. pose proof PI_RGT_0. unfold sensitivity_sqrt. cbv zeta. unfold sensitivity. cbv zeta. cbn [m00 m01 m10 m11].
  set (r := b_ZR b) in *. set (z := - b_Z b). set (s := - (2 * PI / wavelen b) / (4 * r)).
  assert (s < 0) as Hs. { unfold s. assert (0 < 2 * PI / wavelen b / (4 * r)); [|unfold Rdiv in *; lra]. apply Rdiv_lt_0_compat; [apply Rdiv_lt_0_compat; lra|lra]. }
  replace (- s * - (s * (z * z + r * r)) - - (s * z) * - (s * z)) with ((- s * r) * (- s * r)) by ring.
  rewrite sqrt_square by nra. set (t := R_sqrt.sqrt _).
  assert (0 < - s + - (s * (z * z + r * r)) + 2 * (- s * r)) as Hp.
  { replace (- s + - (s * (z * z + r * r)) + 2 * (- s * r)) with (- s * ((1 + r) * (1 + r) + z * z)) by ring. apply Rmult_lt_0_compat; [lra|].
    pose proof (Rle_0_sqr z) as Hz. unfold Rsqr in Hz. nra. }
  assert (t * t = - s + - (s * (z * z + r * r)) + 2 * (- s * r)) as Et by (apply R_sqrt.sqrt_sqrt; lra).
  assert (0 < t) as Ht by (by apply sqrt_lt_R0). unfold mmul. cbn [m00 m01 m10 m11].
  assert (forall x y, x = y * (t * t) -> x / (t * t) = y) as Hdiv by (intros x y ->; field; lra).
  apply m2_eq; (etransitivity; [|apply Hdiv; rewrite Et; reflexivity]); field_simplify_eq; try lra; ring.
Qed.
Lemma telescope_lem L1 R : L1 <> 0 -> R <> 0 -> val (matrix_telescope L1 R 0) = M2 (- (- R)) (L1 - R * L1) 0 (/ R).
Proof.
  intros H1 H2. unfold matrix_telescope. rewrite !focus_0. simpl. unfold mmul. simpl. apply m2_eq; try (field; repeat split; done).
Qed.
