(** The lemmas behind LegProps. *)
From Coq Require Import Reals QArith Qreals Lra Lia.
From stdpp Require Import base tactics list numbers.
From Verif Require Import Fld Py Herm OptModel OptRot SigModel SigSpec SigProofs ZpkModel ZpkSpec ZpkProofs LegModel LegSpec LegProofs LegProofs2 LegProofs3 LegProofs4.
Add Field FFl6 : (f_theory C_fld).
Local Open Scope R_scope.

Lemma family_L P : legendre_family P -> forall n x, P n x = L n x.
Proof.
  intros [H0 H] n x. cut (P n x = L n x /\ P (S n) x = L (S n) x); [tauto|]. induction n as [|n [I1 I2]].
  - destruct (H0 x). unfold L. simpl. done.
  - split; [done|]. rewrite L_SS. pose proof (H n x) as E. rewrite I1, I2 in E. pose proof (pos2 n).
    apply (Rmult_eq_reg_l (INR n + 2)); [|done]. rewrite E. field. done.
Qed.
Lemma L_family : legendre_family L.
Proof. split; [done|]. intros n x. rewrite L_SS. pose proof (pos2 n). field. done. Qed.
Lemma sum_odd P k x : legendre_family P -> sum_f_R0 (fun n => (2 * INR n + 1) * P n x) k = V k x.
Proof.
  intros HP. rewrite <- series_odd. induction k as [|k IH].
  - cbn [sum_f_R0]. change (arange 0) with ([] ++ [inject_Z 1]). rewrite series_snoc, Q2R_Z, (family_L P HP). change (series []) with (@nil Q). rewrite ev_nil. simpl. ring.
  - rewrite tech5, IH, arange_S, series_snoc, arange_len, (family_L P HP), Q2R_Z, plus_IZR, mult_IZR, <- INR_IZR_INZ. ring.
Qed.
Lemma sum_ext' f g k : (forall n, f n = g n) -> sum_f_R0 f k = sum_f_R0 g k.
Proof. intros H. induction k as [|k IH]; simpl; [apply H|]. by rewrite IH, H. Qed.
Lemma sum_even P k x : legendre_family P -> sum_f_R0 (fun n => if Nat.even (k + n) then (2 * INR n + 1) * P n x else 0) k = D (S k) x.
Proof.
  intros HP. cut (sum_f_R0 (fun n => if Nat.even (k + n) then (2 * INR n + 1) * P n x else 0) k = D (S k) x /\
    sum_f_R0 (fun n => if Nat.even (S k + n) then (2 * INR n + 1) * P n x else 0) k = D k x); [tauto|].
  induction k as [|k [I1 I2]].
  - simpl. rewrite (family_L P HP). unfold D, L. simpl. lra.
  - rewrite !tech5, I2. split.
    + replace (S k + S k)%nat with (2 * S k)%nat by lia. rewrite Nat.even_mul. cbn [Nat.even orb]. rewrite (family_L P HP). pose proof (D_diff k x). rewrite S_INR. lra.
    + replace (Nat.even (S (S k) + S k)) with false.
      2:{ replace (S (S k) + S k)%nat with (S (2 * S k)) by lia. by rewrite Nat.even_succ, <- Nat.negb_even, Nat.even_mul. }
      rewrite Rplus_0_r, <- I1. apply sum_ext'. intros n. done.
Qed.

Lemma C94_papoulis_odd_lem P k w : legendre_family P ->
  derivable_pt_lim (value (optimum_poly (2 * k + 1))) w (4 * w * odd_integrand P k (2 * w ^ 2 - 1)).
Proof.
  intros HP. pose proof (opt_drv (2 * k + 1) ltac:(lia) w) as H. cbv beta in H. unfold intg in H. rewrite integrand_odd in H.
  unfold odd_integrand. rewrite sum_odd by done. replace (2 * w ^ 2 - 1) with (2 * (w * w) - 1) by ring. 
  match goal with |- derivable_pt_lim _ _ ?a => match type of H with derivable_pt_lim _ _ ?b => replace a with b; [exact H|] end end.
  pose proof (pos1 k). field. done.
Qed.
Lemma C94_papoulis_even_lem P k w : legendre_family P ->
  derivable_pt_lim (value (optimum_poly (2 * k + 2))) w (4 * w * even_integrand P k (2 * w ^ 2 - 1)).
Proof.
  intros HP. pose proof (opt_drv (2 * k + 2) ltac:(lia) w) as H. cbv beta in H. unfold intg in H. rewrite integrand_even in H.
  unfold even_integrand. rewrite sum_even by done. replace (2 * w ^ 2 - 1) with (2 * (w * w) - 1) by ring. 
  match goal with |- derivable_pt_lim _ _ ?a => match type of H with derivable_pt_lim _ _ ?b => replace a with b; [exact H|] end end.
  pose proof (pos1 k). pose proof (pos2 k). field. done.
Qed.
Lemma C94_shape_lem N : length (optimum_poly N) = (2 * N + 1)%nat /\ (N <> O -> head (optimum_poly N) <> Some 0%Z) /\
  forall i, Nat.odd i = true -> nth i (rev (optimum_poly N)) 0%Z = 0%Z.
Proof.
  split; [apply opt_len|]. split.
  - intros HN. rewrite opt_inc by done. destruct (inc_lead N HN) as [E1 E2]. intros E. apply E2.
    assert (exists l z, inc N = l ++ [z]) as (l & z & El).
    { destruct (inc N) as [|z l _] using rev_ind; [done|]. by exists l, z. }
    rewrite El in *. rewrite rev_app_distr in E. simpl in E. rewrite app_length in E1. cbn [length] in E1.
    replace (2 * N)%nat with (length l) by lia. rewrite nth_middle. by injection E.
  - intros i Hi. destruct (decide (N = O)) as [->|HN]; [destruct i as [|[|i]]; done|]. rewrite opt_inc, rev_involutive by done.
    apply (inc_par N HN). by rewrite <- Nat.negb_odd, Hi.
Qed.
Lemma C94_edge_lem N : value (optimum_poly N) 0 = 0 /\ (N <> O -> value (optimum_poly N) 1 = 1).
Proof. split; [apply opt_0|apply opt_1]. Qed.
(** _roots finds the roots of a polynomial that has the value 1 + L(w) at i w *)
Lemma given_roots roots N : finds_roots roots N -> let c := negate_back (set_last (optimum_poly N)) in roots_of c (roots c).
Proof.
  intros H c. apply H. intros w. destruct (decide (N = O)) as [->|HN].
  - unfold c, value, cvalue. simpl. apply ceq; simpl; ring.
  - unfold c. fold (ap N). by rewrite ap_inc, cvalue_rev, apinc_ev.
Qed.
Lemma C94_response_lem roots N : finds_roots roots N -> let h := legendreap roots N in
  (forall w, response h w = / (1 + value (optimum_poly N) w)) /\ (N <> O -> response h 1 = / 2) /\
  (forall w w', 0 <= w -> w <= w' -> response h w' <= response h w).
Proof.
  intros Hl%given_roots h. pose proof (response_eq roots N Hl) as H. fold h in H. split; [done|]. split.
  - intros HN. rewrite H, opt_1 by done. done.
  - intros w w' H1 H2. rewrite !H. pose proof (opt_pos N w). pose proof (opt_mono N w w' H1 H2). apply Rinv_le_contravar; lra.
Qed.
Lemma C94_poles_lem roots N : finds_roots roots N -> let h := legendreap roots N in
  good h /\ t_z h = [] /\ length (t_p h) = N /\ transfer h 0%F = 1%F.
Proof.
  intros Hl%given_roots h. destruct (good_dc roots N Hl) as [H1 H2]. split; [done|]. split; [done|]. split; [by apply poles_count|done].
Qed.

(** the filter of order 2: s^4 + 1 = (s^2 - sqrt 2 s + 1)(s^2 + sqrt 2 s + 1) *)
Definition h2 : R := R_sqrt.sqrt 2 / 2.
Definition roots2 : list C_fld := [cx h2 h2; cx h2 (- h2); cx (- h2) h2; cx (- h2) (- h2)].
Lemma ap2 : negate_back (set_last (optimum_poly 2)) = [1; 0; 0; 0; 1]%Z. Proof. vm_compute. done. Qed.
Lemma h2_sq : h2 * h2 = / 2. Proof. unfold h2. pose proof (sqrt_def 2 ltac:(lra)). lra. Qed.
Lemma roots2_ok : roots_of (negate_back (set_last (optimum_poly 2))) roots2.
Proof.
  rewrite ap2. exists 1%F. intros s. pose proof h2_sq as E. assert (2 * (h2 * h2) = 1) as E2 by lra.
  change (cvalue [1; 0; 0; 0; 1]%Z s) with (((((0 * s + cre 1) * s + cre 0) * s + cre 0) * s + cre 0) * s + cre 1)%F.
  assert (forall s : C_fld, (s - cx h2 h2) * (s - cx h2 (- h2)) = s * s - cre (2 * h2) * s + cre 1)%F as F1.
  { intros [x y]. rewrite <- E2. apply ceq; simpl; ring. }
  assert (forall (s : C_fld), (s - cx (- h2) h2) * (s - cx (- h2) (- h2)) = s * s + cre (2 * h2) * s + cre 1)%F as F2.
  { intros [x y]. rewrite <- E2. apply ceq; simpl; ring. }
  unfold roots2. rewrite !fmap_cons. cbn [product foldr fmap list_fmap].
  transitivity ((s - cx h2 h2) * (s - cx h2 (- h2)) * ((s - cx (- h2) h2) * (s - cx (- h2) (- h2))))%F; [|ring].
  rewrite F1, F2. assert (cre (2 * h2) * cre (2 * h2) = cre 1 + cre 1)%F as E3.
  { rewrite <- cre_mul, <- cre_add. f_equal. lra. }
  change (cre 0) with (0 : C_fld)%F. change (cre 1) with (1 : C_fld)%F in *.
  transitivity (s * s * (s * s) + s * s * (1 + 1) - (cre (2 * h2) * cre (2 * h2)) * (s * s) + 1)%F; [rewrite E3; ring|ring].
Qed.

Lemma cvalue_F c s : cvalue c s = evF (cl (rev c)) s.
Proof. rewrite <- evC_F, <- cvalue_rev. by rewrite rev_involutive. Qed.
Lemma axis_inf (E : list C_fld) : exists x : C_fld, (exists w, x = (ci * cre w)%F) /\ x ∉ E.
Proof.
  destruct (inf_R ((fun z : C_fld => z.2) <$> E)) as [w Hw]. exists (ci * cre w)%F. split; [by exists w|]. intros H. apply Hw.
  apply elem_of_list_fmap. exists (ci * cre w)%F. split; [simpl; ring|done].
Qed.
Lemma axis_same (c c' : list Z) : (forall w, cvalue c (ci * cre w)%F = cvalue c' (ci * cre w)%F) -> forall s, cvalue c s = cvalue c' s.
Proof.
  intros H s. set (p := fadd C_fld (cl (rev c)) (fscale C_fld (- (1))%F (cl (rev c')))).
  assert (Forall (fun x => x = 0%F) p) as Hz.
  { apply (vanish_on C_fld _ axis_inf (length p) p []); [done|]. intros x [w ->] _. unfold p. rewrite evF_add, evF_scale, <- !cvalue_F, H. ring. }
  apply (evF_zero C_fld p s) in Hz. unfold p in Hz. rewrite evF_add, evF_scale, <- !cvalue_F in Hz.
  transitivity (cvalue c s + - (1) * cvalue c' s + cvalue c' s)%F; [ring|]. rewrite Hz. ring.
Qed.
Lemma finds2 : finds_roots (fun _ => roots2) 2.
Proof.
  intros c H. destruct roots2_ok as [k Hk]. exists k. intros s. rewrite <- Hk. revert s. apply axis_same. intros w. rewrite H. symmetry.
  fold (ap 2). by rewrite ap_inc, cvalue_rev, apinc_ev.
Qed.
