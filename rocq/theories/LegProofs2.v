(** Proofs for LegModel: a polynomial that vanishes off a finite set is zero; the coefficients of the
    optimum polynomials are integers. *)
From Coq Require Import Reals QArith Qreals Lra Lia.
From stdpp Require Import base tactics list numbers.
From Verif Require Import Fld Py Herm OptModel SigModel ZpkModel LegModel LegProofs.

(** ** polynomials over a field *)
Section field.
  Context (K : fld).
  Add Field FFl : (f_theory K).
  Local Open Scope fld_scope.
  Definition evF (p : list K) (x : K) : K := foldr (fun c acc => c + x * acc) 0 p.
  Lemma evF_cons c p x : evF (c :: p) x = c + x * evF p x. Proof. done. Qed.
  Fixpoint quo (a : K) (q : list K) : list K :=
    match q with [] => [] | b :: q' => evF (b :: q') a :: quo a q' end.
  Lemma quo_len a q : length (quo a q) = length q. Proof. induction q; simpl; congruence. Qed.
  Lemma quo_eq a x q : forall c, evF (c :: q) x - evF (c :: q) a = (x - a) * evF (quo a q) x.
  Proof.
    induction q as [|b q IH]; intros c; [simpl; ring|].
    rewrite (evF_cons c), (evF_cons c). cbn [quo]. rewrite (evF_cons (evF (b :: q) a)).
    transitivity ((x - a) * evF (b :: q) a + x * (evF (b :: q) x - evF (b :: q) a)); [ring|]. rewrite (IH b). ring.
  Qed.
  Lemma evF_zero p x : Forall (fun c => c = 0) p -> evF p x = 0.
  Proof. induction 1 as [|c p -> H IH]; [done|]. rewrite evF_cons, IH. ring. Qed.
  Lemma quo_zero a q : Forall (fun c => c = 0) (quo a q) -> Forall (fun c => c = 0) q.
  Proof.
    induction q as [|b q IH]; [done|]. cbn [quo]. intros [H1 H2]%Forall_cons. specialize (IH H2). constructor; [|done].
    rewrite evF_cons, (evF_zero q a IH) in H1. rewrite <- H1. ring.
  Qed.
  (** enough that it vanishes on an infinite set but for a finite one *)
  Lemma vanish_on (A : K -> Prop) (infA : forall E : list K, exists x, A x /\ x ∉ E) n : forall (p E : list K), (length p <= n)%nat ->
    (forall x, A x -> x ∉ E -> evF p x = 0) -> Forall (fun c => c = 0) p.
  Proof.
    induction n as [|n IH]; intros [|c q] E Hn H; [done|simpl in Hn; lia|done|].
    destruct (infA E) as [a [Aa Ha]].
    assert (Forall (fun c => c = 0) q) as Hq.
    { apply (quo_zero a). apply (IH _ (a :: E)); [rewrite quo_len; simpl in Hn; lia|].
      intros x Ax [Hxa HxE]%not_elem_of_cons. pose proof (quo_eq a x q c) as Eq.
      rewrite (H x Ax HxE), (H a Aa Ha) in Eq.
      destruct (fmul_integral (x - a) (evF (quo a q) x)) as [E0|E0]; [rewrite <- Eq; ring| |done].
      exfalso. apply Hxa. transitivity (x - a + a); [ring|]. rewrite E0. ring. }
    constructor; [|done]. pose proof (H a Aa Ha) as E0. rewrite evF_cons, (evF_zero q a Hq) in E0. rewrite <- E0. ring.
  Qed.
  Lemma vanish (inf : forall E : list K, exists x, x ∉ E) n (p E : list K) : (length p <= n)%nat -> (forall x, x ∉ E -> evF p x = 0) -> Forall (fun c => c = 0) p.
  Proof. intros Hn H. apply (vanish_on (fun _ => True)) with (n := n) (E := E); [|done|auto]. intros E'. destruct (inf E') as [x Hx]. by exists x. Qed.
End field.
Arguments evF {K} _ _. Arguments quo {K} _ _.

Local Open Scope R_scope.
Lemma inf_R (E : list R) : exists x, x ∉ E.
Proof.
  cut (exists x : R, forall y, y ∈ E -> y < x). { intros [x H]. exists x. intros Hx%H. lra. }
  induction E as [|a E [x H]]; [exists 0; intros y Hy; by apply elem_of_nil in Hy|].
  exists (Rmax x (a + 1)). intros y [->|Hy]%elem_of_cons; [pose proof (Rmax_r x (a + 1)); lra|].
  pose proof (H y Hy). pose proof (Rmax_l x (a + 1)). lra.
Qed.
Lemma evR_F (p : poly) (x : R) : evR p x = (evF (Q2R <$> p : list R_fld) (x : R_fld) : R).
Proof. induction p as [|c p IH]; [done|]. rewrite ev_cons, IH. done. Qed.
Lemma vanish_R (p : poly) (E : list R) : (forall x, x ∉ E -> evR p x = 0) -> Forall (fun c => (c == 0)%Q) p.
Proof.
  intros H. assert (Forall (fun c : R_fld => c = 0%F) (Q2R <$> p : list R_fld)) as H'.
  { apply (vanish R_fld inf_R (length (Q2R <$> p : list R_fld)) _ (E : list R_fld)); [done|]. intros x Hx. change (x ∉ E) in Hx. rewrite <- evR_F. by apply H. }
  clear H. induction p as [|c p IH]; [done|]. rewrite fmap_cons in H'. apply Forall_cons in H' as [H1 H2]. constructor; [|auto].
  apply eqR_Qeq. rewrite Q2R_0. exact H1.
Qed.
Definition coef (p : poly) (i : nat) : Q := nth i p 0%Q.
Lemma coef_add p : forall q i, (coef (padd p q) i == coef p i + coef q i)%Q.
Proof.
  unfold coef. induction p as [|a p IH]; intros [|b q] [|i]; cbn [padd nth]; try (destruct i; cbn [nth]); try (rewrite IH; reflexivity); cbn [nth]; try ring.
Qed.
Lemma coef_scale c p : forall i, (coef (pscale c p) i == c * coef p i)%Q.
Proof. unfold coef, pscale. induction p as [|a p IH]; intros [|i]; cbn [fmap list_fmap nth]; try ring. apply IH. Qed.
Lemma coef_zero p i : Forall (fun c => (c == 0)%Q) p -> (coef p i == 0)%Q.
Proof. unfold coef. intros H. revert i. induction H as [|c p H0 H IH]; intros [|i]; cbn [nth]; [reflexivity|reflexivity|done|apply IH]. Qed.
Lemma unique_R (p q : poly) (E : list R) : (forall x, x ∉ E -> evR p x = evR q x) -> forall i, (coef p i == coef q i)%Q.
Proof.
  intros H i. pose proof (coef_zero (padd p (pscale (-1)%Q q)) i) as Hz.
  rewrite coef_add, coef_scale in Hz. 
  assert (coef p i + -1 * coef q i == 0)%Q as Eq.
  { apply Hz. apply (vanish_R _ E). intros x Hx. rewrite ev_add, ev_scale, (H x Hx). replace (Q2R (-1)) with (-1) by (unfold Q2R; simpl; lra). ring. }
  transitivity (coef p i + -1 * coef q i + coef q i)%Q; [ring|]. rewrite Eq. ring.
Qed.

(** ** integer coefficients *)
Definition isint (q : Q) : Prop := exists z : Z, (q == inject_Z z)%Q.
Definition ints (p : poly) : Prop := Forall isint p.
Lemma isint_add a b : isint a -> isint b -> isint (a + b)%Q.
Proof. intros [x Hx] [y Hy]. exists (x + y)%Z. rewrite Hx, Hy, inject_Z_plus. reflexivity. Qed.
Lemma isint_mul a b : isint a -> isint b -> isint (a * b)%Q.
Proof. intros [x Hx] [y Hy]. exists (x * y)%Z. rewrite Hx, Hy, inject_Z_mult. reflexivity. Qed.
Lemma isint_Z z : isint (inject_Z z). Proof. by exists z. Qed.
Lemma ints_add p : forall q, ints p -> ints q -> ints (padd p q).
Proof.
  induction p as [|a p IH]; intros [|b q] Hp Hq; cbn [padd]; try done.
  apply Forall_cons in Hp as [? ?]. apply Forall_cons in Hq as [? ?]. constructor; [by apply isint_add|by apply IH].
Qed.
Lemma ints_scale c p : isint c -> ints p -> ints (pscale c p).
Proof. intros Hc Hp. apply Forall_fmap. eapply Forall_impl; [exact Hp|]. intros a Ha. by apply isint_mul. Qed.
Lemma ints_mul p : forall q, ints p -> ints q -> ints (pmul p q).
Proof.
  induction p as [|a p IH]; intros q Hp Hq; [done|]. apply Forall_cons in Hp as [? ?]. cbn [pmul].
  apply ints_add; [by apply ints_scale|]. constructor; [exact (isint_Z 0)|by apply IH].
Qed.
Lemma ints_comp p q : ints p -> ints q -> ints (pcomp p q).
Proof.
  intros Hp Hq. induction p as [|c p IH]; [done|]. apply Forall_cons in Hp as [? ?].
  change (pcomp (c :: p) q) with (padd [c] (pmul (pcomp p q) q)). apply ints_add; [by constructor|]. apply ints_mul; auto.
Qed.
Lemma ints_coef p i : ints p -> isint (coef p i).
Proof. unfold coef. intros H. revert i. induction H as [|c p H0 H IH]; intros [|i]; cbn [nth]; [exact (isint_Z 0)|exact (isint_Z 0)|done|apply IH]. Qed.

(** ** sums with integer coefficients *)
Fixpoint sm (M : nat) (g : nat -> Z) (y : R) : R := match M with O => 0 | S m => sm m g y + IZR (g m) * y ^ m end.
Definition plist (M : nat) (g : nat -> Z) : poly := (fun s => inject_Z (g s)) <$> seq 0 M.
Lemma ev_app p q x : evR (p ++ q) x = evR p x + x ^ length p * evR q x.
Proof. induction p as [|c p IH]; [simpl app; simpl length; rewrite ev_nil, pow_O; ring|]. rewrite <- app_comm_cons, !ev_cons, IH. simpl. ring. Qed.
Lemma sm_ev M g y : sm M g y = evR (plist M g) y.
Proof.
  induction M as [|M IH]; [done|]. unfold plist. rewrite seq_S, fmap_app, ev_app, fmap_length, seq_length.
  change (evR ((fun s => inject_Z (g s)) <$> [(0 + M)%nat]) y) with (Q2R (inject_Z (g M)) + y * 0). rewrite Q2R_Z. cbn [sm]. unfold plist in IH. rewrite IH. ring.
Qed.
Lemma plist_ints M g : ints (plist M g). Proof. apply Forall_fmap, Forall_true. intros s. apply isint_Z. Qed.
Lemma sm_ext M g h y : (forall s, g s = h s) -> sm M g y = sm M h y.
Proof. intros H. induction M as [|M IH]; cbn [sm]; [done|]. by rewrite IH, H. Qed.
Lemma sm_lin M a b g h y : sm M (fun s => a * g s + b * h s)%Z y = IZR a * sm M g y + IZR b * sm M h y.
Proof. induction M as [|M IH]; cbn [sm]; [ring|]. rewrite IH, plus_IZR, !mult_IZR. ring. Qed.
Definition shift (g : nat -> Z) (s : nat) : Z := match s with O => 0%Z | S t => g t end.
Lemma sm_shift M g y : sm (S M) (shift g) y = y * sm M g y.
Proof. induction M as [|M IH]; [simpl; ring|]. change (sm (S (S M)) (shift g) y) with (sm (S M) (shift g) y + IZR (g M) * y ^ S M). rewrite IH. simpl. ring. Qed.
Lemma sm_more M d g y : (forall s, (M <= s)%nat -> g s = 0%Z) -> sm (d + M) g y = sm M g y.
Proof. intros H. induction d as [|d IH]; [done|]. change (sm (S d + M) g y) with (sm (d + M) g y + IZR (g (d + M)%nat) * y ^ (d + M)). rewrite IH, H by lia. ring. Qed.
Lemma sm_drv M g : drv (sm (S M) g) (sm M (fun s => Z.of_nat (S s) * g (S s))%Z).
Proof.
  induction M as [|M IH].
  - eapply drv_ext; [exact (drv_const (IZR (g O)))| |]; intros x; simpl; ring.
  - eapply drv_ext; [apply (drv_add _ _ _ _ IH (drv_scal (IZR (g (S M))) _ _ (pow_drv M)))| |]; intros x.
    + done.
    + cbn [sm]. rewrite mult_IZR, <- INR_IZR_INZ. ring.
Qed.

(** ** binomial coefficients *)
Fixpoint bin (n s : nat) : Z := match s with O => 1 | S t => match n with O => 0 | S m => bin m t + bin m (S t) end end%Z.
Lemma bin_S n s : bin (S n) (S s) = (bin n s + bin n (S s))%Z. Proof. done. Qed.
Lemma bin_0 n : bin n 0 = 1%Z. Proof. by destruct n. Qed.
Local Open Scope Z_scope.
Lemma bin_next n : forall s, Z.of_nat (S s) * bin n (S s) = (Z.of_nat n - Z.of_nat s) * bin n s.
Proof.
  induction n as [|n IH]; intros s; [destruct s; simpl; lia|].
  rewrite bin_S. destruct s as [|t].
  - pose proof (IH O) as E. rewrite !bin_0 in *. lia.
  - rewrite bin_S. pose proof (IH t). pose proof (IH (S t)). nia.
Qed.
Lemma bin_up n s : (Z.of_nat n + 1 - Z.of_nat s) * bin (S n) s = (Z.of_nat n + 1) * bin n s.
Proof. destruct s as [|t]; [rewrite !bin_0; lia|]. rewrite bin_S. pose proof (bin_next n t). nia. Qed.
Lemma bin_absorb n s : Z.of_nat (S s) * bin (S n) (S s) = (Z.of_nat n + 1) * bin n s.
Proof. rewrite bin_S. pose proof (bin_next n s). nia. Qed.
Lemma bin_out n : forall s, (n < s)%nat -> bin n s = 0.
Proof. induction n as [|n IH]; intros [|s] H; try lia; [done|]. rewrite bin_S, !IH by lia. done. Qed.
Definition bb (n s : nat) : Z := bin n s * bin (n + s) s.
Lemma bb_0 n : bb n 0 = 1. Proof. unfold bb. by rewrite !bin_0. Qed.
Lemma bb_n n s : (Z.of_nat n + 1 - Z.of_nat s) * bb (S n) s = (Z.of_nat n + 1 + Z.of_nat s) * bb n s.
Proof.
  unfold bb. pose proof (bin_up n s) as H1. pose proof (bin_up (n + s) s) as H2. simpl (S n + s)%nat.
  rewrite Nat2Z.inj_add in H2. replace (Z.of_nat n + Z.of_nat s + 1 - Z.of_nat s) with (Z.of_nat n + 1) in H2 by lia.
  apply (Z.mul_reg_l _ _ (Z.of_nat n + 1)); [lia|].
  transitivity (((Z.of_nat n + 1 - Z.of_nat s) * bin (S n) s) * ((Z.of_nat n + 1) * bin (S (n + s)) s)); [ring|]. rewrite H1, H2. ring.
Qed.
Lemma bb_s n s : Z.of_nat (S s) * Z.of_nat (S s) * bb n (S s) = (Z.of_nat n + Z.of_nat s + 1) * (Z.of_nat n - Z.of_nat s) * bb n s.
Proof.
  unfold bb. pose proof (bin_next n s) as H1. pose proof (bin_absorb (n + s) s) as H2. replace (n + S s)%nat with (S (n + s)) by lia.
  rewrite Nat2Z.inj_add in H2.
  transitivity ((Z.of_nat (S s) * bin n (S s)) * (Z.of_nat (S s) * bin (S (n + s)) (S s))); [ring|]. rewrite H1, H2. ring.
Qed.
Lemma bb_out n s : (n < s)%nat -> bb n s = 0. Proof. intros. unfold bb. by rewrite bin_out. Qed.
Definition sg (k : nat) : Z := if Nat.even k then 1 else -1.
Lemma sg_S k : sg (S k) = - sg k. Proof. unfold sg. rewrite Nat.even_succ, <- Nat.negb_even. by destruct (Nat.even k). Qed.

(** the shifted Legendre polynomials *)
Definition cc (n s : nat) : Z := sg (n + s) * bb n s.
Lemma bonnet_b n s : (Z.of_nat n + 2) * bb (S (S n)) (S s) =
  (2 * Z.of_nat n + 3) * (2 * bb (S n) s + bb (S n) (S s)) - (Z.of_nat n + 1) * bb n (S s).
Proof.
  pose proof (bb_s (S (S n)) s) as H1. pose proof (bb_s (S n) s) as H2. pose proof (bb_s n s) as H3.
  pose proof (bb_n n s) as H4. pose proof (bb_n (S n) s) as H5.
  set (u := bb (S n) s) in *. set (S2 := Z.of_nat (S s) * Z.of_nat (S s)) in *.
  apply (Z.mul_reg_l _ _ S2); [unfold S2; lia|].
  transitivity ((Z.of_nat n + 2) * (S2 * bb (S (S n)) (S s))); [ring|]. rewrite H1.
  transitivity ((2 * Z.of_nat n + 3) * (2 * S2 * u + S2 * bb (S n) (S s)) - (Z.of_nat n + 1) * (S2 * bb n (S s))); [|ring].
  rewrite H2, H3. unfold S2. rewrite !Nat2Z.inj_succ in *.
  set (N := Z.of_nat n) in *. set (t := Z.of_nat s) in *. unfold Z.succ in *.
  replace ((N + 2) * ((N + 1 + 1 + t + 1) * (N + 1 + 1 - t) * bb (S (S n)) s)) with ((N + 2) * (N + 1 + 1 + t + 1) * ((N + 1 + 1 - t) * bb (S (S n)) s)) by ring.
  rewrite H5.
  replace ((N + 1) * ((N + t + 1) * (N - t) * bb n s)) with ((N + 1) * (N - t) * ((N + 1 + t) * bb n s)) by ring. rewrite <- H4. ring.
Qed.
Lemma bonnet_c n s : (Z.of_nat n + 2) * cc (S (S n)) s =
  (2 * Z.of_nat n + 3) * (2 * shift (cc (S n)) s - cc (S n) s) - (Z.of_nat n + 1) * cc n s.
Proof.
  unfold cc. destruct s as [|s]; cbn [shift].
  - rewrite !bb_0, !Nat.add_0_r, !sg_S. ring.
  - pose proof (bonnet_b n s) as H. replace (n + S s)%nat with (S (n + s)) by lia. replace (S (S n) + S s)%nat with (S (S (S (n + s)))) by lia.
    replace (S n + S s)%nat with (S (S (n + s))) by lia. simpl (S n + s)%nat. rewrite !sg_S.
    transitivity (- sg (n + s) * ((Z.of_nat n + 2) * bb (S (S n)) (S s))); [ring|]. rewrite H. ring.
Qed.
Local Open Scope R_scope.
Definition F n y := sm (S n) (cc n) y.
Lemma F_more n d y : sm (d + S n) (cc n) y = F n y.
Proof. apply sm_more. intros s Hs. unfold cc. rewrite bb_out by lia. lia. Qed.
Lemma F_SS n y : (INR n + 2) * F (S (S n)) y = (2 * INR n + 3) * (2 * y - 1) * F (S n) y - (INR n + 1) * F n y.
Proof.
  pose proof (sm_ext (3 + n) _ _ y (bonnet_c n)) as E.
  assert (sm (3 + n) (fun s => (Z.of_nat n + 2) * cc (S (S n)) s)%Z y = (INR n + 2) * F (S (S n)) y) as E1.
  { transitivity (sm (3 + n) (fun s => (Z.of_nat n + 2) * cc (S (S n)) s + 0 * cc (S (S n)) s)%Z y); [apply sm_ext; intros s; ring|].
    rewrite sm_lin, plus_IZR, <- INR_IZR_INZ. change (sm (3 + n) (cc (S (S n))) y) with (F (S (S n)) y). ring. }
  rewrite <- E1, E.
  transitivity (sm (3 + n) (fun s => 1 * (2 * (2 * Z.of_nat n + 3) * shift (cc (S n)) s + (- (2 * Z.of_nat n + 3)) * cc (S n) s) + (- (Z.of_nat n + 1)) * cc n s)%Z y);
    [apply sm_ext; intros s; ring|].
  rewrite sm_lin, sm_lin. change (3 + n)%nat with (S (S (S n))) at 1. rewrite sm_shift. 
  change (sm (S (S n)) (cc (S n)) y) with (F (S n) y).
  change (sm (3 + n) (cc (S n)) y) with (sm (1 + S (S n)) (cc (S n)) y). rewrite F_more.
  change (sm (3 + n) (cc n) y) with (sm (2 + S n) (cc n) y). rewrite F_more.
  rewrite !opp_IZR, !mult_IZR, !plus_IZR, mult_IZR, <- INR_IZR_INZ. ring.
Qed.
Lemma F_L n y : F n y = L n (2 * y - 1).
Proof.
  cut (F n y = L n (2 * y - 1) /\ F (S n) y = L (S n) (2 * y - 1)); [tauto|]. induction n as [|n [I1 I2]].
  - unfold F, L. cbn [sm]. change (cc 0 0) with 1%Z. change (cc 1 0) with (-1)%Z. change (cc 1 1) with 2%Z. simpl. split; ring.
  - split; [done|]. rewrite L_SS, <- I1, <- I2. pose proof (F_SS n y). pose proof (pos2 n).
    apply (Rmult_eq_reg_l (INR n + 2)); [|done]. rewrite H. field. done.
Qed.

(** the quotient (P_k - P_(k+1)) / (2 (1 - y)) *)
Definition ww (k s : nat) : Z := (sg (k + s) * (bin k s * bin (S k + s) s))%Z.
Lemma ww_c k s : (2 * (ww k s - shift (ww k) s) = cc k s - cc (S k) s)%Z.
Proof.
  unfold ww, cc. destruct s as [|s]; cbn [shift].
  - rewrite !bb_0, !bin_0, !Nat.add_0_r, sg_S. lia.
  - replace (k + S s)%nat with (S (k + s)) by lia. replace (S k + S s)%nat with (S (S (k + s))) by lia. simpl (S k + s)%nat. rewrite !sg_S.
    set (d1 := (bin k (S s) * bin (S (S (k + s))) (S s))%Z). set (d0 := (bin k s * bin (S (k + s)) s)%Z).
    cut (2 * (d1 + d0) = bb k (S s) + bb (S k) (S s))%Z. { intros E. transitivity (- sg (k + s) * (2 * (d1 + d0)))%Z; [ring|]. rewrite E. ring. }
    assert ((Z.of_nat k + 1) * d1 = (Z.of_nat k + 1 + Z.of_nat (S s)) * bb k (S s))%Z as E1.
    { pose proof (bin_up (k + S s) (S s)) as H. rewrite Nat2Z.inj_add in H. unfold d1, bb. replace (S (S (k + s))) with (S (k + S s)) by lia.
      replace (Z.of_nat k + Z.of_nat (S s) + 1 - Z.of_nat (S s))%Z with (Z.of_nat k + 1)%Z in H by lia.
      transitivity (bin k (S s) * ((Z.of_nat k + 1) * bin (S (k + S s)) (S s)))%Z; [ring|]. rewrite H. ring. }
    assert ((Z.of_nat k + 1) * d0 = (Z.of_nat k + 1 + Z.of_nat s) * bb k s)%Z as E0.
    { pose proof (bin_up (k + s) s) as H. rewrite Nat2Z.inj_add in H. unfold d0, bb.
      replace (Z.of_nat k + Z.of_nat s + 1 - Z.of_nat s)%Z with (Z.of_nat k + 1)%Z in H by lia.
      transitivity (bin k s * ((Z.of_nat k + 1) * bin (S (k + s)) s))%Z; [ring|]. rewrite H. ring. }
    pose proof (bb_s k s) as H1. pose proof (bb_s (S k) s) as H2. pose proof (bb_n k s) as H3.
    set (S2 := (Z.of_nat (S s) * Z.of_nat (S s))%Z) in *.
    apply (Z.mul_reg_l _ _ (S2 * (Z.of_nat k + 1))); [unfold S2; lia|].
    transitivity (2 * (S2 * ((Z.of_nat k + 1) * d1) + S2 * ((Z.of_nat k + 1) * d0)))%Z; [ring|]. rewrite E1, E0.
    transitivity (2 * ((Z.of_nat k + 1 + Z.of_nat (S s)) * (S2 * bb k (S s)) + S2 * ((Z.of_nat k + 1 + Z.of_nat s) * bb k s)))%Z; [ring|].
    transitivity ((Z.of_nat k + 1) * (S2 * bb k (S s) + S2 * bb (S k) (S s)))%Z; [|ring].
    rewrite H1, H2. unfold S2. rewrite !Nat2Z.inj_succ. unfold Z.succ. set (N := Z.of_nat k) in *. set (t := Z.of_nat s) in *.
    replace ((N + 1 + t + 1) * (N + 1 - t) * bb (S k) s)%Z with ((N + 1 + t + 1) * ((N + 1 - t) * bb (S k) s))%Z by ring.
    rewrite H3. ring.
Qed.
Definition W k y := sm (S k) (ww k) y.
Lemma W_F k y : 2 * (1 - y) * W k y = F k y - F (S k) y.
Proof.
  pose proof (sm_ext (2 + k) _ _ y (ww_c k)) as E.
  assert (sm (2 + k) (ww k) y = W k y) as Em.
  { change (sm (2 + k) (ww k) y) with (sm (1 + S k) (ww k) y). apply sm_more. intros s Hs. unfold ww. rewrite bin_out by lia. lia. }
  transitivity (sm (2 + k) (fun s => 2 * (ww k s - shift (ww k) s))%Z y).
  - transitivity (sm (2 + k) (fun s => 2 * ww k s + (-2) * shift (ww k) s)%Z y); [|apply sm_ext; intros s; ring].
    rewrite sm_lin, Em. change (2 + k)%nat with (S (S k)). rewrite sm_shift. fold (W k y). ring.
  - rewrite E. transitivity (sm (2 + k) (fun s => 1 * cc k s + (-1) * cc (S k) s)%Z y); [apply sm_ext; intros s; ring|].
    rewrite sm_lin. change (sm (2 + k) (cc (S k)) y) with (F (S k) y). change (sm (2 + k) (cc k) y) with (sm (1 + S k) (cc k) y). rewrite F_more. ring.
Qed.
(** the derivative over m (m + 1) *)
Definition gg (k s : nat) : Z := (sg (S k + S s) * (bin k s * bin (S k + S s) (S s) - bin (S k) (S s) * bin (S k + S s) s))%Z.
Lemma gg_c k s : ((Z.of_nat k + 1) * (Z.of_nat k + 2) * gg k s = Z.of_nat (S s) * cc (S k) (S s))%Z.
Proof.
  unfold gg, cc, bb. pose proof (bin_absorb k s) as H1. pose proof (bin_next (S k + S s) s) as H2.
  rewrite Nat2Z.inj_add in H2. set (X := bin (S k + S s) (S s)) in *. set (Y := bin (S k + S s) s) in *.
  replace (Z.of_nat (S k) + Z.of_nat (S s) - Z.of_nat s)%Z with (Z.of_nat k + 2)%Z in H2 by lia.
  transitivity (sg (S k + S s) * (((Z.of_nat k + 1) * bin k s) * (Z.of_nat k + 2) * X - (Z.of_nat k + 1) * bin (S k) (S s) * ((Z.of_nat k + 2) * Y)))%Z; [ring|].
  rewrite <- H1, <- H2. ring.
Qed.
Definition G k y := sm (S k) (gg k) y.
Lemma G_D k y : 2 * D (S k) (2 * y - 1) = (INR k + 1) * (INR k + 2) * G k y.
Proof.
  assert (drv (F (S k)) (fun y => (INR k + 1) * (INR k + 2) * G k y)) as H1.
  { eapply drv_ext; [apply (sm_drv (S k) (cc (S k)))|done|]. intros z.
    rewrite <- (sm_ext (S k) _ _ z (gg_c k)).
    transitivity (sm (S k) (fun s => (Z.of_nat k + 1) * (Z.of_nat k + 2) * gg k s + 0 * gg k s)%Z z); [apply sm_ext; intros s; ring|].
    rewrite sm_lin, mult_IZR, !plus_IZR, <- INR_IZR_INZ. unfold G. ring. }
  assert (drv (F (S k)) (fun y => D (S k) (2 * y - 1) * 2)) as H2.
  { assert (drv (fun y => 2 * y - 1) (fun _ => 2)) as Hl.
    { eapply drv_ext; [apply (drv_add _ _ _ _ (drv_scal 2 _ _ drv_id) (drv_const (-1)))| |]; intros z; simpl; ring. }
    eapply drv_ext; [apply (drv_comp _ _ _ _ (L_drv (S k)) Hl)| |done]. intros z. simpl. by rewrite F_L. }
  rewrite (Rmult_comm 2). exact (drv_unique _ _ _ H2 H1 y).
Qed.

(** ** the coefficients of the integral are integers *)
Definition sqr : poly := [0%Q; 0%Q; 1%Q].
Lemma ev_sqr w : evR sqr w = w * w. Proof. unfold sqr. rewrite !ev_cons, ev_nil, Q2R_0, Q2R_1. ring. Qed.
Lemma sqr_ints : ints sqr. Proof. repeat constructor; first [exact (isint_Z 0)|exact (isint_Z 1)]. Qed.
Definition one_minus : poly := [1%Q; (-1)%Q].
Lemma ev_om w : evR one_minus w = 1 - w. Proof. unfold one_minus. rewrite !ev_cons, ev_nil, Q2R_1. replace (Q2R (-1)) with (-1) by (unfold Q2R; simpl; lra). ring. Qed.
Lemma om_ints : ints one_minus. Proof. repeat constructor; first [exact (isint_Z 1)|exact (isint_Z (-1))]. Qed.
Lemma odd_ints k : exists q, ints q /\ forall w, w ∉ [1; -1] -> evR (defint (2 * k + 1)) w = evR (pcomp q sqr) w.
Proof.
  exists (padd (pmul one_minus (pmul (plist (S k) (ww k)) (plist (S k) (ww k)))) (pmul (plist (S k) (cc k)) (plist (S (S k)) (cc (S k))))).
  split; [apply ints_add; repeat apply ints_mul; first [apply plist_ints|apply om_ints]|].
  intros w Hw. rewrite ev_comp, ev_sqr, ev_add, !ev_mul, ev_om, <- !sm_ev. fold (W k (w * w)). fold (F k (w * w)). fold (F (S k) (w * w)).
  rewrite value_odd. cbv zeta. rewrite !F_L. f_equal. f_equal.
  assert (1 - w * w <> 0) as H1.
  { intros E. apply Hw. assert ((1 - w) * (1 + w) = 0) as E' by lra. apply Rmult_integral in E' as [E'|E']; rewrite !elem_of_cons; [left; lra|right; left; lra]. }
  assert (V k (2 * (w * w) - 1) / (INR k + 1) = W k (w * w)) as ->; [|done].
  pose proof (V_eq k (2 * (w * w) - 1)) as E. pose proof (W_F k (w * w)) as E2. rewrite !F_L in E2. rewrite <- E2 in E. pose proof (pos1 k).
  apply (Rmult_eq_reg_l (2 * (1 - w * w) * (INR k + 1))); [|apply Rmult_integral_contrapositive_currified; [lra|done]].
  transitivity ((1 - (2 * (w * w) - 1)) * V k (2 * (w * w) - 1)); [field; done|]. rewrite E. ring.
Qed.
Lemma even_ints k : exists q, ints q /\ forall w, evR (defint (2 * k + 2)) w = evR (pcomp q sqr) w.
Proof.
  set (g := plist (S k) (gg k)). set (f := plist (S (S k)) (cc (S k))).
  exists (0%Q :: padd (pmul (pmul (0%Q :: one_minus) (pmul g g)) [inject_Z ((Z.of_nat k + 1) * (Z.of_nat k + 2))]) (padd (pmul f f) (pmul one_minus (pmul f g)))).
  split.
  { constructor; [exact (isint_Z 0)|]. assert (ints g) by apply plist_ints. assert (ints f) by apply plist_ints. pose proof om_ints.
    assert (ints (0%Q :: one_minus)) by (constructor; [exact (isint_Z 0)|done]).
    assert (ints [inject_Z ((Z.of_nat k + 1) * (Z.of_nat k + 2))]) by (constructor; [apply isint_Z|constructor]).
    repeat match goal with |- ints (padd _ _) => apply ints_add | |- ints (pmul _ _) => apply ints_mul | |- Forall isint _ => change (Forall isint) with ints | _ => assumption end.
  }
  intros w. rewrite ev_comp, ev_sqr, ev_shift, !ev_add, !ev_mul, ev_shift, !ev_om. unfold f, g. rewrite <- !sm_ev.
  fold (F (S k) (w * w)). fold (G k (w * w)). rewrite value_even. cbv zeta. rewrite !F_L, ev_cons, ev_nil, Q2R_Z, mult_IZR, !plus_IZR, <- INR_IZR_INZ.
  pose proof (G_D k (w * w)) as E. pose proof (pos1 k). pose proof (pos2 k).
  assert (D (S k) (2 * (w * w) - 1) = (INR k + 1) * (INR k + 2) * G k (w * w) / 2) as -> by lra. field. done.
Qed.
Lemma parity N : N <> 0%nat -> exists k, N = (2 * k + 1)%nat \/ N = (2 * k + 2)%nat.
Proof.
  intros H. destruct (Nat.even N) eqn:E.
  - apply Nat.even_spec in E as [m ->]. exists (m - 1)%nat. right. lia.
  - assert (Nat.odd N = true) as E' by (rewrite <- Nat.negb_even, E; done). apply Nat.odd_spec in E' as [m ->]. exists m. left. lia.
Qed.
Lemma defint_ints N i : N <> 0%nat -> isint (coef (defint N) i).
Proof.
  intros HN. assert (exists q, ints q /\ forall w, w ∉ [1; -1] -> evR (defint N) w = evR (pcomp q sqr) w) as (q & Hq & E).
  { destruct (parity N HN) as [k [->| ->]]; [apply odd_ints|]. destruct (even_ints k) as (q & Hq & E). exists q. split; [done|]. intros w _. apply E. }
  pose proof (unique_R _ _ _ E i) as Ei. destruct (ints_coef (pcomp q sqr) i) as [z Hz]; [apply ints_comp; [done|apply sqr_ints]|].
  exists z. by rewrite Ei, Hz.
Qed.
(** odd powers do not occur *)
Fixpoint alt (p : poly) : poly := match p with [] => [] | c :: q => c :: pscale (-1)%Q (alt q) end.
Lemma ev_alt p x : evR (alt p) x = evR p (- x).
Proof. induction p as [|c p IH]; [done|]. cbn [alt]. rewrite !ev_cons, ev_scale, IH. replace (Q2R (-1)) with (-1) by (unfold Q2R; simpl; lra). ring. Qed.
Lemma coef_alt p : forall i, (coef (alt p) i == (if Nat.even i then 1 else -1) * coef p i)%Q.
Proof.
  induction p as [|c p IH]; intros i; [unfold coef; destruct i; simpl; ring|]. destruct i as [|i]; [unfold coef; simpl; ring|].
  change (coef (alt (c :: p)) (S i)) with (coef (pscale (-1)%Q (alt p)) i). change (coef (c :: p) (S i)) with (coef p i).
  rewrite coef_scale, IH, Nat.even_succ, <- Nat.negb_even. destruct (Nat.even i); simpl; ring.
Qed.
Lemma defint_even N w : evR (defint N) (- w) = evR (defint N) w.
Proof. rewrite !defint_ev. by replace (- w * - w) with (w * w) by ring. Qed.
Lemma defint_odd0 N i : Nat.even i = false -> (coef (defint N) i == 0)%Q.
Proof.
  intros Hi. assert (coef (alt (defint N)) i == coef (defint N) i)%Q as E.
  { apply (unique_R _ _ []). intros x _. by rewrite ev_alt, defint_even. }
  rewrite coef_alt, Hi in E. set (c := coef (defint N) i) in *. 
  assert (2 * c == 0)%Q as E2. { transitivity (c - -1 * c)%Q; [ring|]. rewrite E. ring. }
  apply Qmult_integral in E2 as [E2|E2]; [discriminate E2|done].
Qed.
