(** Proofs for LegModel: values of polynomials, Legendre's polynomials and the integrals. *)
From Coq Require Import Reals QArith Qreals Lra Lia.
From stdpp Require Import base tactics list numbers.
From Verif Require Import Fld Py Herm OptModel SigModel ZpkModel LegModel.
Local Open Scope R_scope.

(** ** values *)
Definition evR (p : poly) (x : R) : R := foldr (fun c acc => Q2R c + x * acc) 0 p.
Lemma ev_cons c p x : evR (c :: p) x = Q2R c + x * evR p x. Proof. done. Qed.
Lemma ev_nil x : evR [] x = 0. Proof. done. Qed.
Lemma Q2R_0 : Q2R 0 = 0. Proof. unfold Q2R. simpl. lra. Qed.
Lemma Q2R_1 : Q2R 1 = 1. Proof. unfold Q2R. simpl. lra. Qed.
Lemma Q2R_Z z : Q2R (inject_Z z) = IZR z. Proof. unfold Q2R, inject_Z. simpl. lra. Qed.
Lemma ev_add p : forall q x, evR (padd p q) x = evR p x + evR q x.
Proof.
  induction p as [|a p IH]; intros [|b q] x; cbn [padd]; rewrite ?ev_cons, ?ev_nil; try lra. rewrite Q2R_plus, IH. ring.
Qed.
Lemma ev_scale c p x : evR (pscale c p) x = Q2R c * evR p x.
Proof. induction p as [|a p IH]; [unfold pscale; simpl; rewrite ?ev_nil; ring|]. change (pscale c (a :: p)) with ((c * a)%Q :: pscale c p). rewrite !ev_cons, Q2R_mult, IH. ring. Qed.
Lemma ev_shift p x : evR (0%Q :: p) x = x * evR p x. Proof. rewrite ev_cons, Q2R_0. ring. Qed.
Lemma ev_mul p : forall q x, evR (pmul p q) x = evR p x * evR q x.
Proof.
  induction p as [|a p IH]; intros q x; [rewrite !ev_nil; ring|].
  change (pmul (a :: p) q) with (padd (pscale a q) (0%Q :: pmul p q)). rewrite ev_add, ev_scale, ev_shift, IH, ev_cons. ring.
Qed.
Lemma ev_comp p q x : evR (pcomp p q) x = evR p (evR q x).
Proof.
  induction p as [|c p IH]; [done|]. change (pcomp (c :: p) q) with (padd [c] (pmul (pcomp p q) q)).
  rewrite ev_add, ev_mul, IH, !ev_cons, ev_nil. ring.
Qed.
Lemma ev_val p x : Q2R (pval p x) = evR p (Q2R x).
Proof. induction p as [|c p IH]; [apply Q2R_0|]. change (pval (c :: p) x) with (c + pval p x * x)%Q. rewrite Q2R_plus, Q2R_mult, IH, ev_cons. ring. Qed.

(** ** derivatives *)
Definition drv (f f' : R -> R) : Prop := forall x, derivable_pt_lim f x (f' x).
Lemma drv_ext f g f' g' : drv f f' -> (forall x, f x = g x) -> (forall x, f' x = g' x) -> drv g g'.
Proof. intros H E E' x. rewrite <- E'. intros e He. destruct (H x e He) as [d Hd]. exists d. intros h H0 H1. rewrite <- !E. auto. Qed.
Lemma drv_const c : drv (fun _ => c) (fun _ => 0). Proof. intros x. apply derivable_pt_lim_const. Qed.
Lemma drv_id : drv (fun x => x) (fun _ => 1). Proof. intros x. apply derivable_pt_lim_id. Qed.
Lemma drv_add f g f' g' : drv f f' -> drv g g' -> drv (fun x => f x + g x) (fun x => f' x + g' x).
Proof. intros H1 H2 x. by apply derivable_pt_lim_plus. Qed.
Lemma drv_mul f g f' g' : drv f f' -> drv g g' -> drv (fun x => f x * g x) (fun x => f' x * g x + f x * g' x).
Proof. intros H1 H2 x. by apply derivable_pt_lim_mult. Qed.
Lemma drv_scal c f f' : drv f f' -> drv (fun x => c * f x) (fun x => c * f' x).
Proof. intros H. eapply drv_ext; [apply (drv_mul _ _ _ _ (drv_const c) H)|done|]. intros x. simpl. ring. Qed.
Lemma drv_comp f g f' g' : drv f f' -> drv g g' -> drv (fun x => f (g x)) (fun x => f' (g x) * g' x).
Proof. intros H1 H2 x. apply (derivable_pt_lim_comp g f); [apply H2|apply H1]. Qed.
Lemma drv_unique f f' g' : drv f f' -> drv f g' -> forall x, f' x = g' x.
Proof. intros H1 H2 x. eapply uniqueness_limite; [apply H1|apply H2]. Qed.
Lemma drv_ddx f f' : drv f f' -> exists pr : derivable f, forall x, derive_pt f x (pr x) = f' x.
Proof. intros H. exists (fun x => exist _ (f' x) (H x)). done. Qed.
Lemma drv_null f : drv f (fun _ => 0) -> forall x y, f x = f y.
Proof. intros H x y. destruct (drv_ddx _ _ H) as [pr Hp]. apply (null_derivative_1 f pr). intros z. apply Hp. Qed.
Lemma drv_same f g h : drv f h -> drv g h -> forall x y, f x - f y = g x - g y.
Proof.
  intros H1 H2 x y. assert (drv (fun x => f x + (-1) * g x) (fun _ => 0)) as H3.
  { eapply drv_ext; [apply (drv_add _ _ _ _ H1 (drv_scal (-1) _ _ H2))|done|]. intros z. simpl. ring. }
  pose proof (drv_null _ H3 x y) as E. simpl in E. lra.
Qed.
Lemma drv_mono f f' : drv f f' -> (forall x, 0 <= f' x) -> forall x y, x <= y -> f x <= f y.
Proof.
  intros H H0 x y Hxy. destruct (drv_ddx _ _ H) as [pr Hp].
  apply (nonneg_derivative_1 f pr); [|done]. intros z. rewrite Hp. apply H0.
Qed.

(** ** the integral of a list *)
Lemma pow_drv n : drv (fun x => x ^ S n) (fun x => INR (S n) * x ^ n).
Proof. intros x. apply derivable_pt_lim_pow_pos. lia. Qed.
Definition evs (k : nat) (p : poly) (x : R) : R := x ^ k * evR p x.
Lemma int_drv p : forall k, drv (evs (S k) (imap (fun i c => (c / inject_Z (Z.of_nat (i + k) + 1))%Q) p)) (evs k p).
Proof.
  induction p as [|c p IH]; intros k.
  - eapply drv_ext; [apply (drv_const 0)| |]; intros x; unfold evs; simpl; ring.
  - eapply drv_ext; [apply (drv_add _ _ _ _ (drv_scal (Q2R c / INR (S k)) _ _ (pow_drv k)) (IH (S k)))| |]; intros x; unfold evs.
    + rewrite imap_cons. rewrite ev_cons. change (0 + k)%nat with k.
      rewrite Q2R_div; [|unfold inject_Z, Qeq; simpl; lia].
      rewrite Q2R_Z, plus_IZR, <- INR_IZR_INZ, S_INR.
      erewrite (imap_ext (_ ∘ S)).
      2:{ intros i y _. unfold compose. simpl. replace (S (i + k))%nat with (i + S k)%nat by lia. done. }
      change (x ^ S (S k)) with (x * x ^ S k). unfold Rdiv. ring.
    + rewrite ev_cons. change (x ^ S k) with (x * x ^ k).
      assert (INR (S k) <> 0) by (apply not_0_INR; lia). field. done.
Qed.
Lemma polyint_drv p : drv (evR (polyint p)) (evR p).
Proof.
  eapply drv_ext; [apply (int_drv p 0)| |]; intros x; unfold evs; [|simpl; ring].
  unfold polyint. rewrite ev_shift. rewrite pow_1. f_equal. f_equal. apply imap_ext. intros i y _. by rewrite Nat.add_0_r.
Qed.

(** ** Legendre's polynomials and their derivatives *)
Fixpoint LL (n : nat) (x : R) : R * R :=
  match n with
  | O => (1, x)
  | S m => let r := LL m x in (r.2, ((2 * INR m + 3) * x * r.2 - (INR m + 1) * r.1) / (INR m + 2))
  end.
Definition L n x := (LL n x).1.
Lemma LL_2 n x : (LL n x).2 = L (S n) x. Proof. done. Qed.
Lemma L_SS n x : L (S (S n)) x = ((2 * INR n + 3) * x * L (S n) x - (INR n + 1) * L n x) / (INR n + 2).
Proof. done. Qed.
Fixpoint DD (n : nat) (x : R) : R * R :=
  match n with
  | O => (0, 1)
  | S m => let r := DD m x in (r.2, ((2 * INR m + 3) * (L (S m) x + x * r.2) - (INR m + 1) * r.1) / (INR m + 2))
  end.
Definition D n x := (DD n x).1.
Lemma D_SS n x : D (S (S n)) x = ((2 * INR n + 3) * (L (S n) x + x * D (S n) x) - (INR n + 1) * D n x) / (INR n + 2).
Proof. done. Qed.
Lemma legendre_ev2 n : forall x, evR (legendre2 n).1 x = L n x /\ evR (legendre2 n).2 x = L (S n) x.
Proof.
  induction n as [|n IH]; intros x.
  - simpl. unfold evR, L. simpl. rewrite Q2R_0, Q2R_1. split; ring.
  - destruct (IH x) as [E1 E2]. cbn [legendre2]. destruct (legendre2 n) as [a b] eqn:E. cbn [fst snd] in *. split; [done|].
    rewrite ev_scale, ev_add, !ev_scale, ev_shift, E1, E2, L_SS, Q2R_div, Q2R_opp, !Q2R_Z, Q2R_1, !plus_IZR, mult_IZR, <- INR_IZR_INZ.
    + unfold Rdiv. ring.
    + unfold inject_Z, Qeq. simpl. lia.
Qed.
Lemma legendre_ev n x : evR (legendre n) x = L n x. Proof. apply legendre_ev2. Qed.
Lemma pos2 n : INR n + 2 <> 0. Proof. pose proof (pos_INR n). lra. Qed.
Lemma pos1 n : INR n + 1 <> 0. Proof. pose proof (pos_INR n). lra. Qed.
Lemma L_drv2 n : drv (L n) (D n) /\ drv (L (S n)) (D (S n)).
Proof.
  induction n as [|n [I1 I2]].
  - split; [exact (drv_const 1)|exact drv_id].
  - split; [done|].
    eapply drv_ext; [apply (drv_scal (/ (INR n + 2)) _ _ (drv_add _ _ _ _ (drv_scal (2 * INR n + 3) _ _ (drv_mul _ _ _ _ drv_id I2)) (drv_scal (- (INR n + 1)) _ _ I1)))| |];
      intros x; simpl; [rewrite L_SS|rewrite D_SS]; unfold Rdiv; ring.
Qed.
Lemma L_drv n : drv (L n) (D n). Proof. apply L_drv2. Qed.

(** B: x P_(n+1)' - P_n' = (n+1) P_(n+1);  A: P_(n+1)' - x P_n' = (n+1) P_n *)
Lemma L_AB n x : D (S n) x - x * D n x = (INR n + 1) * L n x /\ x * D (S n) x - D n x = (INR n + 1) * L (S n) x.
Proof.
  induction n as [|n [A B]].
  - unfold D, L. simpl. lra.
  - rewrite S_INR, D_SS, L_SS. pose proof (pos2 n). pose proof (pos1 n).
    assert (L n x = (D (S n) x - x * D n x) / (INR n + 1)) as -> by (rewrite A; field; done).
    assert (L (S n) x = (x * D (S n) x - D n x) / (INR n + 1)) as -> by (rewrite B; field; done).
    split; field; done.
Qed.
Lemma L_A n x : D (S n) x = x * D n x + (INR n + 1) * L n x. Proof. pose proof (L_AB n x). lra. Qed.
Lemma L_B n x : x * D (S n) x = D n x + (INR n + 1) * L (S n) x. Proof. pose proof (L_AB n x). lra. Qed.
(** the difference of two derivatives *)
Lemma D_diff n x : D (S (S n)) x - D n x = (2 * INR n + 3) * L (S n) x.
Proof. pose proof (L_A (S n) x). pose proof (L_B n x). rewrite S_INR in *. lra. Qed.
Lemma L_1 n : L n 1 = 1.
Proof.
  cut (L n 1 = 1 /\ L (S n) 1 = 1); [tauto|]. induction n as [|n [I1 I2]]; [unfold L; simpl; lra|]. split; [done|].
  rewrite L_SS, I1, I2. pose proof (pos2 n). field. done.
Qed.
Lemma L_m1 n : L n (-1) = (-1) ^ n.
Proof.
  cut (L n (-1) = (-1) ^ n /\ L (S n) (-1) = (-1) ^ (S n)); [tauto|]. induction n as [|n [I1 I2]]; [unfold L; simpl; lra|]. split; [done|].
  rewrite L_SS, I1, I2. pose proof (pos2 n). simpl. field. done.
Qed.
Lemma sq_m1 n : (-1) ^ n * (-1) ^ n = 1. Proof. rewrite <- Rpow_mult_distr. replace (-1 * -1) with 1 by ring. apply pow1. Qed.

(** ** the sums of Legendre polynomials *)
Lemma ev_foldr l x : evR (foldr padd [] l) x = foldr (fun p acc => evR p x + acc) 0 l.
Proof. induction l as [|p l IH]; [done|]. cbn [foldr]. by rewrite ev_add, IH. Qed.
Lemma ev_foldr_app l l' x : evR (foldr padd [] (l ++ l')) x = evR (foldr padd [] l) x + evR (foldr padd [] l') x.
Proof. rewrite !ev_foldr. induction l as [|p l IH]; cbn [foldr app]; lra. Qed.
Lemma series_snoc a c x : evR (series (a ++ [c])) x = evR (series a) x + Q2R c * L (length a) x.
Proof.
  unfold series. rewrite imap_app, ev_foldr_app. f_equal. cbn [imap foldr]. 
  rewrite ev_add. unfold compose. rewrite Nat.add_0_r, ev_scale, legendre_ev, ev_nil. ring.
Qed.
Lemma arange_S k : arange (S k) = arange k ++ [inject_Z (2 * Z.of_nat (S k) + 1)].
Proof. unfold arange. rewrite (seq_S (S k)), fmap_app. done. Qed.
Lemma arange_len k : length (arange k) = S k. Proof. unfold arange. by rewrite fmap_length, seq_length. Qed.
Definition V k x := (D (S k) x + D k x).
Lemma series_odd k x : evR (series (arange k)) x = V k x.
Proof.
  unfold V. induction k as [|k IH].
  - change (arange 0) with ([] ++ [inject_Z 1]). rewrite series_snoc, Q2R_Z. unfold D, L. change (series []) with (@nil Q). rewrite ev_nil. simpl. lra.
  - rewrite arange_S, series_snoc, IH, arange_len, Q2R_Z, plus_IZR, mult_IZR, <- INR_IZR_INZ.
    pose proof (D_diff k x). rewrite S_INR. lra.
Qed.
(** (1 - x) v = (k+1) (P_k - P_(k+1)) *)
Lemma V_eq k x : (1 - x) * V k x = (INR k + 1) * (L k x - L (S k) x).
Proof. unfold V. pose proof (L_A k x). pose proof (L_B k x). lra. Qed.
Lemma zero_app st a c : zero_from st (a ++ [c]) = zero_from st a ++ [if decide (Nat.modulo (length a) 2 = st) then 0%Q else c].
Proof. unfold zero_from. rewrite imap_app. f_equal. cbn [imap]. unfold compose. by rewrite Nat.add_0_r. Qed.
Lemma zero_len st a : length (zero_from st a) = length a. Proof. apply imap_length. Qed.
Lemma mod2_S n : Nat.modulo (S n) 2 = (1 - Nat.modulo n 2)%nat.
Proof. pose proof (Nat.mod_upper_bound n 2). rewrite <- Nat.add_1_r, Nat.add_mod by lia. destruct (Nat.modulo n 2) as [|[|?]]; simpl; lia. Qed.
Lemma mod2_cases n : Nat.modulo n 2 = 0%nat \/ Nat.modulo n 2 = 1%nat.
Proof. pose proof (Nat.mod_upper_bound n 2). lia. Qed.
Lemma series_even k x : evR (series (zero_from (1 - Nat.modulo k 2) (arange k))) x = D (S k) x.
Proof.
  cut (evR (series (zero_from (1 - Nat.modulo k 2) (arange k))) x = D (S k) x /\ evR (series (zero_from (Nat.modulo k 2) (arange k))) x = D k x); [tauto|].
  induction k as [|k [I1 I2]].
  - change (arange 0) with ([] ++ [inject_Z 1]). rewrite !zero_app, !series_snoc. change (zero_from _ []) with (@nil Q). change (series []) with (@nil Q). rewrite ev_nil.
    simpl. rewrite Q2R_0. unfold D, L. simpl. pose proof (Q2R_Z 1). lra.
  - rewrite arange_S, !zero_app, !series_snoc, !zero_len, !arange_len, mod2_S.
    replace (1 - (1 - Nat.modulo k 2))%nat with (Nat.modulo k 2) by (destruct (mod2_cases k); lia).
    rewrite I1, I2. rewrite decide_False by (destruct (mod2_cases k); lia). rewrite decide_True by done.
    rewrite Q2R_0, Q2R_Z, plus_IZR, mult_IZR, <- INR_IZR_INZ. pose proof (D_diff k x). rewrite S_INR. lra.
Qed.

(** ** closed forms of the integrals *)
Lemma ev_drv p : exists f', drv (evR p) f'.
Proof.
  induction p as [|c p [f' H]]; [exists (fun _ => 0); exact (drv_const 0)|].
  eexists. exact (drv_add _ _ _ _ (drv_const (Q2R c)) (drv_mul _ _ _ _ drv_id H)).
Qed.
Lemma odd_form k : let W := fun x => V k x / (INR k + 1) in
  drv (fun x => (1 - x) * (W x * W x) / 2 + L k x * L (S k) x) (fun x => W x * W x / 2).
Proof.
  intros W. destruct (ev_drv (series (arange k))) as [f' Hf].
  assert (drv W (fun x => f' x / (INR k + 1))) as HW.
  { eapply drv_ext; [apply (drv_scal (/ (INR k + 1)) _ _ Hf)| |]; intros x; simpl; [rewrite series_odd; unfold W|]; unfold Rdiv; ring. }
  set (W' := fun x => f' x / (INR k + 1)) in *.
  assert (drv (fun x => 1 - x) (fun _ => -1)) as H1.
  { eapply drv_ext; [apply (drv_add _ _ _ _ (drv_const 1) (drv_scal (-1) _ _ drv_id))| |]; intros x; simpl; ring. }
  assert (forall x, (1 - x) * W' x = W x + D k x - D (S k) x) as Hu.
  { assert (drv (fun x => (1 - x) * W x) (fun x => D k x + -1 * D (S k) x)) as H2.
    { eapply drv_ext; [apply (drv_add _ _ _ _ (L_drv k) (drv_scal (-1) _ _ (L_drv (S k))))| |done]. intros x. simpl.
      unfold W. pose proof (V_eq k x) as E. pose proof (pos1 k).
      replace ((1 - x) * (V k x / (INR k + 1))) with ((1 - x) * V k x / (INR k + 1)) by (unfold Rdiv; ring). rewrite E. field. done. }
    intros x. pose proof (drv_unique _ _ _ (drv_mul _ _ _ _ H1 HW) H2 x) as E. simpl in E. lra. }
  eapply drv_ext; [apply (drv_add _ _ _ _ (drv_scal (/ 2) _ _ (drv_mul _ _ _ _ H1 (drv_mul _ _ _ _ HW HW))) (drv_mul _ _ _ _ (L_drv k) (L_drv (S k))))| |]; intros x; simpl.
  - unfold Rdiv. ring.
  - replace (-1 * (W x * W x) + (1 - x) * (W' x * W x + W x * W' x)) with (- (W x * W x) + 2 * W x * ((1 - x) * W' x)) by ring.
    rewrite Hu. unfold W, V. pose proof (pos1 k).
    assert (L k x = (D (S k) x - x * D k x) / (INR k + 1)) as -> by (rewrite L_A; field; done).
    assert (L (S k) x = (x * D (S k) x - D k x) / (INR k + 1)) as -> by (rewrite L_B; field; done).
    field. done.
Qed.
Lemma L_C k x : (1 - x * x) * D (S k) x = (INR k + 1) * (L k x - x * L (S k) x).
Proof.
  pose proof (L_A k x) as A. pose proof (L_B k x) as B.
  replace ((1 - x * x) * D (S k) x) with (D (S k) x - x * (x * D (S k) x)) by ring. rewrite B, A at 1. ring.
Qed.
Lemma D_drv k : exists E, drv (D (S k)) E /\ forall x, (1 - x * x) * E x = 2 * x * D (S k) x - (INR k + 1) * (INR k + 2) * L (S k) x.
Proof.
  destruct (ev_drv (series (zero_from (1 - Nat.modulo k 2) (arange k)))) as [E HE]. exists E.
  assert (drv (D (S k)) E) as H. { eapply drv_ext; [exact HE| |done]. intros x. apply series_even. }
  split; [done|].
  assert (drv (fun x => 1 - x * x) (fun x => -2 * x)) as H1.
  { eapply drv_ext; [apply (drv_add _ _ _ _ (drv_const 1) (drv_scal (-1) _ _ (drv_mul _ _ _ _ drv_id drv_id)))| |]; intros x; simpl; ring. }
  assert (drv (fun x => (1 - x * x) * D (S k) x) (fun x => (INR k + 1) * (D k x + -1 * (1 * L (S k) x + x * D (S k) x)))) as H2.
  { eapply drv_ext; [apply (drv_scal (INR k + 1) _ _ (drv_add _ _ _ _ (L_drv k) (drv_scal (-1) _ _ (drv_mul _ _ _ _ drv_id (L_drv (S k))))))| |done].
    intros x. simpl. rewrite L_C. ring. }
  intros x. pose proof (drv_unique _ _ _ (drv_mul _ _ _ _ H1 H) H2 x) as Eq. simpl in Eq.
  rewrite L_B in Eq. lra.
Qed.
Lemma even_form k : let M := (INR k + 1) * (INR k + 2) in let P := L (S k) in let d := D (S k) in
  drv (fun x => (1 + x) * ((1 - x * x) * (d x * d x) + M * (P x * P x) + (1 - x) * (P x * d x)) / 2) (fun x => (1 + x) * (d x * d x)).
Proof.
  intros M P d. destruct (D_drv k) as (E & HE & Eq). fold M P d in Eq. fold d in HE.
  assert (drv P d) as HP by apply L_drv.
  assert (drv (fun x => 1 + x) (fun _ => 1)) as Hp.
  { eapply drv_ext; [apply (drv_add _ _ _ _ (drv_const 1) drv_id)| |]; intros x; simpl; ring. }
  assert (drv (fun x => 1 - x) (fun _ => -1)) as Hm.
  { eapply drv_ext; [apply (drv_add _ _ _ _ (drv_const 1) (drv_scal (-1) _ _ drv_id))| |]; intros x; simpl; ring. }
  pose proof (drv_mul _ _ _ _ (drv_mul _ _ _ _ Hp Hm) (drv_mul _ _ _ _ HE HE)) as T1. fold d in T1.
  pose proof (drv_scal M _ _ (drv_mul _ _ _ _ HP HP)) as T2.
  pose proof (drv_mul _ _ _ _ Hm (drv_mul _ _ _ _ HP HE)) as T3. fold d in T3.
  pose proof (drv_scal (/ 2) _ _ (drv_mul _ _ _ _ Hp (drv_add _ _ _ _ (drv_add _ _ _ _ T1 T2) T3))) as T.
  eapply drv_ext; [exact T| |]; intros x; simpl; [unfold Rdiv; ring|].
  specialize (Eq x).
  transitivity (/ 2 * (1 * ((1 + x) * (1 - x) * (d x * d x) + M * (P x * P x) + (1 - x) * (P x * d x)) +
     (1 + x) * ((1 * (1 - x) + (1 + x) * -1) * (d x * d x) + M * (d x * P x + P x * d x) + -1 * (P x * d x) + (1 - x) * (d x * d x))
     + 2 * (1 + x) * d x * ((1 - x * x) * E x) + P x * ((1 - x * x) * E x))); [ring|].
  rewrite Eq. field.
Qed.

(** ** the value of the integral *)
Lemma defint_ev N w : evR (defint N) w = evR (polyint (integrand N)) (2 * (w * w) - 1) - evR (polyint (integrand N)) (-1).
Proof.
  unfold defint. cbv zeta. rewrite ev_add, ev_comp, !ev_cons, !ev_nil, !Q2R_opp, ev_val, Q2R_0, Q2R_opp, Q2R_1.
  replace (Q2R 2) with 2 by (unfold Q2R; simpl; lra). replace (- (1)) with (-1) by lra.
  replace (-1 + w * (0 + w * (2 + w * 0))) with (2 * (w * w) - 1) by ring. ring.
Qed.
Lemma order_odd k : order_k (2 * k + 1) = k /\ Nat.modulo (2 * k + 1) 2 = 1%nat.
Proof.
  assert (Nat.modulo (2 * k + 1) 2 = 1%nat) as E by (rewrite Nat.add_comm, Nat.mul_comm, Nat.mod_add by lia; done).
  split; [|done]. unfold order_k. rewrite decide_True by done. replace (2 * k + 1 - 1)%nat with (k * 2)%nat by lia. apply Nat.div_mul. lia.
Qed.
Lemma order_even k : order_k (2 * k + 2) = k /\ Nat.modulo (2 * k + 2) 2 <> 1%nat.
Proof.
  assert (Nat.modulo (2 * k + 2) 2 = 0%nat) as E by (replace (2 * k + 2)%nat with ((k + 1) * 2)%nat by lia; apply Nat.mod_mul; lia).
  split; [|lia]. unfold order_k. rewrite decide_False by lia. replace (2 * k + 2 - 2)%nat with (k * 2)%nat by lia. apply Nat.div_mul. lia.
Qed.
Lemma integrand_odd k x : evR (integrand (2 * k + 1)) x = V k x / (INR k + 1) * (V k x / (INR k + 1)) / 2.
Proof.
  destruct (order_odd k) as [E1 E2]. unfold integrand, weights. cbv zeta. rewrite E1, !(decide_True _ _ E2), ev_scale, ev_mul, series_odd, Q2R_div.
  - rewrite Q2R_1, Q2R_Z, !mult_IZR, plus_IZR, <- INR_IZR_INZ. pose proof (pos1 k). field. done.
  - unfold inject_Z, Qeq. simpl. lia.
Qed.
Lemma integrand_even k x : evR (integrand (2 * k + 2)) x = (1 + x) * (D (S k) x * D (S k) x) / ((INR k + 1) * (INR k + 2)).
Proof.
  destruct (order_even k) as [E1 E2]. unfold integrand, weights. cbv zeta. rewrite E1, !(decide_False _ _ E2), ev_scale, !ev_mul.
  assert (forall x, evR (series (if decide (Nat.modulo k 2 = 1%nat) then zero_from 0 (arange k) else zero_from 1 (arange k))) x = D (S k) x) as ->.
  { intros y. rewrite <- series_even. destruct (mod2_cases k) as [E|E]; rewrite E; [rewrite decide_False by lia|rewrite decide_True by lia]; done. }
  rewrite Q2R_div.
  - rewrite !ev_cons, ev_nil, Q2R_1, Q2R_Z, !mult_IZR, !plus_IZR, <- INR_IZR_INZ. pose proof (pos1 k). pose proof (pos2 k). field. done.
  - unfold inject_Z, Qeq. simpl. lia.
Qed.
Lemma value_odd k w : let x := 2 * (w * w) - 1 in let W := V k x / (INR k + 1) in
  evR (defint (2 * k + 1)) w = (1 - w * w) * (W * W) + L k x * L (S k) x.
Proof.
  intros x W. rewrite defint_ev. fold x. pose proof (odd_form k) as H. cbv zeta in H.
  assert (drv (evR (polyint (integrand (2 * k + 1)))) (fun x => V k x / (INR k + 1) * (V k x / (INR k + 1)) / 2)) as H'.
  { eapply drv_ext; [apply polyint_drv|done|]. intros y. apply integrand_odd. }
  rewrite (drv_same _ _ _ H' H x (-1)). cbv beta.
  pose proof (V_eq k (-1)) as Ev. rewrite !L_m1 in *. simpl in Ev |- *. pose proof (sq_m1 k) as Es. pose proof (pos1 k).
  assert (V k (-1) / (INR k + 1) = (-1) ^ k) as -> . 
  { replace (V k (-1)) with ((INR k + 1) * (-1) ^ k) by lra. field. done. }
  fold W. replace ((-1) ^ k * (-1 * (-1) ^ k)) with (-1) by lra. rewrite Es. unfold x. lra.
Qed.
Lemma value_even k w : let x := 2 * (w * w) - 1 in let M := (INR k + 1) * (INR k + 2) in let P := L (S k) x in let d := D (S k) x in
  evR (defint (2 * k + 2)) w = w * w * (4 * (w * w) * (1 - w * w) * (d * d) / M + P * P + 2 * (1 - w * w) * (P * d) / M).
Proof.
  intros x M P d. rewrite defint_ev. fold x. pose proof (drv_scal (/ M) _ _ (even_form k)) as H. cbv zeta in H.
  assert (drv (evR (polyint (integrand (2 * k + 2)))) (fun x => / M * ((1 + x) * (D (S k) x * D (S k) x)))) as H'.
  { eapply drv_ext; [apply polyint_drv|done|]. intros y. rewrite integrand_even. fold M. unfold Rdiv. ring. }
  rewrite (drv_same _ _ _ H' H x (-1)). cbv beta. fold P d M.
  assert (M <> 0) by (unfold M; apply Rmult_integral_contrapositive_currified; [apply pos1|apply pos2]).
  unfold x. field. done.
Qed.
