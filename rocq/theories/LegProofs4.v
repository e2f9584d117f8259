(** Proofs for LegModel: the degree, the number of poles, and the gain at zero frequency. *)
From Coq Require Import Reals QArith Qreals Lra Lia.
From stdpp Require Import base tactics list numbers.
From Verif Require Import Fld Py Herm OptModel OptRot SigModel SigSpec SigProofs ZpkModel ZpkSpec ZpkProofs LegModel LegSpec LegProofs LegProofs2 LegProofs3.
Add Field FFl5 : (f_theory C_fld).

(** ** leading coefficients *)
Definition LD (n : nat) (p : poly) : Prop := length p = S n /\ ~ (coef p n == 0)%Q.
Lemma add_len p : forall q, length (padd p q) = Nat.max (length p) (length q).
Proof. induction p as [|a p IH]; intros [|b q]; cbn [padd length]; try lia. rewrite IH. lia. Qed.
Lemma scale_len c p : length (pscale c p) = length p. Proof. apply fmap_length. Qed.
Lemma coef_out p i : (length p <= i)%nat -> coef p i = 0%Q. Proof. apply nth_overflow. Qed.
Lemma LD_scale n c p : ~ (c == 0)%Q -> LD n p -> LD n (pscale c p).
Proof. intros Hc [H1 H2]. split; [by rewrite scale_len|]. rewrite coef_scale. intros E. by apply Qmult_integral in E as [E|E]. Qed.
Lemma LD_add_r n p q : (length p <= n)%nat -> LD n q -> LD n (padd p q).
Proof. intros H [H1 H2]. split; [rewrite add_len; lia|]. rewrite coef_add, (coef_out p) by lia. rewrite Qplus_0_l. done. Qed.
Lemma LD_add_l n p q : LD n p -> (length q <= n)%nat -> LD n (padd p q).
Proof. intros [H1 H2] H. split; [rewrite add_len; lia|]. rewrite coef_add, (coef_out q) by lia. rewrite Qplus_0_r. done. Qed.
Lemma LD_cons n c p : LD n p -> LD (S n) (c :: p). Proof. intros [H1 H2]. split; [cbn [length]; lia|done]. Qed.
Lemma LD_mul n : forall p m q, LD n p -> LD m q -> LD (n + m) (pmul p q).
Proof.
  induction n as [|n IH]; intros [|a p] m q [H1 H2] Hq; cbn [length] in H1; try lia; cbn [pmul].
  - destruct p; [|cbn [length] in H1; lia]. cbn [pmul]. destruct Hq as [Hq1 Hq2]. simpl (0 + m)%nat. split; [rewrite add_len, scale_len; simpl; lia|].
    rewrite coef_add, coef_scale. change (coef [a] 0) with a in H2.
    assert (coef [0%Q] m == 0)%Q as -> by (destruct m as [|[|m]]; reflexivity). rewrite Qplus_0_r. intros E. by apply Qmult_integral in E as [E|E].
  - apply LD_add_r; [rewrite scale_len; destruct Hq; lia|]. simpl (S n + m)%nat. apply LD_cons. apply IH; [|done]. split; [lia|done].
Qed.
Lemma imap_nth (f : nat -> Q -> Q) p : forall i, (i < length p)%nat -> nth i (imap f p) 0%Q = f i (nth i p 0%Q).
Proof.
  revert f. induction p as [|a p IH]; intros f [|i] H; cbn [length] in H; try lia; [done|]. rewrite imap_cons. cbn [nth]. rewrite IH by lia. done.
Qed.
Lemma LD_int n p : LD n p -> LD (S n) (polyint p).
Proof.
  intros [H1 H2]. apply LD_cons. split; [by rewrite imap_length|]. unfold coef in *. rewrite imap_nth by lia. unfold Qdiv.
  intros E. apply Qmult_integral in E as [E|E]; [done|]. assert (Q2R (/ inject_Z (Z.of_nat n + 1)) = 0)%R as E' by (rewrite (Qeq_eqR _ _ E); apply Q2R_0).
  rewrite Q2R_inv in E' by (unfold inject_Z, Qeq; simpl; lia). apply Rinv_neq_0_compat in E'; [done|]. rewrite Q2R_Z. apply IZR_neq. lia.
Qed.
Lemma LD_comp n : forall p q, LD n p -> LD 2 q -> LD (2 * n) (pcomp p q).
Proof.
  induction n as [|n IH]; intros [|c p] q [H1 H2] Hq; cbn [length] in H1; try lia.
  - destruct p; [|cbn [length] in H1; lia]. done.
  - change (pcomp (c :: p) q) with (padd [c] (pmul (pcomp p q) q)). apply LD_add_r; [cbn [length]; lia|].
    replace (2 * S n)%nat with (2 * n + 2)%nat by lia. apply LD_mul; [|done]. apply IH; [|done]. split; [lia|done].
Qed.
Lemma inj_neq z : z <> 0%Z -> ~ (inject_Z z == 0)%Q. Proof. unfold inject_Z, Qeq. simpl. lia. Qed.
Lemma inv_neq q : ~ (q == 0)%Q -> ~ (1 / q == 0)%Q.
Proof. intros H E. assert (1 / q * q == 1)%Q as E' by (field; done). rewrite E in E'. discriminate E'. Qed.
Lemma LD_legendre n : LD n (legendre2 n).1 /\ LD (S n) (legendre2 n).2.
Proof.
  induction n as [|n [I1 I2]].
  - split; (split; [done|]); discriminate.
  - cbn [legendre2]. destruct (legendre2 n) as [a b]. cbn [fst snd] in *. split; [done|].
    apply LD_scale; [apply inv_neq, inj_neq; lia|]. apply LD_add_l; [|rewrite scale_len; destruct I1; lia].
    apply LD_scale; [apply inj_neq; lia|]. by apply LD_cons.
Qed.
Lemma series_snoc_coef a c i : (coef (series (a ++ [c])) i == coef (series a) i + c * coef (legendre (length a)) i)%Q.
Proof.
  unfold series. rewrite imap_app. cbn [imap]. unfold compose. rewrite Nat.add_0_r. generalize (imap (fun n c => pscale c (legendre n)) a) as l.
  induction l as [|p l IH]; cbn [app foldr].
  - rewrite coef_add, coef_scale. unfold coef. destruct i; simpl; ring.
  - rewrite !coef_add, IH. ring.
Qed.
Lemma series_snoc_len a c : length (series (a ++ [c])) = Nat.max (length (series a)) (S (length a)).
Proof.
  unfold series. rewrite imap_app. cbn [imap]. unfold compose. rewrite Nat.add_0_r. generalize (imap (fun n c => pscale c (legendre n)) a) as l.
  destruct (LD_legendre (length a)) as [[Hl _] _]. fold (legendre (length a)) in Hl.
  induction l as [|p l IH]; cbn [app foldr]; rewrite !add_len.
  - rewrite scale_len, Hl. simpl. lia.
  - rewrite IH. lia.
Qed.
Lemma series_len a : length (series a) = length a.
Proof. induction a as [|c a IH] using rev_ind; [done|]. rewrite series_snoc_len, IH, app_length. cbn [length]. lia. Qed.
Lemma LD_series k a c : length a = k -> ~ (c == 0)%Q -> LD k (series (a ++ [c])).
Proof.
  intros Ha Hc. split; [rewrite series_len, app_length; cbn [length]; lia|]. rewrite series_snoc_coef, Ha, (coef_out (series a)) by (rewrite series_len; lia).
  rewrite Qplus_0_l. intros E. apply Qmult_integral in E as [E|E]; [done|]. by destruct (LD_legendre k) as [[_ ?] _].
Qed.
Lemma arange_snoc k : exists a, length a = k /\ arange k = a ++ [inject_Z (2 * Z.of_nat k + 1)].
Proof. destruct k as [|k]; [by exists []|]. exists (arange k). split; [apply arange_len|apply arange_S]. Qed.
Lemma LD_weights N : N <> O -> LD (order_k N) (series (weights N)).
Proof.
  intros HN. destruct (arange_snoc (order_k N)) as (a & Ha & E). unfold weights. cbv zeta. rewrite E.
  assert (~ (inject_Z (2 * Z.of_nat (order_k N) + 1) == 0)%Q) by (apply inj_neq; lia).
  destruct (decide (Nat.modulo N 2 = 1%nat)); [by apply LD_series|].
  destruct (decide (Nat.modulo (order_k N) 2 = 1%nat)) as [Hk|Hk]; rewrite zero_app, Ha.
  - rewrite decide_False by lia. apply LD_series; [by rewrite zero_len|done].
  - rewrite decide_False by done. apply LD_series; [by rewrite zero_len|done].
Qed.
Lemma LD_defint N : N <> O -> LD (2 * N) (defint N).
Proof.
  intros HN. unfold defint. cbv zeta. apply LD_add_l; [|cbn [length]; lia]. apply LD_comp; [|split; [done|discriminate]].
  pose proof (LD_weights N HN) as Hv. unfold integrand. cbv zeta. destruct (parity N HN) as [k [->| ->]].
  - destruct (order_odd k) as [E1 E2]. rewrite (decide_True _ _ E2). rewrite E1 in *. replace (2 * k + 1)%nat with (S (k + k)) by lia.
    apply LD_int, LD_scale; [apply inv_neq, inj_neq; lia|]. replace (S (k + k)) with (2 * k + 1)%nat by lia. by apply LD_mul.
  - destruct (order_even k) as [E1 E2]. rewrite (decide_False _ _ E2). rewrite E1 in *. replace (2 * k + 2)%nat with (S (1 + (k + k))) by lia.
    apply LD_int, LD_scale; [apply inv_neq, inj_neq; lia|]. replace (S (1 + (k + k))) with (2 * k + 2)%nat by lia.
    apply LD_mul; [split; [done|discriminate]|]. by apply LD_mul.
Qed.
Lemma opt_len N : length (optimum_poly N) = (2 * N + 1)%nat.
Proof.
  destruct (decide (N = O)) as [->|HN]; [done|]. rewrite opt_inc by done. unfold inc. rewrite rev_length, fmap_length.
  destruct (LD_defint N HN) as [E _]. lia.
Qed.
Lemma inc_lead N : N <> O -> length (inc N) = S (2 * N) /\ nth (2 * N) (inc N) 0%Z <> 0%Z.
Proof.
  intros HN. destruct (LD_defint N HN) as [E1 E2]. split; [unfold inc; by rewrite fmap_length|]. rewrite inc_nth.
  destruct (defint_ints N (2 * N) HN) as [z Hz]. rewrite (int_of_eq _ _ Hz). intros ->. apply E2. rewrite Hz. reflexivity.
Qed.
(** ** the number of roots *)
Local Open Scope fld_scope.
Definition cl (l : list Z) : list C_fld := (fun z => cre (IZR z)) <$> l.
Lemma evC_F l s : evC l s = evF (cl l) s. Proof. induction l as [|z l IH]; [done|]. rewrite evC_cons, IH. done. Qed.
Lemma flip_nth l : forall o i, nth i (flip o l) 0%Z = nth i l 0%Z \/ nth i (flip o l) 0%Z = (- nth i l 0)%Z.
Proof.
  induction l as [|z l IH]; intros o i; [left; by destruct i|]. rewrite flip_cons. destruct i as [|i]; cbn [nth]; [|apply IH].
  destruct (decide (Nat.modulo o 4 = 2%nat)); [by right|by left].
Qed.
Lemma apinc_lead N : N <> O -> length (apinc N) = S (2 * N) /\ nth (2 * N) (apinc N) 0%Z <> 0%Z.
Proof.
  intros HN. destruct (inc_lead N HN) as [E1 E2]. unfold apinc. destruct (inc N) as [|z r]; [done|]. split.
  - unfold flip. rewrite imap_length. done.
  - destruct (flip_nth (1%Z :: r) 0 (2 * N)) as [E|E]; rewrite E; destruct (2 * N)%nat as [|n] eqn:En; try lia; cbn [nth] in *; lia.
Qed.
Lemma fadd_nth (p : list C_fld) : forall q i, nth i (fadd C_fld p q) 0 = nth i p 0 + nth i q 0.
Proof. induction p as [|a p IH]; intros [|b q] [|i]; cbn [fadd nth]; try ring. apply IH. Qed.
Lemma fscale_nth c (p : list C_fld) : forall i, nth i (fscale C_fld c p) 0 = c * nth i p 0.
Proof. unfold fscale. induction p as [|a p IH]; intros [|i]; cbn [fmap list_fmap nth]; try ring. apply IH. Qed.
Lemma expand_top (l : list C_fld) : nth (length l) (expand C_fld l) 0 = 1 /\ forall i, (length l < i)%nat -> nth i (expand C_fld l) 0 = 0.
Proof.
  induction l as [|r l [I1 I2]]; cbn [length expand].
  - split; [done|]. intros [|[|i]] H; [lia|done|done].
  - split; [|intros [|i] H; [lia|]]; rewrite fadd_nth, fscale_nth; cbn [nth].
    + rewrite I1, I2 by lia. ring.
    + rewrite !I2 by lia. ring.
Qed.
Lemma unique_C (p q : list C_fld) : (forall x, evF p x = evF q x) -> forall i, nth i p 0 = nth i q 0.
Proof.
  intros H i. assert (Forall (fun c => c = 0) (fadd C_fld p (fscale C_fld (- (1)) q))) as Hz.
  { apply (vanish C_fld inf_C (length (fadd C_fld p (fscale C_fld (- (1)) q))) _ []); [done|]. intros y _. rewrite evF_add, evF_scale, (H y). ring. }
  assert (nth i (fadd C_fld p (fscale C_fld (- (1)) q)) 0 = 0) as E.
  { clear -Hz. revert i. induction Hz as [|c l -> Hl IH]; intros [|i]; cbn [nth]; try done. }
  rewrite fadd_nth, fscale_nth in E. transitivity (nth i p 0 + - (1) * nth i q 0 + nth i q 0); [ring|]. rewrite E. ring.
Qed.
Lemma cl_nth l i : nth i (cl l) 0 = cre (IZR (nth i l 0%Z)).
Proof. revert i. induction l as [|z l IH]; intros [|i]; try done. apply IH. Qed.
Lemma roots_count N l : N <> O -> roots_of (ap N) l -> length l = (2 * N)%nat.
Proof.
  intros HN Hl. destruct (ap_roots N l HN Hl) as (k & Hk & H). destruct (apinc_lead N HN) as [E1 E2].
  assert (forall i, nth i (cl (apinc N)) 0 = k * nth i (expand C_fld l) 0) as Hc.
  { intros i. rewrite <- fscale_nth. apply unique_C. intros x. rewrite <- evC_F, H, evF_scale, expand_ev. done. }
  destruct (expand_top l) as [T1 T2]. destruct (lt_eq_lt_dec (length l) (2 * N)) as [[Hlt|Heq]|Hgt]; [|done|].
  - exfalso. pose proof (Hc (2 * N)%nat) as E. rewrite T2, cl_nth in E by done. apply (f_equal fst) in E. simpl in E.
    apply E2. apply eq_IZR. simpl. lra.
  - exfalso. pose proof (Hc (length l)) as E. rewrite T1, cl_nth, nth_overflow in E by lia. apply Hk. transitivity (k * 1); [ring|]. rewrite <- E. done.
Qed.
Lemma split_len (l : list C_fld) : (forall r : C_fld, r ∈ l -> r.1 <> 0%R) -> length l = (length (lefts l) + length (rights l))%nat.
Proof.
  induction l as [|r l IH]; intros H; [done|]. rewrite lefts_cons, rights_cons. cbn [length]. rewrite IH by (intros r' Hr; apply H; by right).
  pose proof (H r (elem_of_list_here _ _)) as H0. destruct (Rlt_dec r.1 0), (Rlt_dec 0 r.1); cbn [length]; try lra; lia.
Qed.
Lemma poles_count roots N : let c := negate_back (set_last (optimum_poly N)) in roots_of c (roots c) -> length (t_p (legendreap roots N)) = N.
Proof.
  intros c Hl. unfold legendreap. cbv zeta. cbn [t_p]. fold c. destruct (decide (N = O)) as [->|HN].
  - destruct Hl as [a Ha]. assert (roots c = []) as ->; [|done].
    destruct (roots c) as [|r l]; [done|]. exfalso. pose proof (Ha r) as Hr. rewrite product_pr, pr_cons in Hr. apply (f_equal fst) in Hr. simpl in Hr. lra.
  - pose proof (roots_count N _ HN Hl) as E. rewrite split_len in E by (intros r; by apply (ap_axis N)).
    assert (length (rights (roots c)) = length (lefts (roots c))) as E2.
    { transitivity (length (rights (mir <$> roots c))); [apply Permutation_length, rights_perm; by apply (ap_mir N)|]. by rewrite lefts_mir, fmap_length. }
    unfold c in *. fold (ap N) in *. lia.
Qed.
(** ** conjugate poles and the gain *)
Lemma conj_pr s (l : list C_fld) : pr (cconj s) (cconj <$> l) = cconj (pr s l).
Proof. induction l as [|r l IH]; [apply ceq; simpl; ring|]. by rewrite fmap_cons, !pr_cons, IH, conj_mul', conj_sub'. Qed.
Lemma conj_conj (s : C_fld) : cconj (cconj s) = s. Proof. apply ceq; simpl; ring. Qed.
Lemma ap_closed N l : N <> O -> roots_of (ap N) l -> l ≡ₚ cconj <$> l.
Proof.
  intros HN Hl. destruct (ap_roots N l HN Hl) as (k & Hk & H).
  apply (factors_unique C_fld inf_C l (cconj <$> l) k (cconj k) Hk). intros x. change (k * pr x l = cconj k * pr x (cconj <$> l)).
  pose proof (evC_conj (apinc N) (cconj x)) as E. rewrite conj_conj, !H, conj_mul', <- conj_pr, conj_conj in E. exact E.
Qed.
Lemma lefts_conj (l : list C_fld) : lefts (cconj <$> l) = cconj <$> lefts l.
Proof. induction l as [|r l IH]; [done|]. rewrite fmap_cons, !lefts_cons, IH. replace (cconj r).1 with r.1 by done. by destruct (Rlt_dec r.1 0). Qed.
Lemma lefts_closed N l : N <> O -> roots_of (ap N) l -> closed (lefts l).
Proof. intros HN Hl. unfold closed. rewrite <- lefts_conj. unfold lefts. by rewrite <- (ap_closed N l HN Hl). Qed.
Lemma closed_pos n : forall l : list C_fld, (length l <= n)%nat -> closed l -> (forall r : C_fld, r ∈ l -> (r.1 < 0)%R) -> exists x, (0 < x)%R /\ pr 0 l = cre x.
Proof.
  induction n as [|n IH]; intros [|r l] Hn Hc Hr; try (cbn [length] in Hn; lia); try (exists 1%R; split; [lra|done]).
  pose proof (Hr r (elem_of_list_here _ _)) as H0. destruct (Req_dec r.2 0) as [E|E].
  - assert (cconj r = r) as Er by (apply ceq; simpl; rewrite ?E; ring). unfold closed in Hc. rewrite fmap_cons, Er in Hc. apply Permutation_cons_inv in Hc.
    destruct (IH l) as (x & Hx & Ex); [cbn [length] in Hn; lia|done|intros r' Hr'; apply Hr; by right|].
    exists (- r.1 * x)%R. split; [nra|]. rewrite pr_cons, Ex. apply ceq; simpl; rewrite ?E; ring.
  - assert (cconj r ∈ l) as Hin.
    { assert (cconj r ∈ r :: l) as H1 by (rewrite <- Hc; apply elem_of_list_fmap; exists r; split; [done|apply elem_of_list_here]).
      apply elem_of_cons in H1 as [H1|H1]; [|done]. apply (f_equal snd) in H1. simpl in H1. lra. }
    apply elem_of_Permutation in Hin as [l' El].
    destruct (IH l') as (x & Hx & Ex).
    + apply Permutation_length in El. cbn [length] in *. lia.
    + unfold closed in Hc. rewrite El in Hc. rewrite !fmap_cons, conj_conj in Hc.
      rewrite (Permutation_swap r (cconj r)) in Hc. by apply Permutation_cons_inv, Permutation_cons_inv in Hc.
    + intros r' Hr'. apply Hr. right. rewrite El. by right.
    + exists (csq r * x)%R. split.
      * apply Rmult_lt_0_compat; [|done]. apply csq_pos. intros ->. simpl in H0. lra.
      * rewrite pr_cons. assert (pr 0 l = pr 0 (cconj r :: l')) as -> by (apply fprod_perm, El). rewrite pr_cons, Ex. unfold csq. apply ceq; simpl; ring.
Qed.
Lemma abs_prod_pos (p : list C_fld) : exists y, (0 <= y)%R /\ foldr (fun r acc => (C_abs r : C_fld) * acc) 1 p = cre y.
Proof.
  induction p as [|r p (y & Hy & E)]; [exists 1%R; split; [lra|done]|]. exists (R_sqrt.sqrt (C_sq r) * y)%R. split; [apply Rmult_le_pos; [apply sqrt_pos|done]|].
  cbn [foldr]. rewrite E. apply ceq; simpl; ring.
Qed.
Lemma good_dc roots N : let c := negate_back (set_last (optimum_poly N)) in roots_of c (roots c) ->
  good (legendreap roots N) /\ transfer (legendreap roots N) 0 = 1.
Proof.
  intros c Hl. set (p := lefts (roots c)).
  assert (closed p) as Hc.
  { destruct (decide (N = O)) as [->|HN]; [|by apply (lefts_closed N)].
    pose proof (poles_count roots 0 Hl) as E. unfold legendreap in E. cbv zeta in E. cbn [t_p] in E. fold c p in E. destruct p; [apply closed_nil|done]. }
  assert (forall r : C_fld, r ∈ p -> (r.1 < 0)%R) as Hn by (intros r; apply left_neg).
  destruct (closed_pos (length p) p) as (x & Hx & Ex); [done|done|done|].
  destruct (abs_prod_pos p) as (y & Hy & Ey). 
  assert (y = x) as ->.
  { pose proof (gain_csq p) as E. rewrite Ey in E. assert (ci * cre 0 = 0) as E0 by (apply ceq; simpl; ring). rewrite E0, Ex in E. unfold csq in E. simpl in E. nra. }
  unfold good, real_filter, legendreap. cbv zeta. cbn [t_z t_p t_k]. fold c p. rewrite Ey. split; [split; [|split]|].
  - split; [apply closed_nil|]. split; [done|]. apply cconj_cre.
  - intros E. apply (f_equal fst) in E. simpl in E. lra.
  - done.
  - rewrite transfer_eq. cbn [t_z t_p t_k]. rewrite Ex. unfold pr. cbn [fprod foldr]. field. intros E. apply (f_equal fst) in E. simpl in E. lra.
Qed.
