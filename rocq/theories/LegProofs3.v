(** Proofs for LegModel: the values of the lists, and the roots. *)
From Coq Require Import Reals QArith Qreals Lra Lia.
From stdpp Require Import base tactics list numbers.
From Verif Require Import Fld Py Herm OptModel OptRot SigModel SigSpec SigProofs ZpkModel ZpkSpec ZpkProofs LegModel LegSpec LegProofs LegProofs2.
Add Field FFl3 : (f_theory C_fld).

(** ** unique factors *)
Section factors.
  Context (K : fld) (inf : forall E : list K, exists x, x ∉ E).
  Local Open Scope fld_scope.
  Add Field FFl4 : (f_theory K).
  Fixpoint fadd (p q : list K) : list K := match p, q with [], _ => q | _, [] => p | a :: p', b :: q' => a + b :: fadd p' q' end.
  Lemma evF_add p : forall q x, evF (fadd p q) x = evF p x + evF q x.
  Proof. induction p as [|a p IH]; intros [|b q] x; cbn [fadd]; rewrite ?evF_cons; try (unfold evF; simpl; ring). rewrite IH. ring. Qed.
  Definition fscale (c : K) (p : list K) : list K := (fun a => c * a) <$> p.
  Lemma evF_scale c p x : evF (fscale c p) x = c * evF p x.
  Proof. induction p as [|a p IH]; [unfold evF; simpl; ring|]. unfold fscale in *. rewrite fmap_cons, !evF_cons, IH. ring. Qed.
  Lemma evF_ext (p q E : list K) : (forall x, x ∉ E -> evF p x = evF q x) -> forall x, evF p x = evF q x.
  Proof.
    intros H x. assert (Forall (fun c => c = 0) (fadd p (fscale (- (1)) q))) as Hz.
    { apply (vanish K inf (length (fadd p (fscale (- (1)) q))) _ E); [done|]. intros y Hy. rewrite evF_add, evF_scale, (H y Hy). ring. }
    apply (evF_zero K _ x) in Hz. rewrite evF_add, evF_scale in Hz. transitivity (evF p x + - (1) * evF q x + evF q x); [ring|]. rewrite Hz. ring.
  Qed.
  Definition prd (l : list K) (x : K) : K := fprod (fun r => x - r) l.
  Fixpoint expand (l : list K) : list K := match l with [] => [1] | r :: l' => fadd (0 :: expand l') (fscale (- r) (expand l')) end.
  Lemma expand_ev l x : evF (expand l) x = prd l x.
  Proof.
    induction l as [|r l IH]; [unfold evF, prd; simpl; ring|]. cbn [expand]. rewrite evF_add, evF_scale, evF_cons, IH.
    unfold prd. cbn [fprod foldr]. fold (fprod (fun r => x - r) l). ring.
  Qed.
  Lemma prd_cons r l x : prd (r :: l) x = (x - r) * prd l x. Proof. done. Qed.
  Lemma prd_neq_0 (l : list K) x : x ∉ l -> prd l x <> 0.
  Proof.
    intros Hs E. apply fprod_0 in E as (r & Hr & E). apply Hs. replace x with r; [done|]. transitivity (r + (x - r)); [rewrite E; ring|ring].
  Qed.
  Lemma factors_unique (l : list K) : forall (l' : list K) (c c' : K), c <> 0 -> (forall x, c * prd l x = c' * prd l' x) -> l ≡ₚ l'.
  Proof.
    induction l as [|r l IH]; intros l' c c' Hc H.
    - destruct l' as [|r' l']; [done|]. exfalso. apply Hc. pose proof (H r') as E. rewrite prd_cons in E. change (prd [] r') with (1 : K) in E.
      transitivity (c * 1); [ring|]. rewrite E. ring.
    - assert (r ∈ l') as Hr.
      { assert (c' <> 0) as Hc'.
        { intros ->. destruct (inf (r :: l)) as [x Hx]. apply (prd_neq_0 _ _ Hx). pose proof (H x) as E.
          destruct (fmul_integral c (prd (r :: l) x)) as [E0|E0]; [rewrite E; ring|done|done]. }
        pose proof (H r) as E. rewrite prd_cons in E.
        assert (c' * prd l' r = 0) as E' by (rewrite <- E; ring). apply fmul_integral in E' as [E'|E']; [done|].
        unfold prd in E'. apply fprod_0 in E' as (r' & Hr' & E'). replace r with r'; [done|]. transitivity (r' + (r - r')); [rewrite E'; ring|ring]. }
      apply elem_of_Permutation in Hr as [l'' El]. rewrite El. f_equiv. apply (IH l'' c c' Hc).
      intros x. rewrite <- !expand_ev, <- !evF_scale. revert x. apply (evF_ext _ _ [r]). intros x Hx%not_elem_of_cons. destruct Hx as [Hx _].
      rewrite !evF_scale, !expand_ev. pose proof (H x) as E.
      assert (prd l' x = prd (r :: l'') x) as E' by (apply fprod_perm, El). rewrite E', !prd_cons in E.
      assert ((x - r) * (c * prd l x - c' * prd l'' x) = 0) as E0.
      { transitivity (c * ((x - r) * prd l x) - c' * ((x - r) * prd l'' x)); [ring|]. rewrite E. ring. }
      apply fmul_integral in E0 as [E0|E0].
      + exfalso. apply Hx. transitivity (x - r + r); [ring|]. rewrite E0. ring.
      + transitivity (c * prd l x - c' * prd l'' x + c' * prd l'' x); [ring|]. rewrite E0. ring.
  Qed.
End factors.
Lemma inf_C (E : list C_fld) : exists x, x ∉ E.
Proof.
  destruct (inf_R ((fun z : C_fld => z.1) <$> E)) as [x Hx]. exists (cre x). intros H. apply Hx. apply elem_of_list_fmap. by exists (cre x).
Qed.

(** ** lists of integers, the lowest power first *)
Definition evC (l : list Z) (s : C_fld) : C_fld := foldr (fun z acc => (cre (IZR z) + s * acc)%F) 0%F l.
Definition evZ (l : list Z) (w : R) : R := foldr (fun z acc => (IZR z + w * acc)%R) 0%R l.
Lemma value_rev l w : value (rev l) w = evZ l w.
Proof. unfold value, evZ. induction l as [|z l IH]; [done|]. cbn [rev foldr]. rewrite foldl_app, IH. cbn [foldl]. ring. Qed.
Lemma cvalue_rev l s : cvalue (rev l) s = evC l s.
Proof. unfold cvalue, evC. induction l as [|z l IH]; [done|]. cbn [rev foldr]. rewrite foldl_app, IH. cbn [foldl]. ring. Qed.
Lemma evC_cons z l s : evC (z :: l) s = (cre (IZR z) + s * evC l s)%F. Proof. done. Qed.
Lemma evZ_cons z l w : evZ (z :: l) w = (IZR z + w * evZ l w)%R. Proof. done. Qed.
Lemma cre_add a b : cre (a + b)%R = (cre a + cre b)%F. Proof. apply pair_eq_iff. simpl. split; ring. Qed.
Lemma cre_mul a b : cre (a * b)%R = (cre a * cre b)%F. Proof. apply pair_eq_iff. simpl. split; ring. Qed.
Lemma cconj_cre a : cconj (cre a) = cre a. Proof. apply pair_eq_iff. simpl. split; ring. Qed.
Lemma evC_conj l s : evC l (cconj s) = cconj (evC l s).
Proof.
  induction l as [|z l IH]; [apply pair_eq_iff; simpl; split; ring|]. rewrite !evC_cons, IH. unfold cconj.
  change (C_conj (cre (IZR z) + s * evC l s)%F) with (h_conj C_herm (cre (IZR z) + s * evC l s)%F). rewrite (h_conj_add C_fld C_herm), (h_conj_mul C_fld C_herm).
  f_equal. symmetry. apply (cconj_cre (IZR z)).
Qed.
(** every power of the other parity is absent *)
Definition onlyp (b : bool) (l : list Z) : Prop := forall i, Nat.even i = b -> nth i l 0%Z = 0%Z.
Lemma onlyp_cons b z l : onlyp b (z :: l) -> onlyp (negb b) l.
Proof. intros H i Hi. apply (H (S i)). rewrite Nat.even_succ, <- Nat.negb_even, Hi. by destruct b. Qed.
Lemma evC_par l : forall b s, onlyp b l -> evC l (- s)%F = (if b then - evC l s else evC l s)%F.
Proof.
  induction l as [|z l IH]; intros b s H; [destruct b; cbn; apply pair_eq_iff; simpl; split; ring|].
  rewrite !evC_cons, (IH _ s (onlyp_cons _ _ _ H)). destruct b; cbn [negb].
  - pose proof (H O eq_refl) as E. simpl in E. subst z. change (cre (IZR 0)) with (0 : C_fld)%F. ring.
  - ring.
Qed.
(** the powers of i with the signs changed *)
Definition flip (o : nat) (l : list Z) : list Z := imap (fun i x => if decide (Nat.modulo (i + o) 4 = 2%nat) then (- x)%Z else x) l.
Fixpoint ipow (o : nat) : C_fld := match o with O => 1%F | S p => (ci * ipow p)%F end.
Lemma ci2 : (ci * ci)%F = (- (1) : C_fld)%F. Proof. apply pair_eq_iff. simpl. split; ring. Qed.
Lemma ipow_even q : ipow (2 * q) = (if Nat.even q then 1 else - (1) : C_fld)%F.
Proof.
  induction q as [|q IH]; [done|]. replace (2 * S q)%nat with (S (S (2 * q))) by lia. cbn [ipow]. rewrite IH, Nat.even_succ, <- Nat.negb_even.
  transitivity (ci * ci * (if Nat.even q then 1 else - (1)))%F; [ring|]. rewrite ci2. destruct (Nat.even q); cbn [negb]; ring.
Qed.
Lemma mod4_even q : Nat.modulo (2 * q) 4 = 2%nat <-> Nat.even q = false.
Proof.
  change 4%nat with (2 * 2)%nat. rewrite Nat.mul_mod_distr_l by lia. destruct (Nat.even q) eqn:E.
  - apply Nat.even_spec in E as [m ->]. rewrite (Nat.mul_comm 2 m), Nat.mod_mul by lia. split; [lia|done].
  - assert (Nat.odd q = true) as E' by (rewrite <- Nat.negb_even, E; done). apply Nat.odd_spec in E' as [m ->].
    rewrite (Nat.mul_comm 2 m), Nat.add_comm, Nat.mod_add by lia. done.
Qed.
Lemma flip_cons o z l : flip o (z :: l) = (if decide (Nat.modulo o 4 = 2%nat) then (- z)%Z else z) :: flip (S o) l.
Proof. unfold flip. rewrite imap_cons. f_equal. apply imap_ext. intros i x _. unfold compose. by replace (S i + o)%nat with (i + S o)%nat by lia. Qed.
Lemma flip_ev l : forall o w, onlyp (negb (Nat.even o)) l -> (ipow o * evC (flip o l) (ci * cre w))%F = cre (evZ l w).
Proof.
  induction l as [|z l IH]; intros o w H; [change (evC (flip o []) (ci * cre w)) with (0 : C_fld)%F; change (cre (evZ [] w)) with (0 : C_fld)%F; ring|].
  rewrite flip_cons, evC_cons, evZ_cons, cre_add, cre_mul. specialize (IH (S o) w).
  rewrite <- IH.
  2:{ apply onlyp_cons in H. by rewrite Nat.even_succ, <- Nat.negb_even. }
  assert ((ipow o * cre (IZR (if decide (Nat.modulo o 4 = 2%nat) then (- z)%Z else z)))%F = cre (IZR z)) as E.
  { destruct (Nat.even o) eqn:Eo; cbn [negb] in H.
    - apply Nat.even_spec in Eo as [q ->]. rewrite ipow_even. destruct (Nat.even q) eqn:Eq.
      + rewrite decide_False by (rewrite mod4_even, Eq; done). ring.
      + rewrite decide_True by (by apply mod4_even). rewrite opp_IZR. apply pair_eq_iff. simpl. split; ring.
    - pose proof (H O eq_refl) as Ez. simpl in Ez. subst z. change (- 0)%Z with 0%Z. destruct (decide _); change (cre (IZR 0)) with (0 : C_fld)%F; ring. }
  cbn [ipow]. transitivity (ipow o * cre (IZR (if decide (Nat.modulo o 4 = 2%nat) then (- z)%Z else z)) + cre w * (ci * ipow o * evC (flip (S o) l) (ci * cre w)))%F; [ring|].
  rewrite E. done.
Qed.
Lemma flip_par l : forall o b, onlyp b l -> onlyp b (flip o l).
Proof.
  induction l as [|z l IH]; intros o b H; [done|]. intros [|i] Hi.
  - rewrite flip_cons. simpl. pose proof (H O Hi) as E. simpl in E. subst z. by destruct (decide _).
  - rewrite flip_cons. simpl. apply (IH (S o) (negb b)); [by eapply onlyp_cons|]. rewrite Nat.even_succ, <- Nat.negb_even in Hi. destruct (Nat.even i), b; done.
Qed.

(** ** the list optimum_poly returns *)
Definition inc (N : nat) : list Z := int_of <$> defint N.
Lemma int_of_eq q z : (q == inject_Z z)%Q -> int_of q = z.
Proof. unfold Qeq, int_of, inject_Z. simpl. intros E. rewrite Z.mul_1_r in E. rewrite E. apply Z.quot_mul. lia. Qed.
Lemma inc_nth N i : nth i (inc N) 0%Z = int_of (coef (defint N) i).
Proof. unfold inc, coef. rewrite <- (map_nth int_of). done. Qed.
Lemma inc_par N : N <> O -> onlyp false (inc N).
Proof. intros HN i Hi. rewrite inc_nth. apply int_of_eq. by apply defint_odd0. Qed.
Lemma inc_ev N w : N <> O -> evZ (inc N) w = evR (defint N) w.
Proof.
  intros HN. assert (forall i, isint (coef (defint N) i)) as H by (intros i; by apply defint_ints). unfold inc. revert H. generalize (defint N) as p.
  induction p as [|c p IH]; intros H; [done|]. rewrite fmap_cons, evZ_cons, ev_cons, IH; [|intros i; apply (H (S i))].
  f_equal. destruct (H O) as [z Hz]. simpl in Hz. unfold coef in Hz. simpl in Hz. rewrite (int_of_eq _ _ Hz). rewrite (Qeq_eqR _ _ Hz). by rewrite Q2R_Z.
Qed.
Lemma opt_inc N : N <> O -> optimum_poly N = rev (inc N). Proof. by destruct N. Qed.
Lemma opt_value N w : N <> O -> value (optimum_poly N) w = evR (defint N) w.
Proof. intros HN. by rewrite opt_inc, value_rev, inc_ev. Qed.

(** values *)
Local Open Scope R_scope.
Lemma opt_0 N : value (optimum_poly N) 0 = 0.
Proof.
  destruct (decide (N = O)) as [->|HN]; [unfold value; simpl; ring|]. rewrite opt_value by done. rewrite defint_ev.
  replace (2 * (0 * 0) - 1) with (-1) by ring. ring.
Qed.
Lemma opt_1 N : N <> O -> value (optimum_poly N) 1 = 1.
Proof.
  intros HN. rewrite opt_value by done. destruct (parity N HN) as [k [->| ->]].
  - rewrite value_odd. cbv zeta. replace (2 * (1 * 1) - 1) with 1 by ring. rewrite !L_1. ring.
  - rewrite value_even. cbv zeta. replace (2 * (1 * 1) - 1) with 1 by ring. rewrite !L_1. unfold Rdiv. ring.
Qed.
Lemma opt_even N w : value (optimum_poly N) (- w) = value (optimum_poly N) w.
Proof. destruct (decide (N = O)) as [->|HN]; [unfold value; simpl; ring|]. rewrite !opt_value by done. apply defint_even. Qed.
Definition intg (N : nat) (x : R) : R := evR (integrand N) x.
Lemma opt_drv N : N <> O -> drv (value (optimum_poly N)) (fun w => 4 * w * intg N (2 * (w * w) - 1)).
Proof.
  intros HN. assert (drv (fun w => 2 * (w * w) - 1) (fun w => 4 * w)) as Hl.
  { eapply drv_ext; [apply (drv_add _ _ _ _ (drv_scal 2 _ _ (drv_mul _ _ _ _ drv_id drv_id)) (drv_const (-1)))| |]; intros z; simpl; ring. }
  eapply drv_ext; [apply (drv_add _ _ _ _ (drv_comp _ _ _ _ (polyint_drv (integrand N)) Hl) (drv_const (- evR (polyint (integrand N)) (-1))))| |]; intros w; cbv beta.
  - rewrite opt_value, defint_ev by done. ring.
  - unfold intg. ring.
Qed.
Lemma intg_pos N x : N <> O -> -1 <= x -> 0 <= intg N x.
Proof.
  intros HN Hx. unfold intg. destruct (parity N HN) as [k [->| ->]].
  - rewrite integrand_odd. set (v := V k x / (INR k + 1)). pose proof (Rle_0_sqr v). unfold Rsqr in *. lra.
  - rewrite integrand_even. pose proof (pos_INR k). set (d := D (S k) x). pose proof (Rle_0_sqr d) as Hs. unfold Rsqr in Hs.
    apply Rmult_le_pos; [apply Rmult_le_pos; lra|]. apply Rlt_le, Rinv_0_lt_compat. apply Rmult_lt_0_compat; lra.
Qed.
Lemma opt_mono N w1 w2 : 0 <= w1 -> w1 <= w2 -> value (optimum_poly N) w1 <= value (optimum_poly N) w2.
Proof.
  intros H1 H2. destruct (decide (N = O)) as [->|HN]; [unfold value; simpl; lra|].
  destruct (Req_dec w1 w2) as [->|Hne]; [lra|].
  destruct (MVT_cor2 (value (optimum_poly N)) (fun w => 4 * w * intg N (2 * (w * w) - 1)) w1 w2) as (c & Ec & Hc); [lra|intros c _; by apply opt_drv|].
  assert (0 <= 4 * c * intg N (2 * (c * c) - 1)) as Hp. { apply Rmult_le_pos; [lra|]. apply intg_pos; [done|]. nra. }
  assert (0 <= value (optimum_poly N) w2 - value (optimum_poly N) w1); [|lra]. rewrite Ec. apply Rmult_le_pos; [done|lra].
Qed.
Lemma opt_pos N w : 0 <= value (optimum_poly N) w.
Proof.
  destruct (Rle_dec 0 w) as [Hw|Hw]; [rewrite <- (opt_0 N); by apply opt_mono; [lra|]|].
  rewrite <- opt_even, <- (opt_0 N). apply opt_mono; lra.
Qed.

(** ** the polynomial whose roots are taken *)
Definition ap (N : nat) : list Z := negate_back (set_last (optimum_poly N)).
Definition apinc (N : nat) : list Z := match inc N with [] => [] | _ :: r => flip 0 (1%Z :: r) end.
Lemma ap_inc N : N <> O -> ap N = rev (apinc N).
Proof.
  intros HN. unfold ap, set_last, apinc. rewrite opt_inc, rev_involutive by done. destruct (inc N) as [|z r]; [done|].
  unfold negate_back. rewrite rev_involutive. f_equal. unfold flip. apply imap_ext. intros i x _. by rewrite Nat.add_0_r.
Qed.
Lemma defint_ne N : exists z r, inc N = z :: r.
Proof.
  unfold inc, defint. cbv zeta. destruct (pcomp (polyint (integrand N)) [(- (1))%Q; 0%Q; 2%Q]); cbn [padd fmap list_fmap]; eauto.
Qed.
Lemma apinc_par N : N <> O -> onlyp false (apinc N).
Proof.
  intros HN. unfold apinc. pose proof (inc_par N HN) as H. destruct (inc N) as [|z r]; [done|]. apply flip_par.
  intros [|i] Hi; [done|]. apply (H (S i) Hi).
Qed.
Lemma apinc_ev N w : N <> O -> evC (apinc N) (ci * cre w)%F = cre (1 + value (optimum_poly N) w).
Proof.
  intros HN. unfold apinc. pose proof (inc_par N HN) as H. pose proof (inc_ev N 0 HN) as E0. pose proof (opt_value N w HN) as Ev. rewrite <- (inc_ev N w HN) in Ev.
  rewrite <- opt_value, opt_0 in E0 by done.
  destruct (defint_ne N) as (z & r & E). rewrite E in *. rewrite evZ_cons in E0. assert (IZR z = 0) as Ez by lra.
  pose proof (flip_ev (1%Z :: r) 0 w) as F0. cbn [ipow] in F0. 
  transitivity (1 * evC (flip 0 (1%Z :: r)) (ci * cre w))%F; [ring|]. rewrite F0.
  - rewrite Ev, !evZ_cons, Ez. f_equal. ring.
  - intros [|i] Hi; [done|]. apply (H (S i) Hi).
Qed.
Lemma apinc_sym N s : N <> O -> evC (apinc N) (- cconj s)%F = cconj (evC (apinc N) s).
Proof. intros HN. rewrite (evC_par _ _ _ (apinc_par N HN)). apply evC_conj. Qed.

(** ** the poles *)
Local Open Scope fld_scope.
Lemma ceq (a b : C_fld) : a.1 = b.1 -> a.2 = b.2 -> a = b. Proof. destruct a, b. simpl. by intros -> ->. Qed.
Definition mir (r : C_fld) : C_fld := - cconj r.
Lemma conj_sub' (a b : C_fld) : cconj (a - b) = cconj a - cconj b. Proof. apply ceq; simpl; ring. Qed.
Lemma conj_mul' (a b : C_fld) : cconj (a * b) = cconj a * cconj b. Proof. apply ceq; simpl; ring. Qed.
Lemma mir_mir r : mir (mir r) = r. Proof. apply ceq; simpl; ring. Qed.
Definition msign (l : list C_fld) : C_fld := foldr (fun _ v => - v) 1 l.
Lemma msign_sq l : msign l * msign l = 1.
Proof. induction l as [|r l IH]; [apply ceq; simpl; ring|]. cbn [msign foldr]. fold (msign l). transitivity (msign l * msign l); [ring|done]. Qed.
Lemma pr_cons s r (l : list C_fld) : pr s (r :: l) = (s - r) * pr s l. Proof. done. Qed.
Lemma pr_mir s (l : list C_fld) : pr (mir s) (mir <$> l) = msign l * cconj (pr s l).
Proof.
  induction l as [|r l IH]; [apply ceq; simpl; ring|]. rewrite fmap_cons, !pr_cons, IH, conj_mul', conj_sub'.
  cbn [msign foldr]. fold (msign l). unfold mir. ring.
Qed.
Definition rights (l : list C_fld) : list C_fld := filter (fun r : C_fld => Is_true (if Rlt_dec 0 r.1 then true else false)) l.
Lemma lefts_cons (r : C_fld) (l : list C_fld) : lefts (r :: l) = if Rlt_dec r.1 0 then r :: lefts l else lefts l.
Proof. unfold lefts. rewrite filter_cons. destruct (Rlt_dec r.1 0); [by rewrite decide_True by exact Logic.I|by rewrite decide_False by (intros [])]. Qed.
Lemma rights_cons (r : C_fld) (l : list C_fld) : rights (r :: l) = if Rlt_dec 0 r.1 then r :: rights l else rights l.
Proof. unfold rights. rewrite filter_cons. destruct (Rlt_dec 0 r.1); [by rewrite decide_True by exact Logic.I|by rewrite decide_False by (intros [])]. Qed.
Lemma split_pr s (l : list C_fld) : (forall r : C_fld, r ∈ l -> r.1 <> 0%R) -> pr s l = pr s (lefts l) * pr s (rights l).
Proof.
  induction l as [|r l IH]; intros H; [apply ceq; simpl; ring|].
  rewrite lefts_cons, rights_cons, pr_cons, IH by (intros r' Hr; apply H; by right).
  pose proof (H r (elem_of_list_here _ _)) as H0.
  destruct (Rlt_dec r.1 0) as [H1|H1].
  - destruct (Rlt_dec 0 r.1) as [H2|H2]; [lra|]. rewrite pr_cons. ring.
  - destruct (Rlt_dec 0 r.1) as [H2|H2]; [|lra]. rewrite pr_cons. ring.
Qed.
Lemma lefts_mir (l : list C_fld) : rights (mir <$> l) = mir <$> lefts l.
Proof.
  induction l as [|r l IH]; [done|]. rewrite fmap_cons, lefts_cons, rights_cons, IH.
  replace (mir r).1 with (- r.1)%R by (simpl; ring).
  destruct (Rlt_dec r.1 0), (Rlt_dec 0 (- r.1)); try lra; done.
Qed.
Lemma rights_perm (l l' : list C_fld) : l ≡ₚ l' -> rights l ≡ₚ rights l'. Proof. intros E. unfold rights. by rewrite E. Qed.
Lemma ap_roots N l : N <> O -> roots_of (ap N) l -> exists k : C_fld, k <> 0 /\ forall s, evC (apinc N) s = k * pr s l.
Proof.
  intros HN [k Hk]. assert (forall s, evC (apinc N) s = k * pr s l) as H by (intros s; rewrite <- cvalue_rev, <- ap_inc, Hk, product_pr; done).
  exists k. split; [|done]. intros ->. pose proof (apinc_ev N 0 HN) as E. rewrite H, opt_0 in E.
  apply (f_equal fst) in E. simpl in E. lra.
Qed.
Lemma ap_axis N l (r : C_fld) : N <> O -> roots_of (ap N) l -> r ∈ l -> r.1 <> 0%R.
Proof.
  intros HN Hl Hr Er. destruct (ap_roots N l HN Hl) as (k & Hk & H).
  assert (r = ci * cre r.2) as Ew by (apply ceq; simpl; rewrite ?Er; ring).
  pose proof (apinc_ev N r.2 HN) as E. rewrite <- Ew, H in E.
  assert (pr r l = 0) as E0. { apply fprod_0. exists r. split; [done|]. ring. }
  rewrite E0 in E. apply (f_equal fst) in E. simpl in E. pose proof (opt_pos N r.2). lra.
Qed.
Lemma ap_mir N l : N <> O -> roots_of (ap N) l -> l ≡ₚ mir <$> l.
Proof.
  intros HN Hl. destruct (ap_roots N l HN Hl) as (k & Hk & H).
  apply (factors_unique C_fld inf_C l (mir <$> l) k (cconj k * msign l) Hk). intros x. change (k * pr x l = cconj k * msign l * pr x (mir <$> l)).
  pose proof (apinc_sym N (mir x) HN) as E. fold (mir (mir x)) in E. rewrite mir_mir, !H, conj_mul' in E. rewrite E.
  pose proof (pr_mir (mir x) l) as E2. rewrite mir_mir in E2. rewrite E2.
  transitivity (cconj k * (msign l * msign l) * cconj (pr (mir x) l)); [rewrite msign_sq; ring|ring].
Qed.
Definition csq (x : C_fld) : R := (x.1 * x.1 + x.2 * x.2)%R.
Lemma csq_cre x : cre (csq x) = x * cconj x. Proof. apply ceq; unfold csq; simpl; ring. Qed.
Lemma mir_axis w : mir (ci * cre w) = ci * cre w. Proof. apply ceq; simpl; ring. Qed.
Lemma ap_square N l : N <> O -> roots_of (ap N) l -> exists k : C_fld, forall w, cre (1 + value (optimum_poly N) w) = k * cre (csq (pr (ci * cre w) (lefts l))).
Proof.
  intros HN Hl. destruct (ap_roots N l HN Hl) as (k & Hk & H). exists (k * msign (lefts l)). intros w.
  rewrite <- (apinc_ev N w HN), H, split_pr by (intros r; by apply (ap_axis N)).
  assert (pr (ci * cre w) (rights l) = msign (lefts l) * cconj (pr (ci * cre w) (lefts l))) as E.
  { rewrite <- pr_mir, mir_axis, <- lefts_mir. apply fprod_perm. apply rights_perm. by apply (ap_mir N). }
  rewrite E, csq_cre. ring.
Qed.
Lemma csq_mul x y : csq (x * y) = (csq x * csq y)%R. Proof. unfold csq. simpl. ring. Qed.
Lemma csq_pos x : x <> 0 -> (0 < csq x)%R.
Proof. intros H. pose proof (C_sq_pos x H) as E. unfold C_sq in E. unfold csq. lra. Qed.
Lemma csq_abs x : csq (C_abs x : C_fld) = csq x.
Proof. unfold csq, C_abs, C_sq. simpl. pose proof (Rle_0_sqr x.1). pose proof (Rle_0_sqr x.2). unfold Rsqr in *. rewrite sqrt_def; lra. Qed.
Lemma gain_csq (p : list C_fld) : csq (foldr (fun r acc => (C_abs r : C_fld) * acc) 1 p) = csq (pr (ci * cre 0) p).
Proof.
  assert (ci * cre 0 = 0) as -> by (apply ceq; simpl; ring).
  induction p as [|r p IH]; [done|]. cbn [foldr]. rewrite pr_cons, !csq_mul, IH, csq_abs. f_equal. unfold csq. simpl. ring.
Qed.
Lemma left_neg (l : list C_fld) (r : C_fld) : r ∈ lefts l -> (r.1 < 0)%R.
Proof. unfold lefts. intros [H _]%elem_of_list_filter. by destruct (Rlt_dec r.1 0). Qed.
Lemma axis_notin (l : list C_fld) w : ci * cre w ∉ lefts l.
Proof. intros H%left_neg. simpl in H. lra. Qed.
Lemma response_eq roots N : let c := negate_back (set_last (optimum_poly N)) in roots_of c (roots c) ->
  forall w, (response (legendreap roots N) w = / (1 + value (optimum_poly N) w))%R.
Proof.
  intros c Hl w. unfold response. cbv zeta. fold (csq (transfer (legendreap roots N) (ci * cre w))). rewrite transfer_eq.
  unfold legendreap. cbn [t_k t_z t_p]. fold c. set (p := lefts (roots c)) in *.
  set (k := foldr (fun r acc => (C_abs r : C_fld) * acc) 1 p).
  assert (pr (ci * cre w) p <> 0) as Hp by apply pr_neq_0, axis_notin.
  assert (csq (k * pr (ci * cre w) [] / pr (ci * cre w) p)%F * csq (pr (ci * cre w)%F p) = csq k)%R as E.
  { rewrite <- csq_mul. f_equal. unfold pr at 1. cbn [fprod foldr]. field. done. }
  pose proof (csq_pos _ Hp) as Hq.
  pose proof (opt_pos N w) as Hw.
  assert (csq (pr (ci * cre w)%F p) = csq k * (1 + value (optimum_poly N) w))%R as E2.
  { destruct (decide (N = O)) as [->|HN].
    - assert (value (optimum_poly 0) w = 0%R) as -> by (unfold value; simpl; ring).
      destruct Hl as [a Ha]. assert (roots c = []) as Er.
      { destruct (roots c) as [|r l]; [done|]. exfalso. pose proof (Ha r) as Hr. rewrite product_pr, pr_cons in Hr. apply (f_equal fst) in Hr. simpl in Hr. lra. }
      unfold k, p. rewrite Er. unfold csq. simpl. ring.
    - destruct (ap_square N _ HN Hl) as [a Ha]. fold p in Ha.
      unfold k. rewrite gain_csq. pose proof (Ha 0%R) as H0. pose proof (Ha w) as H1. rewrite opt_0 in H0.
      set (q0 := csq (pr (ci * cre 0) p)) in *. set (q1 := csq (pr (ci * cre w) p)) in *.
      assert (a.1 * q0 = 1)%R as A0. { apply (f_equal fst) in H0. simpl in H0. lra. }
      assert (a.1 * q1 = 1 + value (optimum_poly N) w)%R as A1. { apply (f_equal fst) in H1. simpl in H1. lra. }
      rewrite <- A1. transitivity (a.1 * q0 * q1)%R; [rewrite A0; ring|ring]. }
  rewrite E2 in E. rewrite E2 in Hq.
  assert (csq k <> 0)%R as Hk by (intros Ek; rewrite Ek in Hq; lra).
  apply (Rmult_eq_reg_r (csq k * (1 + value (optimum_poly N) w))%R); [|lra]. rewrite E. field. lra.
Qed.
