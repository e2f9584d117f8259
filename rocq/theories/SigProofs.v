(** Proofs about the signal elements. *)
From stdpp Require Import base tactics list numbers gmap fin_sets.
From Coq Require Import Reals Lra.
From Verif Require Import Fld Py Herm ElecModel ElecSpec ElecProofs InjModel InjSpec InjProofs OptModel OptSpec OptProofs OptRot SigModel SigSpec.
Local Open Scope fld_scope.
Add Field FFc : (f_theory C_fld).

Lemma ci_sq : ci * ci = - (1).
Proof. unfold ci. simpl. unfold C_mul, C_opp, C_i. simpl. f_equal; ring. Qed.
Lemma ci_neq_0 : ci <> 0.
Proof. intros H. pose proof ci_sq as H2. rewrite H in H2. assert ((1 : C_fld) = 0) as E; [|by apply (f1_neq_0 (K := C_fld)) in E].
  transitivity (- (- (1)) : C_fld); [ring|]. rewrite <- H2. ring. Qed.
Lemma nci_neq_0 : - ci <> 0.
Proof. intros H. apply ci_neq_0. transitivity (- - ci); [ring|]. rewrite H. ring. Qed.
Lemma cconj_ci : cconj ci = - ci.
Proof. unfold cconj, ci, C_conj, C_i. simpl. unfold C_opp. simpl. f_equal; ring. Qed.
Lemma cconj_cre x : cconj (cre x) = cre x.
Proof. exact (conj_cr x). Qed.
Lemma cconj_add x y : cconj (x + y) = cconj x + cconj y. Proof. exact (h_conj_add C_fld C_herm x y). Qed.
Lemma cconj_mul x y : cconj (x * y) = cconj x * cconj y. Proof. exact (h_conj_mul C_fld C_herm x y). Qed.
Lemma cconj_sub x y : cconj (x - y) = cconj x - cconj y. Proof. exact (conj_sub C_herm x y). Qed.
Lemma cconj_1 : cconj 1 = 1. Proof. exact (conj_1 C_herm). Qed.
Lemma cconj_div x y : y <> 0 -> cconj (x / y) = cconj x / cconj y. Proof. exact (conj_div C_herm x y). Qed.
Lemma cconj_conj x : cconj (cconj x) = x. Proof. exact (h_conj_conj C_fld C_herm x). Qed.
Lemma cconj_neq_0 x : x <> 0 -> cconj x <> 0. Proof. exact (conj_neq_0 C_herm x). Qed.
Lemma cre_opp x : cre (- x) = - cre x. Proof. exact (cr_opp x). Qed.
Lemma cre_mul x y : cre (x * y) = cre x * cre y. Proof. exact (cr_mul x y). Qed.
Lemma cre_add x y : cre (x + y) = cre x + cre y. Proof. exact (cr_add x y). Qed.
Lemma cre_0 : cre 0 = 0. Proof. done. Qed.
Lemma cre_1 : cre 1 = 1. Proof. done. Qed.
Lemma cre_neq_0 x : x <> 0%R -> cre x <> 0.
Proof. intros H E. apply H. by injection E. Qed.

(** products over lists *)
Section prod.
  Context {K : fld}.
  Add Field FFp : (f_theory K).
  Definition fprod {A} (g : A -> K) (l : list A) : K := foldr (fun a v => g a * v) 1 l.
  Lemma foldl_prod {A} (g : A -> K) l : forall a, foldl (fun x r => x * g r) a l = a * fprod g l.
  Proof. induction l as [|r l IH]; intros a; simpl; [ring|]. rewrite IH. ring. Qed.
  Lemma fprod_app {A} (g : A -> K) l l' : fprod g (l ++ l') = fprod g l * fprod g l'.
  Proof. induction l as [|r l IH]; simpl; [ring|]. rewrite IH. ring. Qed.
  Lemma fprod_perm {A} (g : A -> K) l l' : l ≡ₚ l' -> fprod g l = fprod g l'.
  Proof. induction 1; simpl; [done| |ring|congruence]. by rewrite IHPermutation. Qed.
  Lemma fprod_0 {A} (g : A -> K) l : fprod g l = 0 <-> exists r, r ∈ l /\ g r = 0.
  Proof.
    induction l as [|r l IH]; simpl.
    - split; [intros H; by apply f1_neq_0 in H|by intros (r & H%elem_of_nil & _)].
    - split.
      + intros [H|H]%fmul_integral; [exists r; split; [left|done]|].
        apply IH in H as (r' & ? & ?). exists r'. split; [by right|done].
      + intros (r' & [->|Hr]%elem_of_cons & E); [rewrite E; ring|].
        rewrite (proj2 IH); [ring|eauto].
  Qed.
  Lemma fprod_1 {A} (g : A -> K) l : (forall r, r ∈ l -> g r = 1) -> fprod g l = 1.
  Proof. induction l as [|r l IH]; intros H; simpl; [done|]. rewrite H by left. rewrite IH; [ring|]. intros ??. apply H. by right. Qed.
  Lemma fprod_ext {A} (g g' : A -> K) l : (forall r, r ∈ l -> g r = g' r) -> fprod g l = fprod g' l.
  Proof. induction l as [|r l IH]; intros H; simpl; [done|]. rewrite H by left. rewrite IH; [done|]. intros ??. apply H. by right. Qed.
  Lemma fprod_map {A B} (h : A -> B) (g : B -> K) l : fprod g (h <$> l) = fprod (fun a => g (h a)) l.
  Proof. induction l as [|a l IH]; [done|]. rewrite fmap_cons. simpl. by rewrite IH. Qed.
  Lemma fprod_mul {A} (g g' : A -> K) l : fprod (fun a => g a * g' a) l = fprod g l * fprod g' l.
  Proof. induction l as [|a l IH]; simpl; [ring|]. rewrite IH. ring. Qed.
End prod.
Lemma cconj_fprod {A} (g : A -> C_fld) l : cconj (fprod g l) = fprod (fun a => cconj (g a)) l.
Proof. induction l as [|r l IH]; simpl; [apply cconj_1|]. by rewrite cconj_mul, IH. Qed.

Definition fac (f r : C_fld) : C_fld := 1 - ci * f / r.
Lemma root_xfer_eq f l : root_xfer f l = fprod (fac f) l.
Proof. destruct l as [|r l]; [done|]. simpl. by rewrite (foldl_prod (fac f)). Qed.
Lemma root_xfer2_eq f l : root_xfer2 f l = fprod (fun r => fac f (cconj r) * fac f r) l.
Proof.
  destruct l as [|r l]; [done|]. cbn [root_xfer2].
  rewrite (foldl_prod (fun root => (1 - f / cconj root * ci) * (1 - f / root * ci))).
  assert (forall r, (1 - f / cconj r * ci) * (1 - f / r * ci) = fac f (cconj r) * fac f r) as E.
  { intros r'. unfold fac. rewrite !div_eq. ring. }
  rewrite E. etransitivity; [|symmetry; exact (eq_refl (fac f (cconj r) * fac f r * fprod (fun r => fac f (cconj r) * fac f r) l))]. f_equal. apply fprod_ext. intros; apply E.
Qed.
Lemma fac_0 f r : r <> 0 -> (fac f r = 0 <-> ci * f = r).
Proof.
  intros Hr. unfold fac. split.
  - intros E. transitivity (r * (ci * f / r)); [field; done|]. replace (ci * f / r) with (1 : C_fld); [ring|].
    transitivity (1 - (1 - ci * f / r)); [rewrite E; ring|ring].
  - intros ->. field. done.
Qed.
Lemma fprod2 f l : fprod (fun r => fac f (cconj r) * fac f r) l = fprod (fac f) (l ++ (cconj <$> l)).
Proof. rewrite fprod_app, fprod_map, (fprod_mul (fun r => fac f (cconj r)) (fac f)). ring. Qed.
Lemma szp_eq z f : szp z f = fprod (fac f) (all_zeros z) / fprod (fac f) (all_poles z).
Proof. unfold szp, all_zeros, all_poles. rewrite !root_xfer_eq, !root_xfer2_eq, !fprod2, !(fprod_app _ (_ z) (_ z ++ _)). done. Qed.
Lemma prod_zero f l : (0 : C_fld) ∉ l -> (fprod (fac f) l = 0 <-> ci * f ∈ l).
Proof.
  intros H0. rewrite fprod_0. split.
  - intros (r & Hr & E). apply fac_0 in E; [by rewrite E|]. intros ->. done.
  - intros H. exists (ci * f). split; [done|]. apply fac_0; [|done]. intros E. by rewrite E in H.
Qed.
Lemma conj_closed_real l : Forall (fun r : C_fld => r.2 = 0%R) l -> cconj <$> l = l.
Proof.
  induction 1 as [|r l H _ IH]; [done|]. rewrite fmap_cons, IH. f_equal. destruct r as [a b]. simpl in H. subst.
  unfold cconj, C_conj. simpl. f_equal. ring.
Qed.
Lemma prod_real f r c : (0 : C_fld) ∉ r ++ c ++ (cconj <$> c) -> Forall (fun x : C_fld => x.2 = 0%R) r ->
  fprod (fac (cre (- f))) (r ++ c ++ (cconj <$> c)) = cconj (fprod (fac (cre f)) (r ++ c ++ (cconj <$> c))).
Proof.
  intros H0 Hr. set (L := r ++ c ++ (cconj <$> c)).
  assert (fmap cconj L ≡ₚ L) as HP.
  { unfold L. rewrite !fmap_app, conj_closed_real by done. apply Permutation_app_head. rewrite Permutation_app_comm.
    apply Permutation_app_tail. rewrite <- list_fmap_compose.
    replace ((cconj ∘ cconj) <$> c) with c; [done|]. clear. induction c as [|x c IH]; [done|]. rewrite fmap_cons, <- IH. simpl. by rewrite cconj_conj. }
  rewrite cconj_fprod, <- (fprod_perm _ _ _ HP), fprod_map. apply fprod_ext. intros x Hx. unfold fac.
  assert (x <> 0) as Hx0 by (intros ->; done).
  rewrite cconj_sub, cconj_1, cconj_div, cconj_mul, cconj_ci, cconj_cre, cre_opp by done. field. by apply cconj_neq_0.
Qed.
Lemma szp_real z f : zpk_assert z -> roots_ok z -> no_pole z (cre f) -> szp z (cre (- f)) = cconj (szp z (cre f)).
Proof.
  intros [Hp Hz] [Z0 P0] Hn. rewrite !szp_eq. rewrite cconj_div.
  - unfold all_zeros, all_poles. by rewrite !prod_real.
  - rewrite prod_zero by done. done.
Qed.
Lemma szp_neq_0 z f : roots_ok z -> no_pole z f -> no_zero z f -> szp z f <> 0.
Proof.
  intros [H0 P0] HP HZ E. rewrite szp_eq in E.
  assert (fprod (fac f) (all_zeros z) <> 0) as Hz by (rewrite prod_zero; done).
  assert (fprod (fac f) (all_poles z) <> 0) as Hp by (rewrite prod_zero; done).
  by apply (div_neq_0 _ _ Hz Hp).
Qed.

Lemma C_sq_mul (x y : C_fld) : C_sq (x * y) = (C_sq x * C_sq y)%R.
Proof. destruct x as [a b], y as [c d]. unfold C_sq. simpl. ring. Qed.
Lemma abs_mul (x y : C_fld) : (C_abs (x * y) : C_fld) = (C_abs x : C_fld) * (C_abs y : C_fld).
Proof.
  unfold C_abs. rewrite C_sq_mul, sqrt_mult by apply C_sq_nn. simpl. unfold C_mul. simpl. f_equal; ring.
Qed.
Lemma abs_abs (x : C_fld) : (C_abs (C_abs x) : C_fld) = (C_abs x : C_fld).
Proof.
  unfold C_abs at 1. assert (R_sqrt.sqrt (C_sq (C_abs x)) = R_sqrt.sqrt (C_sq x)) as ->; [|done].
  unfold C_sq at 1, C_abs. cbn [fst snd]. rewrite Rmult_0_r, Rplus_0_r. rewrite sqrt_square by apply sqrt_pos. done.
Qed.
Lemma abs_cis a : (C_abs (cis a) : C_fld) = 1.
Proof.
  unfold C_abs, cis, C_sq. cbn [fst snd]. pose proof (sin2_cos2 a) as H. unfold Rsqr in H.
  replace (cos a * cos a + sin a * sin a)%R with 1%R by lra. rewrite sqrt_1. done.
Qed.
Lemma abs_neq_0 (x : C_fld) : x <> 0 -> (C_abs x : C_fld) <> 0.
Proof. intros H E. apply H. exact (abs_0 C_herm x E). Qed.
Lemma cconj_abs x : cconj (C_abs x) = (C_abs x : C_fld).
Proof. unfold cconj, C_conj, C_abs. simpl. f_equal. ring. Qed.
Lemma conj_cis a : cconj (cis a) = cis (- a).
Proof. symmetry. exact (cis_neg a). Qed.
Lemma szp_0 z : roots_ok z -> szp z 0 = 1.
Proof.
  intros [Z0 P0]. assert (forall l : list C_fld, 0 ∉ l -> fprod (fac 0) l = 1) as H.
  { intros l H0. apply fprod_1. intros r Hr. unfold fac. field. intros ->. done. }
  rewrite szp_eq, !H by done. field. exact (f1_neq_0 (K := C_fld)).
Qed.
Lemma rational_real r f : zpk_assert (r_zpk r) -> roots_ok (r_zpk r) -> real_number (r_gain r) ->
  no_pole (r_zpk r) (cre f) -> no_pole (r_zpk r) (cre (r_gain_F r)) -> no_zero (r_zpk r) (cre (r_gain_F r)) ->
  rational_func r (- f) = cconj (rational_func r f).
Proof.
  intros Ha Hr Hg Hf Hp Hz. unfold rational_func. cbv zeta. rewrite szp_real by done.
  assert ((match r_delay r with Some d => r_gain r * cis (- (2 * PI * - f * d)) | None => r_gain r end) =
          cconj (match r_delay r with Some d => r_gain r * cis (- (2 * PI * f * d)) | None => r_gain r end)) as E.
  { destruct (r_delay r); [|by rewrite Hg]. rewrite cconj_mul, Hg, conj_cis. do 2 f_equal. ring. }
  rewrite E. destruct (Req_EM_T _ _); [by rewrite cconj_mul|].
  rewrite cconj_div, cconj_mul, cconj_abs; [done|]. apply abs_neq_0. by apply szp_neq_0.
Qed.
Lemma rational_magnitude r : roots_ok (r_zpk r) -> no_pole (r_zpk r) (cre (r_gain_F r)) -> no_zero (r_zpk r) (cre (r_gain_F r)) ->
  C_abs (rational_func r (r_gain_F r)) = C_abs (r_gain r).
Proof.
  intros Hr Hp Hz. unfold rational_func. cbv zeta. set (p := match r_delay r with Some d => r_gain r * cis (- (2 * PI * r_gain_F r * d)) | None => r_gain r end).
  assert ((C_abs p : C_fld) = (C_abs (r_gain r) : C_fld)) as Hpre.
  { unfold p. destruct (r_delay r); [|done]. rewrite abs_mul, abs_cis. ring. }
  clearbody p. destruct (Req_EM_T _ _) as [E|E].
  - change (((C_abs (szp (r_zpk r) (cre (r_gain_F r)) * p)) : C_fld) = (C_abs (r_gain r) : C_fld)).
    rewrite abs_mul, Hpre, E. change (cre 0) with (0 : C_fld). rewrite szp_0 by done.
    replace (C_abs (1 : C_fld) : C_fld) with (1 : C_fld); [ring|]. rewrite <- cis_0. by rewrite abs_cis, cis_0.
  - set (a := szp _ _). assert (a <> 0) as Ha by (by apply szp_neq_0). apply abs_neq_0 in Ha as Ha'.
    change (((C_abs (a * p / (C_abs a : C_fld))) : C_fld) = (C_abs (r_gain r) : C_fld)).
    apply (eq_scale (C_abs (C_abs a : C_fld) : C_fld)); [rewrite abs_abs; done|].
    rewrite <- abs_mul. replace ((C_abs a : C_fld) * (a * p / (C_abs a : C_fld))) with (a * p) by (field; done).
    rewrite abs_mul, abs_abs, Hpre. done.
Qed.
Lemma szp_zeros z f : roots_ok z -> no_pole z f -> (szp z f = 0 <-> ci * f ∈ all_zeros z).
Proof.
  intros [Z0 P0] Hp. rewrite szp_eq, <- prod_zero by done.
  assert (fprod (fac f) (all_poles z) <> 0) as Hn by (rewrite prod_zero; done).
  split; [|intros ->; field; done]. intros H. symmetry in H. apply eq_div in H; [|done]. rewrite <- H. ring.
Qed.
Lemma szp_app a b f : roots_ok a -> roots_ok b -> no_pole a f -> no_pole b f -> szp (zpk_app a b) f = szp a f * szp b f.
Proof.
  intros [_ Ha] [_ Hb] Pa Pb. rewrite !szp_eq.
  assert (all_zeros (zpk_app a b) ≡ₚ all_zeros a ++ all_zeros b) as E1.
  { unfold all_zeros, zpk_app. simpl. rewrite fmap_app. solve_Permutation. }
  assert (all_poles (zpk_app a b) ≡ₚ all_poles a ++ all_poles b) as E2.
  { unfold all_poles, zpk_app. simpl. rewrite fmap_app. solve_Permutation. }
  rewrite (fprod_perm _ _ _ E1), (fprod_perm _ _ _ E2), !fprod_app. field.
  split; rewrite prod_zero; done.
Qed.
Lemma szp_perm a b f : zpk_perm a b -> szp a f = szp b f.
Proof.
  intros (H1 & H2 & H3 & H4). rewrite !szp_eq. f_equal; apply fprod_perm; unfold all_zeros, all_poles.
  - by rewrite H1, H2.
  - by rewrite H3, H4.
Qed.

(** ** state space elements *)
Section ss.
  Context {K : fld}.
  Add Field FFs : (f_theory K).
  Lemma emits_bind {P X} `{EqDecision P} (g : X -> list (nd P * nd P * K)) l (w : nd P -> K) t :
    emits (l ≫= g) [] w t = fsum (fun a => emits (g a) [] w t) l.
  Proof.
    unfold emits. rewrite fsum_bind. cbn [fsum]. rewrite fsum_add, (fsum_0 (fun _ => 0)) by done. done.
  Qed.
  Lemma emits_nz {P} `{EqDecision P} (c c' : K) (f t' : nd P) (w : nd P -> K) t : (c = 0 -> c' = 0) ->
    emits (nz c (f, t', c')) [] w t = if decide (t' = t) then c' * w f else 0.
  Proof.
    intros Hc. unfold nz. destruct (decide (c = 0)) as [E|_]; [|apply emits_one].
    rewrite (Hc E). etransitivity; [exact (emits_nil w t)|]. destruct (decide _); ring.
  Qed.
  Lemma fsum_node {N} `{EqDecision N} (c : nat -> N) (g : nat -> K) j n : (forall a b, c a = c b -> a = b) ->
    fsum (fun a => if decide (c a = c j) then g a else 0) (seq 0 n) = if decide (j < n)%nat then g j else 0.
  Proof.
    intros Hc. rewrite (fsum_ext _ (fun a => if decide (a = j) then g a else 0)).
    - rewrite fsum_delta by apply NoDup_seq. destruct (decide (j ∈ _)) as [H|H], (decide (j < n)%nat) as [H'|H']; try done;
        rewrite elem_of_seq in H; lia.
    - intros a _. destruct (decide (c a = c j)) as [E|E], (decide (a = j)) as [E'|E']; try done; [by apply Hc in E|by subst].
  Qed.
  Lemma fsum_other {N} `{EqDecision N} (c : nat -> N) (g : nat -> K) t n : (forall a, c a <> t) ->
    fsum (fun a => if decide (c a = t) then g a else 0) (seq 0 n) = 0.
  Proof. intros Hc. apply fsum_0. intros a _. by rewrite decide_False by apply Hc. Qed.
  Definition ss_edges (s : K) Ni Ns No A B C D : list (edge nat) :=
    (i ← seq 0 Ni; (st ← seq 0 Ns; nz (B st i) (I i, Sg st, B st i / s)) ++ (o ← seq 0 No; nz (D o i) (I i, Sg o, D o i))) ++
    (st ← seq 0 Ns; ss_state s Ns No A C st).
  Lemma mfor_in (s : K) Ns No B D l : forall acc,
    mfor (fun acc i => e ← ss_in s Ns No B D i; Ok (acc ++ e)) l acc =
    if decide (Ns < No)%nat then match l with [] => Ok acc | _ => Err IndexError end else
    Ok (acc ++ (i ← l; (st ← seq 0 Ns; nz (B st i) (I i, Sg st, B st i / s)) ++ (o ← seq 0 No; nz (D o i) (I i, Sg o, D o i)))).
  Proof.
    induction l as [|i l IH]; intros acc.
    - cbn. destruct (decide _); [done|]. by rewrite app_nil_r.
    - cbn [mfor]. unfold ss_in at 1. destruct (decide _) as [Hd|Hd]; [done|]. cbn. rewrite IH.
      by rewrite <- app_assoc.
  Qed.
  Lemma state_space_ok (s : K) Ni Ns No A B C D :
    state_space s Ni Ns No A B C D = if decide (Ni = 0%nat \/ (No <= Ns)%nat) then Ok (ss_edges s Ni Ns No A B C D) else Err IndexError.
  Proof.
    unfold state_space. rewrite mfor_in. destruct (decide (Ns < No)%nat) as [H|H].
    - destruct (decide (Ni = 0%nat \/ _)) as [H'|H']; destruct Ni as [|Ni]; try done; lia.
    - destruct (decide (Ni = 0%nat \/ _)) as [H'|H']; [done|lia].
  Qed.
  Lemma col_state n (g c : nat -> K) (src : nd nat) (w : nd nat -> K) j : (forall b, g b = 0 -> c b = 0) ->
    emits (b ← seq 0 n; nz (g b) (src, Sg b, c b)) [] w (Sg j) = if decide (j < n)%nat then c j * w src else 0.
  Proof.
    intros Hg. etransitivity; [exact (emits_bind _ _ w _)|]. rewrite (fsum_ext _ (fun b : nat => if decide ((Sg b : nd nat) = Sg j) then c b * w src else 0)).
    - apply (fsum_node (Sg : nat -> nd nat) (fun b => c b * w src)). by intros ?? [= ->].
    - intros b _. apply emits_nz. apply Hg.
  Qed.
  Lemma col_out n (g c : nat -> K) (src : nd nat) (w : nd nat -> K) j : (forall b, g b = 0 -> c b = 0) ->
    emits (b ← seq 0 n; nz (g b) (src, O b, c b)) [] w (O j) = if decide (j < n)%nat then c j * w src else 0.
  Proof.
    intros Hg. etransitivity; [exact (emits_bind _ _ w _)|]. rewrite (fsum_ext _ (fun b : nat => if decide (O b = O j) then c b * w src else 0)).
    - apply (fsum_node O (fun b => c b * w src)). by intros ?? [= ->].
    - intros b _. apply emits_nz. apply Hg.
  Qed.
  Lemma col_none n (g c : nat -> K) (src : nd nat) (d : nat -> nd nat) (w : nd nat -> K) t : (forall b, d b <> t) -> 
    emits (b ← seq 0 n; nz (g b) (src, d b, c b)) [] w t = 0.
  Proof.
    intros Hd. etransitivity; [exact (emits_bind _ _ w _)|]. apply fsum_0. intros b _. unfold nz. destruct (decide _); [exact (emits_nil w t)|].
    etransitivity; [exact (emits_one src (d b) (c b) w t)|]. by rewrite decide_False by apply Hd.
  Qed.
  Lemma ss_emits_state (s : K) Ni Ns No A B C D (w : nd nat -> K) j : s <> 0 -> (j < Ns)%nat ->
    emits (ss_edges s Ni Ns No A B C D) [] w (Sg j) =
    (row A Ns (fun k => w (Sg k)) j + row B Ni (fun i => w (I i)) j) / s +
    (if decide (j < No)%nat then row D Ni (fun i => w (I i)) j else 0).
  Proof.
    intros Hs Hj. unfold ss_edges. rewrite emits_app.
    transitivity (fsum (fun i => B j i / s * w (I i) + (if decide (j < No)%nat then D j i * w (I i) else 0)) (seq 0 Ni) +
                  fsum (fun a => A j a / s * w (Sg a)) (seq 0 Ns)).
    { f_equal; (etransitivity; [exact (emits_bind _ _ w _)|]); apply fsum_ext.
      - intros i _. rewrite emits_app. f_equal.
        + etransitivity; [apply (col_state Ns (fun b => B b i) (fun b => B b i / s) (I i))|by rewrite decide_True].
          intros b ->. field. done.
        + by apply (col_state No (fun b => D b i) (fun b => D b i) (I i)).
      - intros a _. unfold ss_state. rewrite emits_app. transitivity (A j a / s * w (Sg a) + 0); [f_equal|ring].
        + etransitivity; [apply (col_state Ns (fun b => A b a) (fun b => A b a / s) (Sg a))|by rewrite decide_True].
          intros b ->. field. done.
        + by apply (col_none No (fun b => C b a) (fun b => C b a) (Sg a) O). }
    rewrite fsum_add. rewrite (fsum_ext (fun i => B j i / s * w (I i)) (fun i => 1 / s * (B j i * w (I i)))) by (intros; field; done).
    rewrite (fsum_ext (fun i => A j i / s * w (Sg i)) (fun i => 1 / s * (A j i * w (Sg i)))) by (intros; field; done).
    rewrite !fsum_mul_l. unfold row. destruct (decide (j < No)%nat).
    - field. done.
    - rewrite (fsum_0 (fun _ => 0)) by done. field. done.
  Qed.
  Lemma ss_emits_out (s : K) Ni Ns No A B C D (w : nd nat -> K) o : (o < No)%nat ->
    emits (ss_edges s Ni Ns No A B C D) [] w (O o) = row C Ns (fun k => w (Sg k)) o.
  Proof.
    intros Ho. unfold ss_edges. rewrite emits_app.
    transitivity (0 + fsum (fun a => C o a * w (Sg a)) (seq 0 Ns)); [|unfold row; ring].
    f_equal; (etransitivity; [exact (emits_bind _ _ w _)|]).
    - apply fsum_0. intros i _. rewrite emits_app. transitivity ((0 : K) + 0); [f_equal|ring].
      + by apply (col_none Ns (fun b => B b i) (fun b => B b i / s) (I i) Sg).
      + by apply (col_none No (fun b => D b i) (fun b => D b i) (I i) Sg).
    - apply fsum_ext. intros a _. unfold ss_state. rewrite emits_app. transitivity (0 + C o a * w (Sg a)); [f_equal|ring].
      + by apply (col_none Ns (fun b => A b a) (fun b => A b a / s) (Sg a) Sg).
      + etransitivity; [by apply (col_out No (fun b => C b a) (fun b => C b a) (Sg a))|by rewrite decide_True].
  Qed.
  Lemma ss_direct (s : K) Ni Ns No A B C D es (w : nd nat -> K) : s <> 0 ->
    state_space s Ni Ns No A B C D = Ok es ->
    (holds (ss_nodes Ns No) es w <->
     (forall j, (j < Ns)%nat -> s * w (Sg j) = row A Ns (fun k => w (Sg k)) j + row B Ni (fun i => w (I i)) j +
        (if decide (j < No)%nat then s * row D Ni (fun i => w (I i)) j else 0)) /\
     (forall o, (o < No)%nat -> w (O o) = row C Ns (fun k => w (Sg k)) o)).
  Proof.
    intros Hs E. rewrite state_space_ok in E. destruct (decide _) as [_|]; [|done]. injection E as <-.
    unfold holds, ss_nodes. split.
    - intros H. split.
      + intros j Hj. rewrite (H (Sg j)) at 1.
        * rewrite ss_emits_state by done. destruct (decide (j < No)%nat); field; done.
        * apply elem_of_app. left. apply elem_of_list_fmap_1, elem_of_seq. lia.
      + intros o Ho. rewrite (H (O o)); [by apply ss_emits_out|].
        apply elem_of_app. right. apply elem_of_list_fmap_1, elem_of_seq. lia.
    - intros [H1 H2] t. rewrite elem_of_app, !elem_of_list_fmap. intros [(j & -> & Hj%elem_of_seq)|(o & -> & Ho%elem_of_seq)].
      + rewrite ss_emits_state by (done || lia). apply (eq_scale s); [done|]. rewrite H1 by lia.
        destruct (decide (j < No)%nat); field; done.
      + rewrite ss_emits_out by lia. apply H2. lia.
  Qed.
  Lemma ss_equations (s : K) Ni Ns No A B C D es (w : nd nat -> K) : s <> 0 -> (forall o i, D o i = 0) ->
    state_space s Ni Ns No A B C D = Ok es ->
    (holds (ss_nodes Ns No) es w <->
     (forall j, (j < Ns)%nat -> s * w (Sg j) = row A Ns (fun k => w (Sg k)) j + row B Ni (fun i => w (I i)) j) /\
     (forall o, (o < No)%nat -> w (O o) = row C Ns (fun k => w (Sg k)) o)).
  Proof.
    intros Hs HD E. rewrite ss_direct by done.
    assert (forall j, (if decide (j < No)%nat then s * row D Ni (fun i => w (I i)) j else 0) = 0) as H0.
    { intros j. destruct (decide _); [|done]. unfold row. rewrite fsum_0; [ring|]. intros i _. rewrite HD. ring. }
    split; intros [H1 H2]; (split; [|done]); intros j Hj; rewrite H1 by done; rewrite ?H0; ring.
  Qed.
  Lemma ss_transfer (s : K) Ni Ns No A B C D M es (w : nd nat -> K) : s <> 0 -> (forall o i, D o i = 0) ->
    state_space s Ni Ns No A B C D = Ok es -> holds (ss_nodes Ns No) es w ->
    (forall i j, (i < Ns)%nat -> (j < Ns)%nat ->
       fsum (fun k => M i k * ((if decide (k = j) then s else 0) - A k j)) (seq 0 Ns) = if decide (i = j) then 1 else 0) ->
    forall o, (o < No)%nat -> w (O o) = row C Ns (row M Ns (row B Ni (fun i => w (I i)))) o.
  Proof.
    intros Hs HD E H HM o Ho. apply (ss_equations s Ni Ns No A B C D) in H as [H1 H2]; [|done..]. rewrite H2 by done.
    unfold row at 1 2. apply fsum_ext. intros j Hj%elem_of_seq. f_equal.
    transitivity (fsum (fun k => (if decide (j = k) then 1 else 0) * w (Sg k)) (seq 0 Ns)).
    { rewrite (fsum_ext _ (fun k => if decide (k = j) then w (Sg k) else 0)).
      - rewrite fsum_delta by apply NoDup_seq. rewrite decide_True; [done|]. apply elem_of_seq. lia.
      - intros k _. destruct (decide (j = k)), (decide (k = j)); subst; try done; ring. }
    rewrite (fsum_ext _ (fun k => fsum (fun l => M j l * ((if decide (l = k) then s else 0) - A l k) * w (Sg k)) (seq 0 Ns))).
    2:{ intros k Hk%elem_of_seq. rewrite fsum_mul_r, HM by lia. done. }
    rewrite fsum_swap. unfold row at 1. apply fsum_ext. intros l Hl%elem_of_seq.
    assert (row B Ni (fun i => w (I i)) l = s * w (Sg l) - row A Ns (fun k => w (Sg k)) l) as ->.
    { rewrite H1 by lia. ring. }
    rewrite (fsum_ext _ (fun k => M j l * ((if decide (k = l) then s * w (Sg k) else 0) - A l k * w (Sg k)))).
    2:{ intros k _. destruct (decide (l = k)), (decide (k = l)); subst; try done; ring. }
    rewrite fsum_mul_l, fsum_sub, fsum_delta by apply NoDup_seq.
    rewrite decide_True; [done|]. apply elem_of_seq. lia.
  Qed.
  Lemma distribution_lem (gains : list (nat * K)) (w : nd nat -> K) : NoDup gains.*1 ->
    (obeys gains.*1 (distribution gains) [] w <-> forall g, g ∈ gains -> w (O g.1) = g.2 * w (I 0%nat)).
  Proof.
    intros Hn. assert (forall g, g ∈ gains -> emits (distribution gains) [] w (O g.1) = g.2 * w (I 0%nat)) as E.
    { intros g Hg. unfold emits, distribution. cbn [fsum]. rewrite fsum_map. cbn [fst snd].
      rewrite (fsum_ext _ (fun a : nat * K => if decide (a = g) then a.2 * w (I 0%nat) else 0)).
      - rewrite fsum_delta by (by eapply NoDup_fmap_1). rewrite decide_True by done. ring.
      - intros a Ha. destruct (decide (O a.1 = O g.1)) as [Ea|Ea], (decide (a = g)) as [Ea'|Ea']; try done; [|by subst].
        injection Ea as Ea. destruct Ea'. destruct a as [n a], g as [n' b]. simpl in Ea. subst.
        f_equal. clear -Hn Ha Hg. induction gains as [|[m c] l IH]; [by apply elem_of_nil in Ha|].
        rewrite fmap_cons in Hn. apply NoDup_cons in Hn as [H1 H2]. simpl in H1.
        apply elem_of_cons in Ha as [Ea|Ha]; apply elem_of_cons in Hg as [Eg|Hg]; simplify_eq.
        + done.
        + destruct H1. by apply (elem_of_list_fmap_1 fst) in Hg.
        + destruct H1. by apply (elem_of_list_fmap_1 fst) in Ha.
        + by apply IH. }
    split.
    - intros H g Hg. rewrite <- E by done. apply H. by apply elem_of_list_fmap_1.
    - intros H p (g & -> & Hg)%elem_of_list_fmap. rewrite E by done. by apply H.
  Qed.
  Lemma summing_lem (gains : list (nat * K)) (w : nd nat -> K) :
    obeys [0%nat] (summing gains) [] w <-> w (O 0%nat) = fsum (fun g => g.2 * w (I g.1)) gains.
  Proof.
    assert (emits (summing gains) [] w (O 0%nat) = fsum (fun g => g.2 * w (I g.1)) gains) as E.
    { unfold emits, summing. cbn [fsum]. rewrite fsum_map. cbn [fst snd].
      rewrite (fsum_ext _ (fun g => g.2 * w (I g.1))); [ring|]. intros a _. by rewrite decide_True. }
    split; [intros H; rewrite <- E; apply H; left|]. intros H p ->%elem_of_list_singleton. by rewrite E.
  Qed.
End ss.

(** ** mixers *)
Section qh.
  Context {K : fld}.
  Add Field FFq : (f_theory K).
  Lemma half_half_gen (t : K) : t <> 0 -> 1 / t * (1 / t) = 1 / (t * t).
  Proof. intros. field. done. Qed.
  Lemma quarter_gen : (1 + 1 : K) <> 0 -> 1 / (1 + 1) = 1 / ((1 + 1) * (1 + 1)) + 1 / ((1 + 1) * (1 + 1) : K).
  Proof. intros H. set (t := 1 + 1) in *. transitivity (t / (t * t)); [field; done|]. unfold t at 1. clearbody t. field. done. Qed.
End qh.
Lemma half_half : half * half = quarter.
Proof. exact (half_half_gen (K := C_fld) (1 + 1) (two_neq_0 C_herm)). Qed.
Lemma half_quarter : half = quarter + quarter.
Proof. exact (quarter_gen (K := C_fld) (two_neq_0 C_herm)). Qed.
Section mix.
  Context {Q : Type} `{Countable Q} (qadd : Q -> Q -> Q) (qneg : Q -> Q) (q0 : Q) (reject : Q -> bool) (Hz : Q -> R).
  Definition arr (x : mixport * Q -> C_fld) (n : mixport * Q) (j : inj C_fld mixport Q) : C_fld :=
    if decide (target j = n) then amount 0 x ∅ j else 0.
  Lemma arrives_eq js x n : arrives js x n = fsum (arr x n) js.
  Proof. unfold arrives, total. cbn [fsum]. change (fsum (arr x n) js + 0 = fsum (arr x n) js). ring. Qed.
  Definition quad (p : mixport) (k : Q) : C_fld := match p with R_I => 1 | R_Q => ci * sgn (Hz k) | _ => 0 end.
  Lemma mixer_arrives los ins x p k : p = R_I \/ p = R_Q ->
    arrives (mixer qadd q0 reject Hz los ins) x (p, k) =
    fsum (fun k1 => fsum (fun k2 => if reject (qadd k1 k2) then 0 else
      if decide (qadd k1 k2 = k) then quad p k1 * (if decide (qadd k1 k2 = q0) then quarter else half) * x (LO, k1) * x (In, k2) else 0) ins) los.
  Proof.
    intros Hp. rewrite arrives_eq. unfold mixer. rewrite fsum_bind. apply fsum_ext. intros k1 _.
    rewrite fsum_bind. apply fsum_ext. intros k2 _. cbv zeta.
    set (c := if decide (qadd k1 k2 = q0) then quarter else half). destruct (reject _); [done|]. cbn [fsum].
    unfold arr, target, amount. destruct (decide (qadd k1 k2 = k)) as [E|E].
    - rewrite E. destruct Hp as [-> | ->]; unfold quad.
      + rewrite decide_True by done. rewrite decide_False by done. ring.
      + rewrite decide_False by done. rewrite decide_True by done. ring.
    - rewrite !decide_False by congruence. ring.
  Qed.
  Lemma mixer_wave los ins ks x t p : p = R_I \/ p = R_Q ->
    (forall a b, Hz (qadd a b) = Hz a + Hz b)%R -> NoDup ks -> q0 ∉ los -> q0 ∉ ins ->
    (forall a b, a ∈ los -> b ∈ ins -> qadd a b ∈ ks /\ reject (qadd a b) = false) ->
    wave q0 Hz ks (fun k => arrives (mixer qadd q0 reject Hz los ins) x (p, k)) t =
    wave q0 Hz los (fun k => quad p k * x (LO, k)) t * wave q0 Hz ins (fun k => x (In, k)) t.
  Proof.
    intros Hp Ha Hn Hl Hi Hk. unfold wave. set (e := fun k => cis (2 * PI * Hz k * t)).
    rewrite (fsum_ext _ (fun k => fsum (fun k1 => fsum (fun k2 => if decide (k = qadd k1 k2) then
        quarter * e (qadd k1 k2) * quad p k1 * x (LO, k1) * x (In, k2) else 0) ins) los)).
    2:{ intros k _. rewrite mixer_arrives by done. rewrite <- fsum_mul_l, <- fsum_mul_r. apply fsum_ext. intros k1 H1.
        rewrite <- fsum_mul_l, <- fsum_mul_r. apply fsum_ext. intros k2 H2. rewrite (proj2 (Hk k1 k2 H1 H2)).
        destruct (decide (qadd k1 k2 = k)) as [<-|E].
        - rewrite (decide_True _ _ (P := qadd k1 k2 = qadd k1 k2)) by done. fold (e (qadd k1 k2)). destruct (decide (qadd k1 k2 = q0)); [ring|].
          rewrite <- half_half. unfold half. ring.
        - rewrite (decide_False _ _ (P := k = qadd k1 k2)) by congruence. ring. }
    rewrite fsum_swap. rewrite <- fsum_mul_r. apply fsum_ext. intros k1 H1.
    rewrite fsum_swap. rewrite <- fsum_mul_l. apply fsum_ext. intros k2 H2.
    destruct (Hk k1 k2 H1 H2) as [Hin _].
    rewrite (fsum_delta (qadd k1 k2) (fun _ => quarter * e (qadd k1 k2) * quad p k1 * x (LO, k1) * x (In, k2))) by done.
    rewrite decide_True by done.
    rewrite decide_False by (intros ->; done). rewrite decide_False by (intros ->; done).
    fold (e k1) (e k2). assert (e (qadd k1 k2) = e k1 * e k2) as ->.
    { unfold e. rewrite <- cis_add, Ha. f_equal. ring. }
    rewrite <- half_half. unfold half. ring.
  Qed.

  Local Ltac us := rewrite !elem_of_union, !elem_of_singleton; tauto.
  Lemma ms_arrives x : (forall k, qneg (qneg k) = k) -> qneg q0 = q0 -> (forall k, qneg k = k -> k = q0) ->
    forall ins already, NoDup ins -> (forall k, k ∈ ins -> reject k = false) ->
    (forall k, k ∈ ins -> k ∈ already \/ qneg k ∈ ins) ->
    (forall k, k ∈ already -> qneg k ∈ already) ->
    arrives (mean_square qneg q0 reject ins already) x (MS, q0) =
    fsum (fun k => if decide (k ∈ already) then 0 else (if decide (k = q0) then 1 else quarter) * x (In, k) * x (In, qneg k)) ins.
  Proof.
    clear qadd Hz. intros Hnn H0 Hfix ins. induction ins as [|k ins IH]; intros already Hd Hr Hc Ha.
    { rewrite arrives_eq. done. }
    rewrite arrives_eq. apply NoDup_cons in Hd as [Hk Hd]. cbn [mean_square].
    assert (forall k, k ∈ ins -> reject k = false) as Hr' by (intros; apply Hr; by right).
    destruct (decide (k ∈ already)) as [E|E].
    - rewrite <- arrives_eq, IH; [|done|done| |done].
      + match goal with |- _ = fsum ?g (k :: ins) => change (fsum g (k :: ins)) with (g k + fsum g ins) end.
        cbv beta. rewrite decide_True by done. ring.
      + intros q Hq. destruct (Hc q ltac:(by right)) as [Hq'|[Hq'|Hq']%elem_of_cons]; [by left| |by right].
        left. rewrite <- (Hnn q), Hq'. by apply Ha.
    - match goal with |- _ = fsum ?g (k :: ins) => change (fsum g (k :: ins)) with (g k + fsum g ins) end.
      cbv beta. rewrite (decide_False _ (P := k ∈ already)) by done.
      destruct (decide (k = q0)) as [E0|E0].
      + match goal with |- fsum ?g (?a :: ?l) = _ => change (fsum g (a :: l)) with (g a + fsum g l) end.
        rewrite <- arrives_eq, IH; [|done|done| |].
        * f_equal.
          { unfold arr, target, amount. rewrite decide_True by done. cbn [foldr]. rewrite E0, H0. ring. }
          apply fsum_ext. intros q Hq. assert (q <> k) by (intros ->; done).
          destruct (decide (q ∈ already)) as [Eq|Eq]; [by rewrite decide_True by us|by rewrite decide_False by us].
        * intros q Hq. destruct (Hc q ltac:(by right)) as [Hq'|[Hq'|Hq']%elem_of_cons]; [left; us| |by right].
          left. rewrite <- (Hnn q), Hq', E0, H0. us.
        * intros q. rewrite !elem_of_union, !elem_of_singleton. intros [-> |Hq]; [left; by rewrite E0|right; by apply Ha].
      + assert (qneg k <> k) as Hkk by (intros Hf; by apply Hfix in Hf).
        assert (qneg k ∈ ins) as Hin.
        { destruct (Hc k ltac:(by left)) as [|[|]%elem_of_cons]; done. }
        assert (qneg k ∉ already) as Hna by (intros Hf%Ha; rewrite Hnn in Hf; done).
        rewrite (Hr (qneg k)) by (by right). rewrite fsum_app. cbn [fsum].
        rewrite <- arrives_eq, IH; [|done|done| |].
        * set (f := fun (al : gset Q) q => if decide (q ∈ al) then 0 else (if decide (q = q0) then 1 else quarter) * x (In, q) * x (In, qneg q)).
          change (arr x (MS, q0) (Triplet (In, k) (In, qneg k) (MS, q0) half) + 0 + fsum (f ({[k; qneg k]} ∪ already)) ins =
                  quarter * x (In, k) * x (In, qneg k) + fsum (f already) ins).
          rewrite (fsum_ext (f already) (fun q => (if decide (q = qneg k) then f already q else 0) + f ({[k; qneg k]} ∪ already) q)).
          { rewrite fsum_add, fsum_delta by done. rewrite decide_True by done. unfold f at 2. rewrite decide_False by done.
            rewrite Hnn. rewrite decide_False by (intros Hf; apply E0; by rewrite <- (Hnn k), Hf, H0).
            unfold arr, target, amount. rewrite decide_True by done. rewrite half_quarter. ring. }
          intros q Hq. assert (q <> k) by (intros ->; done). unfold f.
          destruct (decide (q = qneg k)) as [-> |Eq].
          { rewrite decide_False by done. rewrite (decide_True _ _ (P := qneg k ∈ _ ∪ _)) by us. ring. }
          destruct (decide (q ∈ already)) as [Ea|Ea]; [rewrite (decide_True _ _ (P := q ∈ _ ∪ _)) by us|rewrite (decide_False _ _ (P := q ∈ _ ∪ _)) by us]; ring.
        * intros q Hq. destruct (Hc q ltac:(by right)) as [Hq'|[Hq'|Hq']%elem_of_cons]; [left; us| |by right].
          left. rewrite <- (Hnn q), Hq'. us.
        * intros q. rewrite !elem_of_union, !elem_of_singleton. intros [[-> | ->]|Hq]; [left; by right|left; left; by rewrite Hnn|right; by apply Ha].
  Qed.
End mix.
