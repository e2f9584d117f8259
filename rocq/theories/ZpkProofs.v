(** Proofs about filters given by zeros, poles and gain. *)
From Coq Require Import Reals Lra.
From stdpp Require Import base tactics list numbers.
From Verif Require Import Fld Py Herm OptModel OptRot ElecProofs SigModel SigSpec SigProofs PdProofs ZpkModel ZpkSpec.
Local Open Scope fld_scope.
Add Field FFc : (f_theory C_fld).

Lemma product_cons a l : product (a :: l) = a * product l. Proof. done. Qed.
Lemma product_nil : product [] = 1. Proof. done. Qed.
Definition pr (s : C_fld) (l : list C_fld) : C_fld := fprod (fun r => s - r) l.
Lemma product_pr s l : product ((fun z => s - z) <$> l) = pr s l.
Proof. unfold product, pr. induction l as [|a l IH]; [done|]. rewrite fmap_cons. cbn [foldr fprod]. by rewrite IH. Qed.
Lemma transfer_eq t s : transfer t s = t_k t * pr s (t_z t) / pr s (t_p t).
Proof. unfold transfer. by rewrite !product_pr. Qed.
Lemma pr_neq_0 s l : s ∉ l -> pr s l <> 0.
Proof.
  intros Hs E. apply fprod_0 in E as (r & Hr & E). apply Hs. replace s with r; [done|]. transitivity (r + (s - r)); [rewrite E; ring|ring].
Qed.
Lemma pr_app s l l' : pr s (l ++ l') = pr s l * pr s l'. Proof. apply fprod_app. Qed.
Lemma regular_pr t s : regular t s -> pr s (t_p t) <> 0. Proof. apply pr_neq_0. Qed.
Lemma prod_from_eq s l : prod_from s l = pr s l.
Proof. unfold prod_from, pr. rewrite (foldl_prod (fun r => s - r)). ring. Qed.
Lemma freqresp_eq t w : freqresp t w = transfer t (ci * cre w).
Proof. unfold freqresp. by rewrite !prod_from_eq, transfer_eq. Qed.
Lemma cmul_neq_0 (x y : C_fld) : x <> 0 -> y <> 0 -> x * y <> 0.
Proof. intros Hx Hy [E|E]%fmul_integral; done. Qed.

Lemma put_transfer t c s : regular t s -> regular c s -> transfer (put t c) s = transfer t s * transfer c s.
Proof.
  intros H1%regular_pr H2%regular_pr. rewrite !transfer_eq. cbn [put t_z t_p t_k]. rewrite !pr_app. field. done.
Qed.
Lemma put_regular t c s : regular t s -> regular c s -> regular (put t c) s.
Proof. unfold regular. cbn [put t_p]. rewrite elem_of_app. tauto. Qed.
Lemma mult_fold l : forall acc s, regular acc s -> (forall t, t ∈ l -> regular t s) ->
  transfer (foldl put acc l) s = transfer acc s * product ((fun t => transfer t s) <$> l).
Proof.
  induction l as [|t l IH]; intros acc s Ha Hl; cbn [foldl].
  - change (product ((fun t => transfer t s) <$> [])) with (1 : C_fld). ring.
  - rewrite IH; [|apply put_regular; [done|apply Hl; by left]|intros; apply Hl; by right].
    rewrite put_transfer by (done || apply Hl; by left). rewrite fmap_cons, product_cons. ring.
Qed.
Lemma zpk_mult_eq l : l <> [] -> zpk_mult l = Ok (foldl put start l).
Proof. destruct l as [|t l]; [done|]. reflexivity. Qed.
Lemma start_1 s : transfer start s = 1.
Proof. rewrite transfer_eq. change (pr s (t_z start)) with (1 : C_fld). change (pr s (t_p start)) with (1 : C_fld). change (t_k start) with (1 : C_fld). field. exact (f1_neq_0 (K := C_fld)). Qed.

Lemma div_transfer n d s : regular n s -> nonzero d s -> transfer (zpk_div n d) s = transfer n s / transfer d s.
Proof.
  intros Hn%regular_pr (Hp & Hz & Hk). apply pr_neq_0 in Hp, Hz. rewrite !transfer_eq. cbn [zpk_div t_z t_p t_k]. rewrite !pr_app. field. done.
Qed.

(** conjugates *)
Lemma closed_app l l' : closed l -> closed l' -> closed (l ++ l').
Proof. unfold closed. intros. rewrite fmap_app. by apply Permutation_app. Qed.
Lemma closed_nil : closed []. Proof. unfold closed. constructor. Qed.
Lemma closed_real x : closed [cre x].
Proof. unfold closed. change (cconj <$> [cre x]) with [cconj (cre x)]. by rewrite cconj_cre. Qed.
Lemma closed_reals l : (forall r, r ∈ l -> cconj r = r) -> closed l.
Proof. intros H. unfold closed. induction l as [|a l IH]; [done|]. rewrite fmap_cons, (H a) by (by left). apply Permutation_cons; [done|]. apply IH. intros. apply H. by right. Qed.
Lemma cconj_cx a b : cconj (cx a b) = cx a (- b). Proof. unfold cconj, cx, C_conj. done. Qed.
Lemma closed_pair a b b' : b' = (- b)%R -> closed [cx a b; cx a b'].
Proof.
  intros ->. unfold closed. change (cconj <$> [cx a b; cx a (- b)]) with [cconj (cx a b); cconj (cx a (- b))]. rewrite !cconj_cx.
  rewrite Ropp_involutive. apply perm_swap.
Qed.
Lemma cconj_cconj (l : list C_fld) : cconj <$> (cconj <$> l) = l.
Proof. rewrite <- list_fmap_compose. rewrite <- (list_fmap_id l) at 2. apply list_fmap_ext. intros. apply cconj_conj. Qed.
Lemma closed_both (l : list C_fld) : closed (l ++ (cconj <$> l)).
Proof. unfold closed. rewrite fmap_app, cconj_cconj. apply Permutation_app_comm. Qed.
Lemma closed_map (g : C_fld -> C_fld) l : (forall r, cconj (g r) = g (cconj r)) -> closed l -> closed (g <$> l).
Proof.
  intros Hg Hl. unfold closed in *. rewrite <- list_fmap_compose.
  rewrite (list_fmap_ext (cconj ∘ g) (g ∘ cconj) l) by (intros; apply Hg). rewrite list_fmap_compose. by rewrite Hl.
Qed.
Lemma pr_conj s l : closed l -> pr (cconj s) l = cconj (pr s l).
Proof.
  intros Hl. unfold closed in Hl. unfold pr. rewrite cconj_fprod. rewrite <- (fprod_perm _ _ _ Hl), fprod_map. apply fprod_ext. intros r _. by rewrite cconj_sub.
Qed.
Lemma regular_conj l s : closed l -> s ∉ l -> cconj s ∉ l.
Proof.
  intros Hl Hs Hc. unfold closed in Hl. apply Hs. rewrite <- Hl. apply elem_of_list_fmap. exists (cconj s). by rewrite cconj_conj.
Qed.
Lemma transfer_conj t s : real_filter t -> regular t s -> transfer t (cconj s) = cconj (transfer t s).
Proof.
  intros (Hz & Hp & Hk) Hr. rewrite !transfer_eq, !pr_conj by done. rewrite cconj_div by (by apply pr_neq_0). by rewrite cconj_mul, Hk.
Qed.

(** sorting *)
Definition isre tiny (r : C_fld) : Prop := unresolved tiny r = true.
Definition ispos tiny (r : C_fld) : Prop := unresolved tiny r = false /\ (0 < r.2)%R.
Definition isneg tiny (r : C_fld) : Prop := unresolved tiny r = false /\ ~ (0 < r.2)%R.
#[global] Instance isre_dec tiny r : Decision (isre tiny r). Proof. unfold isre. apply _. Defined.
#[global] Instance ispos_dec tiny r : Decision (ispos tiny r).
Proof. unfold ispos. destruct (unresolved tiny r); [right; by intros [? _]|]. destruct (Rlt_dec 0 r.2); [by left|right; tauto]. Defined.
#[global] Instance isneg_dec tiny r : Decision (isneg tiny r).
Proof. unfold isneg. destruct (unresolved tiny r); [right; by intros [? _]|]. destruct (Rlt_dec 0 r.2); [right; tauto|by left]. Defined.
Lemma sort_eq tiny l : sort_roots tiny l = ((fun r : C_fld => cre r.1) <$> filter (isre tiny) l, filter (ispos tiny) l, filter (isneg tiny) l).
Proof.
  unfold sort_roots.
  match goal with |- foldl ?f _ _ = _ => set (F := f) end.
  assert (G : forall l re pos neg, foldl F (re, pos, neg) l = (re ++ ((fun r : C_fld => cre r.1) <$> filter (isre tiny) l), pos ++ filter (ispos tiny) l, neg ++ filter (isneg tiny) l)).
  { clear l. induction l as [|r l IH]; intros re pos neg; [cbn; by rewrite !app_nil_r|]. cbn [foldl]. unfold F at 2. rewrite !filter_cons.
    destruct (unresolved tiny r) eqn:E.
    - rewrite (decide_True (P := isre tiny r)) by done. rewrite (decide_False (P := ispos tiny r)), (decide_False (P := isneg tiny r)) by (intros [? ?]; congruence).
      rewrite IH. by rewrite <- app_assoc.
    - rewrite (decide_False (P := isre tiny r)) by (unfold isre; congruence). destruct (Rlt_dec 0 r.2) as [Hr|Hr].
      + rewrite (decide_True (P := ispos tiny r)) by done. rewrite (decide_False (P := isneg tiny r)) by (intros [? ?]; done). rewrite IH. by rewrite <- app_assoc.
      + rewrite (decide_False (P := ispos tiny r)) by (intros [? ?]; done). rewrite (decide_True (P := isneg tiny r)) by done. rewrite IH. by rewrite <- app_assoc. }
  rewrite G. done.
Qed.
Lemma sort_perm tiny l : l ≡ₚ filter (isre tiny) l ++ filter (ispos tiny) l ++ filter (isneg tiny) l.
Proof.
  induction l as [|r l IH]; [done|]. rewrite !filter_cons. destruct (unresolved tiny r) eqn:E.
  - rewrite (decide_True (P := isre tiny r)) by done. rewrite (decide_False (P := ispos tiny r)), (decide_False (P := isneg tiny r)) by (intros [? ?]; congruence).
    cbn [app]. by apply Permutation_cons.
  - rewrite (decide_False (P := isre tiny r)) by (unfold isre; congruence). destruct (Rlt_dec 0 r.2) as [Hr|Hr].
    + rewrite (decide_True (P := ispos tiny r)) by done. rewrite (decide_False (P := isneg tiny r)) by (intros [? ?]; done).
      rewrite IH at 1. cbn [app]. apply Permutation_middle.
    + rewrite (decide_False (P := ispos tiny r)) by (intros [? ?]; done). rewrite (decide_True (P := isneg tiny r)) by done.
      rewrite IH at 1. rewrite !app_assoc. apply Permutation_middle.
Qed.
Lemma unresolved_spec tiny (r : C_fld) : (0 < tiny)%R -> resolved tiny r -> (unresolved tiny r = true <-> r.2 = 0%R).
Proof.
  intros Ht [H0 Hr]. destruct r as [a b]. cbn [fst snd] in *. unfold unresolved. cbn [fst snd]. destruct (Req_EM_T a 0) as [->|Ha].
  - split; [done|]. intros ->. exfalso. by apply H0.
  - destruct (Rlt_dec (Rabs (b / a)) tiny) as [Hl|Hl].
    + split; [|done]. intros _. destruct Hr as [Hr|Hr]; [done|]. exfalso. unfold Rdiv in Hl. rewrite Rabs_mult, Rabs_inv in Hl.
      assert (Hp : (0 < Rabs a)%R) by (by apply Rabs_pos_lt). apply (Rmult_lt_compat_r (Rabs a)) in Hl; [|done].
      rewrite Rmult_assoc, Rinv_l, Rmult_1_r in Hl by lra. lra.
    + split; [done|]. intros ->. exfalso. apply Hl. unfold Rdiv. rewrite Rmult_0_l, Rabs_R0. done.
Qed.
Lemma resolved_conj tiny r : resolved tiny r -> resolved tiny (cconj r).
Proof.
  intros [H0 Hr]. split; [by apply cconj_neq_0|]. destruct r as [a b]. cbn [fst snd cconj C_conj] in *. rewrite Rabs_Ropp. destruct Hr as [->|Hr]; [left; lra|by right].
Qed.
Lemma unresolved_conj tiny r : unresolved tiny (cconj r) = unresolved tiny r.
Proof.
  destruct r as [a b]. unfold unresolved. cbn [cconj C_conj fst snd]. destruct (Req_EM_T a 0); [done|].
  replace (- b / a)%R with (- (b / a))%R by (field; done). by rewrite Rabs_Ropp.
Qed.
Lemma filter_map {X} (g : X -> X) (Pr : X -> Prop) `{!forall x, Decision (Pr x)} (Pr' : X -> Prop) `{!forall x, Decision (Pr' x)} (l : list X) :
  (forall x, x ∈ l -> Pr (g x) <-> Pr' x) -> filter Pr (g <$> l) = g <$> filter Pr' l.
Proof.
  induction l as [|a l IH]; intros HP; [done|]. rewrite fmap_cons, !filter_cons. assert (Ha := HP a ltac:(by left)).
  rewrite IH by (intros; apply HP; by right). destruct (decide (Pr (g a))), (decide (Pr' a)); try done; tauto.
Qed.
Lemma sort_closed tiny (l : list C_fld) : (0 < tiny)%R -> (forall r, r ∈ l -> resolved tiny r) -> closed l ->
  filter (isneg tiny) l ≡ₚ cconj <$> filter (ispos tiny) l.
Proof.
  intros Ht Hr Hc.
  assert (E : filter (isneg tiny) (cconj <$> l) = cconj <$> filter (ispos tiny) l).
  { apply filter_map. intros r Hi. unfold isneg, ispos. rewrite unresolved_conj. specialize (Hr r Hi).
    destruct (unresolved tiny r) eqn:Eu; [by split; intros [? _]|]. assert (Hn : r.2 <> 0%R).
    { intros E0. apply (unresolved_spec tiny r) in E0; [congruence|done|done]. }
    destruct r as [a b]. cbn [cconj C_conj fst snd] in *. split; intros [_ Hb]; (split; [done|lra]). }
  unfold closed in Hc. rewrite <- E. by rewrite Hc.
Qed.
Lemma re_cre (l : list C_fld) : (forall r, r ∈ l -> r.2 = 0%R) -> (fun r : C_fld => cre r.1) <$> l = l.
Proof.
  induction l as [|r l IH]; intros H; [done|]. rewrite fmap_cons, IH by (intros; apply H; by right). f_equal.
  destruct r as [a b]. specialize (H (a, b) ltac:(by left)). cbn in H. by subst b.
Qed.
Lemma sorted_all tiny (l : list C_fld) : (0 < tiny)%R -> (forall r, r ∈ l -> resolved tiny r) -> closed l ->
  ((fun r : C_fld => cre r.1) <$> filter (isre tiny) l) ++ filter (ispos tiny) l ++ (cconj <$> filter (ispos tiny) l) ≡ₚ l.
Proof.
  intros Ht Hr Hc. rewrite <- (sort_closed tiny l) by done. rewrite re_cre; [symmetry; apply sort_perm|].
  intros r [Hi Hl]%elem_of_list_filter. by apply (unresolved_spec tiny r); [|apply Hr|].
Qed.
Definition to_zpk tiny t : zpk := (zpk2rcpz_dict tiny t).1.
Lemma to_zpk_eq tiny t : to_zpk tiny t = Zpk ((fun r : C_fld => cre r.1) <$> filter (isre tiny) (t_z t)) (filter (ispos tiny) (t_z t))
  ((fun r : C_fld => cre r.1) <$> filter (isre tiny) (t_p t)) (filter (ispos tiny) (t_p t)).
Proof. unfold to_zpk, zpk2rcpz_dict. by rewrite !sort_eq. Qed.

Lemma fac_pr f l : (0 : C_fld) ∉ l -> fprod (fac f) l = pr (ci * f) l / pr 0 l.
Proof.
  intros H0. unfold pr. induction l as [|r l IH]; [change ((1 : C_fld) = 1 / 1); field; exact (f1_neq_0 (K := C_fld))|].
  apply not_elem_of_cons in H0 as [Hr H0]. specialize (IH H0).
  change (fac f r * fprod (fac f) l = ((ci * f - r) * fprod (fun r => ci * f - r) l) / ((0 - r) * fprod (fun r => 0 - r) l)).
  rewrite IH. unfold fac. assert (Hp := pr_neq_0 0 l H0). unfold pr in Hp. assert (Hr' : r <> 0) by congruence.
  field. split; [done|]. split; [|done]. intros E. apply Hr'. transitivity (- (- r)); [ring|]. rewrite E. ring.
Qed.
Lemma szp_transfer tiny t f : (0 < tiny)%R -> closed (t_z t) -> closed (t_p t) -> (forall r, r ∈ t_z t ++ t_p t -> resolved tiny r) ->
  t_k t <> 0 -> regular t (ci * f) -> szp (to_zpk tiny t) f = transfer t (ci * f) / transfer t 0.
Proof.
  intros Ht Hz Hp Hr Hk Hreg. rewrite szp_eq, to_zpk_eq. unfold all_zeros, all_poles. cbn [zeros_r zeros_c poles_r poles_c].
  rewrite (fprod_perm _ _ _ (sorted_all tiny (t_z t) Ht (fun r H => Hr r (proj2 (elem_of_app _ _ _) (or_introl H))) Hz)).
  rewrite (fprod_perm _ _ _ (sorted_all tiny (t_p t) Ht (fun r H => Hr r (proj2 (elem_of_app _ _ _) (or_intror H))) Hp)).
  assert (Z0 : (0 : C_fld) ∉ t_z t) by (intros H; destruct (Hr 0) as [H0 _]; [by apply elem_of_app; left|done]).
  assert (P0 : (0 : C_fld) ∉ t_p t) by (intros H; destruct (Hr 0) as [H0 _]; [by apply elem_of_app; right|done]).
  rewrite !fac_pr by done. rewrite !transfer_eq. assert (A1 := pr_neq_0 _ _ Z0). assert (A2 := pr_neq_0 _ _ P0). assert (A3 := pr_neq_0 _ _ Hreg).
  field. done.
Qed.
Lemma mul_div (a b : C_fld) : b <> 0 -> a = a * b / b. Proof. intros. field. done. Qed.
Lemma div_mul (a b : C_fld) : b <> 0 -> a / b * b = a. Proof. intros. field. done. Qed.
Lemma abs_div (x y : C_fld) : y <> 0 -> (C_abs (x / y) : C_fld) = (C_abs x : C_fld) / (C_abs y : C_fld).
Proof.
  intros Hy. rewrite (mul_div (C_abs (x / y) : C_fld) (C_abs y : C_fld)) by (by apply abs_neq_0). rewrite <- abs_mul. by rewrite div_mul.
Qed.
